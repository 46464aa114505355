(** Theorems about PIDFileLock (C63): any number of processes, any interleaving of their system calls, crashes at any point. *)
From Verif Require Import Prelude PidLock_Model PidLock_Spec PidLock_Proofs.

(** The full statement: no two living processes have the lock, whatever happens. *)
Definition C63_full_statement : Prop := forall running es, exclusive (exec (start running) es).
(** True if no two processes are in a call at once; they may die at any point, also in the middle of a call, and be started again. *)
Theorem C63_exclusive_partial : forall running es, throughout one_at_a_time (start running) es -> exclusive (exec (start running) es).
Proof. exact exclusive_one. Qed.
Print Assumptions C63_exclusive_partial.
(** True of all interleavings if no process dies and none reads the file between its creation and the writing of the PID. *)
Theorem C63_exclusive_orderly_partial : forall running es, throughout orderly (start running) es -> exclusive (exec (start running) es).
Proof. exact exclusive_ord. Qed.
Print Assumptions C63_exclusive_orderly_partial.
(** acquire() called with no other process in a call, whatever happened before, also crashes: it raises ResourceLocked with the PID in the
    file if that process lives, and takes the lock otherwise: also if the file is that of a dead process, empty, or not a number. *)
Theorem C63_acquire_alone : forall s p, alive (procs s p) = true -> at_ (procs s p) = Idle -> held (procs s p) = false ->
  let s' := exec s (Acquire p :: repeat (Turn p) 6) in
  (forall q, taken_by s q -> file s' = file s /\ procs s' p = mk_process true false Idle (log (procs s p) ++ [Locked q])) /\
  ((forall q, ~ taken_by s q) -> (exists i, file s' = Some (i, Pid p)) /\ procs s' p = mk_process true true Idle (log (procs s p) ++ [Acquired])) /\
  forall q, q <> p -> procs s' q = procs s q.
Proof. exact alone. Qed.
Print Assumptions C63_acquire_alone.
(** ResourceLocked(pid) names a process that lives, under all interleavings. *)
Theorem C63_locked_by_the_living : forall s e p q, log (procs (step s e) p) = log (procs s p) ++ [Locked q] ->
  alive (procs s q) = true /\ e = Turn p /\ at_ (procs s p) = Looking q.
Proof. exact locked_truthful. Qed.
Print Assumptions C63_locked_by_the_living.
(** release() of one who has it removes the file; of one who has not it raises RuntimeError and leaves the file. *)
Theorem C63_release : forall s p i c, alive (procs s p) = true -> at_ (procs s p) = Idle -> file s = Some (i, c) ->
  let s' := exec s [Release p; Turn p] in
  (held (procs s p) = true -> file s' = None /\ ~ has_lock s' p /\ log (procs s' p) = log (procs s p) ++ [Released]) /\
  (held (procs s p) = false -> file s' = file s /\ log (procs s' p) = log (procs s p) ++ [NotAcquired]).
Proof. exact release_frees. Qed.
Print Assumptions C63_release.
(** With one call at a time no call raises FileNotFoundError. *)
Theorem C63_no_missing_file_partial : forall running es p, throughout one_at_a_time (start running) es ->
  ~ In Missing (log (procs (exec (start running) es) p)).
Proof. exact no_missing. Qed.
Print Assumptions C63_no_missing_file_partial.

Definition everybody (p : nat) : bool := true.
Definition takes (p n : nat) : list event := Acquire p :: repeat (Turn p) n.
(** 1 dies having created the file but not written it, 2 takes over, 3 is refused, 2 dies, 3 takes over *)
Definition history : list event := takes 1 1 ++ [Crash 1] ++ takes 2 5 ++ takes 3 3 ++ [Crash 2; Start 2] ++ [Release 3] ++ [Crash 2] ++ takes 3 6.
Example C63_example_one_at_a_time : throughout one_at_a_time (start everybody) history.
Proof.
  unfold history, takes. cbn [app repeat]. repeat (lazymatch goal with |- throughout _ _ (_ :: _) => apply throughout_cons end; [try exact I; intros q Hq (_ & B); apply B; clear B;
    destruct q as [|[|[|[|q]]]]; vm_compute; reflexivity || congruence|]). apply throughout_nil.
Qed.
Example C63_example_history : let s := exec (start everybody) history in
  log (procs s 1) = [] /\ log (procs s 2) = [Acquired] /\ log (procs s 3) = [Locked 2; NotAcquired; Acquired] /\ has_lock s 3.
Proof. vm_compute. repeat split; discriminate. Qed.
Example C63_example_orderly : throughout orderly (start everybody) (takes 1 2 ++ [Acquire 2; Turn 2; Turn 2; Release 1; Turn 1; Turn 2]).
Proof.
  unfold takes. cbn [app repeat]. repeat (lazymatch goal with |- throughout _ _ (_ :: _) => apply throughout_cons end; [try exact I; intros (K & i & E); vm_compute in K, E; congruence|]). apply throughout_nil.
Qed.

(** Two processes find the file of a dead one: the slower removes the file the faster has just made, and both have the lock. *)
Definition both_clean_up : list event :=
  takes 0 2 ++ [Crash 0] ++ takes 1 3 ++ takes 2 3 ++ repeat (Turn 1) 3 ++ repeat (Turn 2) 3.
Theorem C63_both_clean_up_refuted : let s := exec (start everybody) both_clean_up in has_lock s 1 /\ has_lock s 2.
Proof. vm_compute. repeat split; discriminate. Qed.
Print Assumptions C63_both_clean_up_refuted.
(** Without anyone dying: a file just created is empty, which passes for one left behind. *)
Definition half_written : list event := takes 1 1 ++ takes 2 5 ++ [Turn 1].
Theorem C63_half_written_refuted : let s := exec (start everybody) half_written in has_lock s 1 /\ has_lock s 2.
Proof. vm_compute. repeat split; discriminate. Qed.
Print Assumptions C63_half_written_refuted.
Theorem C63_full_statement_refuted : ~ C63_full_statement.
Proof. intros H. pose proof (H everybody half_written 1 2) as K. destruct C63_half_written_refuted as (A & B). specialize (K A B). discriminate. Qed.
Print Assumptions C63_full_statement_refuted.
(** The holder releases between the two looks at the file: acquire() of a free lock raises FileNotFoundError. *)
Theorem C63_missing_file_refuted :
  log (procs (exec (start everybody) (takes 1 2 ++ takes 2 1 ++ [Release 1; Turn 1; Turn 2])) 2) = [Missing].
Proof. reflexivity. Qed.
Print Assumptions C63_missing_file_refuted.
(** A process that died holding the lock and is started again with the same PID (as the first process of a container is) finds itself to
    be the holder, and never gets the lock, however often it tries. *)
Theorem C63_same_pid_refuted : forall n,
  log (procs (exec (start everybody) (takes 1 2 ++ [Crash 1; Start 1] ++ concat (repeat (takes 1 3) n))) 1) = Acquired :: repeat (Locked 1) n.
Proof. exact same_pid. Qed.
Print Assumptions C63_same_pid_refuted.
(** A robbed process that releases removes the file of the other, and a third gets in. *)
Theorem C63_third_gets_in_refuted : let s := exec (start everybody) (half_written ++ [Release 1; Turn 1] ++ takes 3 2) in has_lock s 2 /\ has_lock s 3.
Proof. vm_compute. repeat split; discriminate. Qed.
Print Assumptions C63_third_gets_in_refuted.
