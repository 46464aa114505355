(** C100: monitors and the blocks they protect. *)
From Verif Require Import Prelude MonSync_Model MonSync_Spec MonSync_Proofs.

(** Full statement (false, see below): for any programs, whatever they do, and
    any schedule, monitors exclude: a monitor is entered only when nobody is
    inside (an RMonitor: or the same thread), it is left and given up only by the
    thread inside, and RuntimeError is never raised. *)
Definition C100_full_statement : Prop :=
  forall (re : nat -> bool) (programs : nat -> code) (schedule : list nat) (m : nat),
    owner re m (log (run re (start programs) schedule)) <> None.

(** It holds, and the lock is free exactly when nobody is inside, for programs
    that do not enter a Monitor they are inside of and release only what they
    have entered - however they end, exceptions included. *)
Theorem C100_exclusive_partial :
  forall (re : nat -> bool) (programs : nat -> code) (schedule : list nat) (m : nat),
    (forall t, proper re [] (programs t)) ->
    owner re m (log (run re (start programs) schedule)) = Some (locks (run re (start programs) schedule) m).
Proof. exact exclusive. Qed.
Print Assumptions C100_exclusive_partial.

(** a thread that is through, normally or by an exception, is inside no monitor *)
Theorem C100_released_partial :
  forall (re : nat -> bool) (programs : nat -> code) (schedule : list nat) (t m n : nat),
    (forall t, proper re [] (programs t)) ->
    finished (threads (run re (start programs) schedule) t) ->
    owner re m (log (run re (start programs) schedule)) <> Some (Some (t, n)).
Proof. exact finished_frees. Qed.
Print Assumptions C100_released_partial.

(** in a release block of a Monitor nobody is inside it to begin with *)
Theorem C100_release_frees_partial :
  forall (re : nat -> bool) (programs : nat -> code) (schedule : list nat) (m t : nat) (before after : list event),
    (forall t, proper re [] (programs t)) -> re m = false ->
    log (run re (start programs) schedule) = before ++ GaveUp t m :: after ->
    owner re m (before ++ [GaveUp t m]) = Some None.
Proof. exact release_frees. Qed.
Print Assumptions C100_release_frees_partial.

(** monitors change neither what a thread does nor which exceptions come out *)
Theorem C100_transparent_partial :
  forall (re : nat -> bool) (programs : nat -> code) (schedule : list nat) (t : nat),
    (forall t, proper re [] (programs t)) ->
    let c := run re (start programs) schedule in
    finished (threads c t) ->
    (steps_of t (log c), failing (threads c t)) = meaning (programs t).
Proof. exact transparent. Qed.
Print Assumptions C100_transparent_partial.
Theorem C100_steps_partial :
  forall (re : nat -> bool) (programs : nat -> code) (schedule : list nat) (t : nat),
    (forall t, proper re [] (programs t)) ->
    exists rest, fst (meaning (programs t)) = steps_of t (log (run re (start programs) schedule)) ++ rest.
Proof. exact prefix. Qed.
Print Assumptions C100_steps_partial.

(** releasing a lock one may not release changes no lock, and RuntimeError comes out of the block, whatever the programs are *)
Theorem C100_refused :
  forall (re : nat -> bool) (programs : nat -> code) (schedule : list nat) (t u m : nat),
    let c := run re (start programs) schedule in
    let c' := run re (start programs) (schedule ++ [t]) in
    log c' = log c ++ [Refused u m] -> u = t /\ failing (threads c' t) = true /\ forall l, locks c' l = locks c l.
Proof. exact refused_fails. Qed.
Print Assumptions C100_refused.

(** with monitors entered in ascending order there is no deadlock: some thread can
    always go on, and giving every thread its turn often enough ends them all *)
Theorem C100_no_deadlock_partial :
  forall (re : nat -> bool) (programs : nat -> code) (n : nat) (schedule : list nat),
    (forall t, ordered re [] (programs t)) -> (forall t, n <= t -> programs t = Done) ->
    let c := run re (start programs) schedule in
    (forall t, finished (threads c t)) \/ exists t, ~ waits re c t.
Proof. exact progress. Qed.
Print Assumptions C100_no_deadlock_partial.
Theorem C100_all_finish_partial :
  forall (re : nat -> bool) (programs : nat -> code) (n : nat) (schedule : list nat),
    (forall t, ordered re [] (programs t)) -> (forall t, n <= t -> programs t = Done) ->
    exists rounds, forall t, finished (threads (run re (start programs) (schedule ++ round_robin n rounds)) t).
Proof. exact round_robin_ok. Qed.
Print Assumptions C100_all_finish_partial.

(** Monitors are not reentrant: entering one twice never ends *)
Theorem C100_not_reentrant :
  forall (re : nat -> bool) (m : nat), re m = false ->
  forall (t : nat) (body k1 k2 : code) (programs : nat -> code) (schedule : list nat),
    programs t = With m (With m body k1) k2 -> (forall u, u <> t -> avoids m (programs u)) ->
    ~ finished (threads (run re (start programs) schedule) t).
Proof. exact never_finishes. Qed.
Print Assumptions C100_not_reentrant.

(** ** A case: two threads, a Monitor (0) and an RMonitor (1) entered twice, a
    release block, an exception that leaves two blocks and is caught *)
Definition eg_kind (m : nat) : bool := Nat.eqb m 1.
Definition eg_programs (t : nat) : code :=
  match t with
  | 0 => Try (With 0 (Do 1 (With 1 (With 1 (Do 2 Throw) Done) Done)) Done) (Do 3 Done)
  | 1 => With 0 (Do 4 (Release 0 (Do 5 Done) (Do 6 Done))) (With 1 (Do 7 Done) Throw)
  | _ => Done
  end.
Definition eg_schedule : list nat := [1; 0; 1; 0; 1; 0; 1; 0; 1; 0; 1; 0; 1].
Example C100_case :
  (forall t, proper eg_kind [] (eg_programs t)) /\ (forall t, ordered eg_kind [] (eg_programs t)) /\
  (forall t, 2 <= t -> eg_programs t = Done) /\
  let c := run eg_kind (start eg_programs) (eg_schedule ++ round_robin 2 20) in
  finished (threads c 0) /\ finished (threads c 1) /\ failing (threads c 0) = false /\ failing (threads c 1) = true /\
  log c = [Entered 1 0; Did 1 4; GaveUp 1 0; Entered 0 0; Did 1 5; Did 0 1; Entered 0 1; Entered 0 1; Did 0 2;
           Left 0 1; Left 0 1; Left 0 0; TookBack 1 0; Did 1 6; Did 0 3; Left 1 0; Entered 1 1; Did 1 7; Left 1 1].
Proof.
  split; [|split; [|split]].
  - intros [|[|t]]; simpl; repeat split; auto; unfold eg_kind; simpl; intros; try discriminate; intuition (try discriminate; try lia).
  - intros [|[|t]]; simpl; repeat split; auto; unfold eg_kind; simpl; intros; intuition (try discriminate; try lia).
  - intros [|[|t]] H; auto; lia.
  - vm_compute. repeat split; auto.
Qed.

(** ** Refutations *)
(** a Monitor may be released by a thread that is not inside: then two are inside *)
Theorem C100_full_statement_refuted : ~ C100_full_statement.
Proof.
  intros H.
  apply (H (fun _ => false) (fun t => match t with 0 => With 0 (Do 1 Done) Done | 1 => Release 0 (Do 2 Done) Done | 2 => With 0 (Do 3 Done) Done | _ => Done end)
           [0; 1; 2; 0] 0).
  vm_compute. reflexivity.
Qed.
Print Assumptions C100_full_statement_refuted.

(** releasing an RMonitor that was entered twice does not let anybody in *)
Theorem C100_release_rmonitor_refuted :
  ~ (forall (re : nat -> bool) (programs : nat -> code) (schedule : list nat) (m t : nat) (before after : list event),
       (forall t, proper re [] (programs t)) ->
       log (run re (start programs) schedule) = before ++ GaveUp t m :: after ->
       owner re m (before ++ [GaveUp t m]) = Some None).
Proof.
  intros H.
  specialize (H (fun _ => true) (fun t => match t with 0 => With 0 (With 0 (Release 0 Done Done) Done) Done | _ => Done end)
                [0; 0; 0] 0 0 [Entered 0 0; Entered 0 0] []).
  assert (C : owner (fun _ => true) 0 ([Entered 0 0; Entered 0 0] ++ [GaveUp 0 0]) = Some None).
  { apply H; [|reflexivity]. intros [|t]; simpl; auto. repeat split; auto; intros; discriminate. }
  vm_compute in C. discriminate.
Qed.
Print Assumptions C100_release_rmonitor_refuted.

(** two threads that enter two Monitors in different orders may wait for each other for ever *)
Theorem C100_deadlock_refuted :
  ~ (forall (re : nat -> bool) (programs : nat -> code) (n : nat) (schedule : list nat),
       (forall t, proper re [] (programs t)) -> (forall t, n <= t -> programs t = Done) ->
       let c := run re (start programs) schedule in
       (forall t, finished (threads c t)) \/ exists t, ~ waits re c t).
Proof.
  intros H.
  specialize (H (fun _ => false) (fun t => match t with 0 => With 0 (With 1 Done Done) Done | 1 => With 1 (With 0 Done Done) Done | _ => Done end)
                2 [0; 1]).
  destruct H as [H|[t H]].
  - intros [|[|t]]; simpl; repeat split; auto; intros; intuition discriminate.
  - intros [|[|t]] L; auto; lia.
  - specialize (H 0). destruct H as [H _]. discriminate.
  - apply H. destruct t as [|[|t]]; reflexivity.
Qed.
Print Assumptions C100_deadlock_refuted.
