(** ExclusiveWritebackCache used by several threads (C126): any number of threads and calls, any schedule, any storage, whether
    misses are remembered or not and whether there is a delete_method or not. *)
From Verif Require Import Prelude PreludeFacts MoreFacts MetrThr_Model MetrThr_Spec WbThr_Model WbThr_Spec WbThr_Proofs.

(** The property: once every call has ended and every write and deletion was done, a cache reads what is in the storage. *)
Definition C126_full_statement : Prop :=
  forall (K V : Type) (eqb : K -> K -> bool) (store_key_errors deletable : bool) (storage : dict K V) programs before,
    eqb_ok eqb -> dwf storage ->
    let c := wb_run eqb store_key_errors deletable (wb_start storage programs) before in
    at_rest c -> forall t k, todo c t = [Get k] -> (forall u, u <> t -> only_works (todo c u)) ->
    forall after r, In (Get k, r) (skipn (length (log c)) (log (wb_run eqb store_key_errors deletable c after))) ->
    r = found (dget eqb (store (shared c)) k).
Definition reader_and_writer (t : nat) : list (call nat nat) :=
  match t with 0 => [Get 1] | 1 => [Put 1 20; Get 1] | 2 => [Work; Work] | _ => [] end.
(** A reader gets the old value from the storage; a writer puts the new one into the cache and submits the write; the reader puts the
    old value over it. The storage has 20 and the cache 10, for good. *)
Definition old_over_new : list nat := [0; 0; 0; 0; 0; 0] ++ [2; 2] ++ [0] ++ [1; 1; 1; 1; 1; 1; 1] ++ [0; 0] ++ [2; 2].
Theorem C126_full_statement_refuted : ~ C126_full_statement.
Proof.
  intros H. specialize (H nat nat Nat.eqb true true [(1, 10)] reader_and_writer old_over_new nateqb_ok ltac:(repeat constructor; simpl; intuition)).
  assert (R : Ok (Some 10) = found (Some 20)); [|discriminate].
  apply (H ltac:(split; [intros [|[|[|t]]]; vm_compute; reflexivity|vm_compute; reflexivity]) 1 1 ltac:(vm_compute; reflexivity) ltac:(intros [|[|[|t]]] N d; vm_compute; congruence || tauto) [1; 1; 1; 1; 1; 1; 1]).
  vm_compute. left. reflexivity.
Qed.
Print Assumptions C126_full_statement_refuted.

(** What is true: as long as the calls about a key do not overlap - whatever the calls about the other keys do - they have the effect
    and the results they would have with a dictionary, *)
Theorem C126_partial : forall (K V : Type) (eqb : K -> K -> bool) (store_key_errors deletable : bool) (storage : dict K V) programs schedule k,
  eqb_ok eqb -> dwf storage -> in_turn eqb deletable store_key_errors k (wb_start storage programs) schedule ->
  let c := wb_run eqb store_key_errors deletable (wb_start storage programs) schedule in
  as_dict deletable (dget eqb storage k) (history eqb k (log c)) /\
  (at_rest c -> dget eqb (store (shared c)) k = value_after deletable (dget eqb storage k) (history eqb k (log c))).
Proof. intros K V eqb ske deletable storage programs schedule k ok W T. split; [apply turns_log; auto|apply turns_rest; auto]. Qed.
Print Assumptions C126_partial.
(** and the cache then reads what is in the storage. *)
Theorem C126_coherent_partial : forall (K V : Type) (eqb : K -> K -> bool) (store_key_errors deletable : bool) (storage : dict K V) programs before k,
  eqb_ok eqb -> dwf storage -> in_turn eqb deletable store_key_errors k (wb_start storage programs) before ->
  let c := wb_run eqb store_key_errors deletable (wb_start storage programs) before in
  at_rest c -> forall t, todo c t = [Get k] -> (forall u, u <> t -> only_works (todo c u)) ->
  forall after r, In (Get k, r) (skipn (length (log c)) (log (wb_run eqb store_key_errors deletable c after))) ->
  r = found (dget eqb (store (shared c)) k).
Proof. intros K V eqb ske deletable storage programs before k ok W T c R t Tt O after r. eapply turns_coherent; eauto. Qed.
Print Assumptions C126_coherent_partial.
(** They never overlap if every thread has keys of its own. *)
Theorem C126_apart : forall (K V : Type) (eqb : K -> K -> bool) (store_key_errors deletable : bool) (storage : dict K V) programs k schedule,
  eqb_ok eqb -> dwf storage -> apart programs -> in_turn eqb deletable store_key_errors k (wb_start storage programs) schedule.
Proof. intros. apply apart_in_turn; auto. Qed.
Print Assumptions C126_apart.

(** Whatever the threads do: what a read gives was in the storage under that key or was written under it, *)
Theorem C126_made_of : forall (K V : Type) (eqb : K -> K -> bool) (store_key_errors deletable : bool) (storage : dict K V) programs schedule k v,
  eqb_ok eqb -> dwf storage ->
  In (Get k, Ok (Some v)) (log (wb_run eqb store_key_errors deletable (wb_start storage programs) schedule)) ->
  dget eqb storage k = Some v \/ exists t, In (Put k v) (programs t).
Proof. intros K V eqb ske deletable storage programs schedule k v ok W I. eapply made_of; eauto. Qed.
Print Assumptions C126_made_of.
(** and a key that nobody deletes is found by every read that begins after a write to it has ended. *)
Theorem C126_found : forall (K V : Type) (eqb : K -> K -> bool) (store_key_errors deletable : bool) (storage : dict K V) programs k before,
  eqb_ok eqb -> dwf storage -> (forall t, ~ In (Del k) (programs t)) ->
  let c := wb_run eqb store_key_errors deletable (wb_start storage programs) before in
  forall v r, In (Put k v, r) (log c) -> (forall t a, current c t <> Some (Get k, a)) ->
  forall after r', In (Get k, r') (skipn (length (log c)) (log (wb_run eqb store_key_errors deletable c after))) -> exists v', r' = Ok (Some v').
Proof. intros K V eqb ske deletable storage programs k before ok W N c v r P C after r' I. eapply written_found; eauto. Qed.
Print Assumptions C126_found.

(** and no call hangs, whoever was stopped where: it ends after a bounded number of turns if a worker is there to do the jobs, and nobody
    has to begin another call for it. *)
Theorem C126_ends : forall (K V : Type) (eqb : K -> K -> bool) (store_key_errors deletable : bool) (storage : dict K V) programs before,
  let c := wb_run eqb store_key_errors deletable (wb_start storage programs) before in
  forall t d a w n rest, current c t = Some (d, a) ->
  w <> t -> current c w = None -> todo c w = repeat Work n ++ rest -> length (jobs (shared c)) < n ->
  exists schedule r l, let c' := wb_run eqb store_key_errors deletable c schedule in
    length schedule <= 2 * length (jobs (shared c)) + 15 /\
    current c' t = None /\ log c' = log c ++ l ++ [(d, r)] /\ forall u, u <> w -> todo c' u = todo c u.
Proof. intros. eapply every_call_ends; eauto. Qed.
Print Assumptions C126_ends.

(** ** What overlapping calls can do besides *)
Definition two_readers (t : nat) : list (call nat nat) := match t with 0 => [Get 1] | 1 => [Get 1] | 2 => [Work] | _ => [] end.
(** A key that is in the storage, that nobody writes and nobody deletes: a reader is told that it is not there. *)
Theorem C126_key_error_refuted : forall store_key_errors deletable, exists schedule,
  In (Get 1, Err KeyError) (log (wb_run Nat.eqb store_key_errors deletable (wb_start [(1, 10)] two_readers) schedule)).
Proof.
  intros ske deletable. exists ([0; 0; 0; 0; 0; 0] ++ [2; 2] ++ [0; 0] ++ [1; 1; 1; 1; 1; 1; 1]). destruct ske, deletable; vm_compute; auto.
Qed.
Print Assumptions C126_key_error_refuted.
Definition reader_and_deleter (t : nat) : list (call nat nat) :=
  match t with 0 => [Get 1] | 1 => [Del 1; Get 1] | 2 => [Work; Work] | _ => [] end.
(** A key that was deleted, from the storage too, is there again for the thread that deleted it. *)
Theorem C126_deleted_refuted : forall store_key_errors, exists schedule,
  let c := wb_run Nat.eqb store_key_errors true (wb_start [(1, 10)] reader_and_deleter) schedule in
  finished c /\ store (shared c) = [] /\ filter (fun e => match fst e with Work => false | _ => true end) (log c) =
    [(Del 1, Ok None); (Get 1, Ok (Some 10)); (Get 1, Ok (Some 10))].
Proof.
  intros ske. exists ([0; 0; 0; 0; 0; 0] ++ [2; 2] ++ [0] ++ [1; 1; 1; 1; 1; 1; 1; 1] ++ [0; 0] ++ [2; 2] ++ [1; 1; 1; 1; 1; 1; 1]).
  destruct ske; (split; [split; intros [|[|[|t]]]; vm_compute; reflexivity|split; vm_compute; reflexivity]).
Qed.
Print Assumptions C126_deleted_refuted.

(** ** The hypotheses are met *)
Definition own_keys (t : nat) : list (call nat nat) :=
  match t with 0 => [Get 1; Put 1 11; Del 1; Get 1; Put 1 12] | 1 => [Put 2 21; Get 2; Get 3] | 2 => repeat Work 36 | 3 => [Get 1] | _ => [] end.
Fixpoint times (n : nat) (l : list nat) : list nat := match n with 0 => [] | S n => l ++ times n l end.
(** thread 3 uses the key of thread 0, when that one is through *)
Definition mixed : list nat := times 70 [0; 1; 2].
Example C126_partial_case :
  let c := wb_run Nat.eqb true true (wb_start [(1, 10); (3, 30)] own_keys) mixed in
  in_turn Nat.eqb true true 1 (wb_start [(1, 10); (3, 30)] own_keys) mixed /\ at_rest c /\ todo c 3 = [Get 1] /\ (forall u, u <> 3 -> only_works (todo c u)) /\
  map snd (history Nat.eqb 1 (log c)) = [Ok (Some 10); Ok None; Ok None; Err KeyError; Ok None] /\
  skipn (length (log c)) (log (wb_run Nat.eqb true true c (times 10 [3]))) = [(Get 1, Ok (Some 12))].
Proof.
  split; [apply (@in_turnb_ok nat nat Nat.eqb nateqb_ok true true 4); [intros [|[|[|[|t]]]] L; try lia; split; vm_compute; reflexivity|vm_compute; reflexivity]|].
  split; [split; [intros [|[|[|[|t]]]]|]; vm_compute; reflexivity|].
  split; [vm_compute; reflexivity|]. split; [intros [|[|[|[|t]]]] N d; vm_compute; intuition congruence|]. split; vm_compute; reflexivity.
Qed.
(** two threads with the same key that write; then one of them reads it *)
Definition two_writers (t : nat) : list (call nat nat) := match t with 0 => [Put 1 11; Get 1] | 1 => [Put 1 21] | 2 => [Work; Work] | _ => [] end.
Example C126_found_case :
  let c := wb_run Nat.eqb true true (wb_start [] two_writers) [0; 1; 0; 0; 1; 0; 1; 0; 0; 0; 1; 1; 1; 1; 1] in
  In (Put 1 11, Ok None) (log c) /\ (forall t a, current c t <> Some (Get 1, a)) /\
  skipn (length (log c)) (log (wb_run Nat.eqb true true c [0; 0; 0; 0; 0; 0; 0])) = [(Get 1, Ok (Some 21))].
Proof. split; [vm_compute; auto|]. split; [intros [|[|[|t]]] a; vm_compute; discriminate|vm_compute; reflexivity]. Qed.
Example C126_made_of_case : In (Get 1, Ok (Some 10)) (log (wb_run Nat.eqb true true (wb_start [(1, 10)] reader_and_writer) old_over_new)).
Proof. vm_compute. auto. Qed.
(** thread 0 is about to store what it read, thread 1 holds the lock, a write of thread 1's is waiting to be done *)
Example C126_ends_case :
  let c := wb_run Nat.eqb true true (wb_start [(1, 10)] (fun t => match t with 0 => [Get 1] | 1 => [Put 1 20; Put 1 30] | 2 => repeat Work 5 | _ => [] end))
    ([0; 0; 0; 0; 0; 0] ++ [2; 2] ++ [0] ++ [1; 1; 1; 1; 1; 1; 1] ++ [1; 1]) in
  current c 0 = Some (Get 1, GAdd 1 10) /\ locked (shared c) = true /\ current c 1 = Some (Put 1 30, PAdd 1 30) /\
  current c 2 = None /\ todo c 2 = repeat Work 4 ++ [] /\ jobs (shared c) = [JWrite 1 20].
Proof. vm_compute. repeat split. Qed.
