(** Theorems about CPManager: C39. All of them hold for every max_number and max_cycle_no (unless a hypothesis says otherwise), any
    number of threads with any programs, and every interleaving. *)
From Verif Require Import Prelude Pool_Model Pool_Spec Pool_Proofs.

(** At every moment each connection ever created is idle, or held by one thread, or on its way in the hands of one call, or torn
    down: exactly one of these, and once. *)
Theorem C39_accounted : forall max_number max_cycle_no programs es, accounted (pexec max_number max_cycle_no (pstart programs) es).
Proof. exact all_accounted. Qed.
Print Assumptions C39_accounted.

(** so no connection is leased to two users, or leased while idle, or torn down twice *)
Theorem C39_one_place : forall max_number max_cycle_no programs es,
  let c := pexec max_number max_cycle_no (pstart programs) es in
  NoDup (idle c ++ flat_map held (pthreads c) ++ flat_map (fun th => moving (at_ th)) (pthreads c) ++ torn (trace c)).
Proof. exact one_place. Qed.
Print Assumptions C39_one_place.

(** Once marked as failed, or torn down, a connection is not handed out any more. *)
Theorem C39_never_again : forall max_number max_cycle_no programs es l1 l2 x a,
  trace (pexec max_number max_cycle_no (pstart programs) es) = l1 ++ a :: l2 -> a = Marked x \/ a = Tore x -> ~ In (Took x) l2.
Proof. exact never_again. Qed.
Print Assumptions C39_never_again.

(** No connection is handed out more than max_cycle_no times (once, if max_cycle_no is less than 1); an idle one was handed out fewer
    times than that and was not marked as failed. *)
Theorem C39_recycled : forall max_number max_cycle_no programs es x,
  (Z.of_nat (taken (trace (pexec max_number max_cycle_no (pstart programs) es)) x) <= Z.max 1 max_cycle_no)%Z.
Proof. exact recycled. Qed.
Print Assumptions C39_recycled.
Theorem C39_idle_usable : forall max_number max_cycle_no programs es x,
  In x (idle (pexec max_number max_cycle_no (pstart programs) es)) ->
  ~ In (Marked x) (trace (pexec max_number max_cycle_no (pstart programs) es)) /\
  (Z.of_nat (taken (trace (pexec max_number max_cycle_no (pstart programs) es)) x) < max_cycle_no)%Z.
Proof. exact idle_unmarked. Qed.
Print Assumptions C39_idle_usable.

(** No more than max_number are idle. *)
Theorem C39_idle_bounded : forall max_number max_cycle_no programs es, (0 < max_number)%Z ->
  (Z.of_nat (length (idle (pexec max_number max_cycle_no (pstart programs) es))) <= max_number)%Z.
Proof. exact pool_small. Qed.
Print Assumptions C39_idle_bounded.

(** No call made by a well-behaved user ends with a KeyError. *)
Theorem C39_no_key_error : forall max_number max_cycle_no programs es t th,
  nth_error (pthreads (pexec max_number max_cycle_no (pstart programs) es)) t = Some th -> ~ In KeyErr (results th).
Proof. exact no_key_error. Qed.
Print Assumptions C39_no_key_error.

(** When invalidate() (or close(), which ends with it) returns, nothing is idle at that moment. *)
Theorem C39_invalidated : forall max_number max_cycle_no programs es t ok th th',
  let c := pexec max_number max_cycle_no (pstart programs) es in
  nth_error (pthreads c) t = Some th -> match at_ th with ILock | ILoop | IGet | ITear _ => True | _ => False end ->
  nth_error (pthreads (pturn max_number max_cycle_no c t ok)) t = Some th' -> at_ th' = Outside ->
  idle (pturn max_number max_cycle_no c t ok) = [].
Proof.
  intros mn mc programs es t ok th th' c E Hp. apply (invalidated mn mc c t ok th th'); auto.
  - apply Inv_exec, Inv_start.
  - destruct (at_ th); try destruct Hp; reflexivity.
Qed.
Print Assumptions C39_invalidated.

(** After close() has passed its first two statements, whatever happens, acquire_connection() raises and changes nothing. *)
Theorem C39_closed : forall max_number max_cycle_no programs es, let c := pexec max_number max_cycle_no (pstart programs) es in
  finalized c = true -> (forall t th, nth_error (pthreads c) t = Some th -> at_ th <> CSet) ->
  forall more t ok th rest, let c2 := pexec max_number max_cycle_no c more in
  nth_error (pthreads c2) t = Some th -> at_ th = Outside -> todo th = Acquire :: rest ->
  pthreads (pturn max_number max_cycle_no c2 t ok) = upd (pthreads c2) t (mk_pthread rest (held th) Outside (results th ++ [Terminating])) /\
  idle (pturn max_number max_cycle_no c2 t ok) = idle c2 /\ trace (pturn max_number max_cycle_no c2 t ok) = trace c2.
Proof.
  intros mn mc programs es c Hf Hn more t ok th rest c2 E Ea Et. apply acquire_refused; auto. apply terminating_stays. apply closed_is_terminating; auto.
Qed.
Print Assumptions C39_closed.

(** The full statement asks for more: that everything can always be completed; that once close() has returned to anyone nothing is
    handed out, and that connections released later are torn down as well; that there are never more than max_number connections (its
    documentation: "maximum number of connections"). *)
Definition C39_can_finish_statement : Prop := forall max_number max_cycle_no programs es, exists more,
  Forall over (pthreads (pexec max_number max_cycle_no (pstart programs) (es ++ more))).
Definition C39_close_statement : Prop := forall max_number max_cycle_no programs es,
  let c := pexec max_number max_cycle_no (pstart programs) es in
  finalized c = true -> Forall over (pthreads c) -> flat_map held (pthreads c) = [] -> forall x, x < next c -> In x (torn (trace c)).
Definition C39_returned_close_statement : Prop := forall max_number max_cycle_no programs es t th n rest,
  let c := pexec max_number max_cycle_no (pstart programs) es in
  nth_error programs t = Some (Close :: Acquire :: rest) -> nth_error (pthreads c) t = Some th -> ~ In (Got n) (results th).
Definition C39_number_statement : Prop := forall max_number max_cycle_no programs es, (0 < max_number)%Z ->
  let c := pexec max_number max_cycle_no (pstart programs) es in
  (Z.of_nat (length (idle c ++ flat_map held (pthreads c))) <= max_number)%Z.
Definition C39_full_statement : Prop :=
  C39_can_finish_statement /\ C39_close_statement /\ C39_returned_close_statement /\ C39_number_statement.

(** Without invalidate and close, and with max_number at least 1, from every point there is a way to complete every call. *)
Theorem C39_can_finish_partial : forall max_number max_cycle_no programs es, (0 < max_number)%Z -> Forall (Forall no_invalidate) programs ->
  exists more, Forall over (pthreads (pexec max_number max_cycle_no (pstart programs) (es ++ more))).
Proof. exact can_finish. Qed.
Print Assumptions C39_can_finish_partial.

Definition times (n t : nat) : list event := repeat (Turn t true) n.

(** invalidate() looks at the size and then gets, waiting if there is nothing, with the lock held. If the last idle connection is taken
    in between, it waits for a connection to be given back, the one who took it waits for the lock, and so does everyone after. *)
Definition deadlock : list event := times 10 0 ++ times 3 1 ++ times 2 0.
Definition deadlocked : pool := pexec 1 10 (pstart [[Acquire; Release 0; Acquire]; [Invalidate]]) deadlock.
Theorem C39_invalidate_deadlock_refuted :
  map at_ (pthreads deadlocked) = [ACountLock 0; IGet] /\ forall es, pexec 1 10 deadlocked es = deadlocked.
Proof. split; [reflexivity|]. apply stuck_check. vm_compute. reflexivity. Qed.
Print Assumptions C39_invalidate_deadlock_refuted.
Theorem C39_can_finish_refuted : ~ C39_can_finish_statement.
Proof.
  intros H. destruct (H 1%Z 10%Z [[Acquire; Release 0; Acquire]; [Invalidate]] deadlock) as (more & K).
  assert (deadlocked = pexec 1 10 (pstart [[Acquire; Release 0; Acquire]; [Invalidate]]) deadlock) as E by (unfold deadlocked; reflexivity).
  destruct C39_invalidate_deadlock_refuted as [D1 D2]. pose proof (stuck_unfinished _ _ _ _ _ _ E D2 K) as K2. rewrite D1 in K2.
  inversion K2. discriminate.
Qed.
Print Assumptions C39_can_finish_refuted.

(** A pool for no connections: acquire_connection() never returns or raises. *)
Theorem C39_zero_spins_refuted : forall max_number max_cycle_no es, (max_number <= 0)%Z ->
  ~ Forall over (pthreads (pexec max_number max_cycle_no (pstart [[Acquire]]) es)).
Proof. exact spins_forever. Qed.
Print Assumptions C39_zero_spins_refuted.

(** A connection released after close() is put in the pool, from which nobody will take it or tear it down. *)
Theorem C39_release_after_close_refuted : ~ C39_close_statement.
Proof.
  intros H. specialize (H 1%Z 10%Z [[Acquire; Close; Release 0]] (times 20 0)). vm_compute in H. refine (H eq_refl _ eq_refl 0 _); [constructor; auto|lia].
Qed.
Print Assumptions C39_release_after_close_refuted.

(** close() called twice at once: one call returns before the other has made the pool refuse, and a connection is handed out. *)
Theorem C39_returned_close_refuted : ~ C39_returned_close_statement.
Proof.
  intros H. refine (H 1%Z 10%Z [[Close]; [Close; Acquire]] (times 1 0 ++ times 8 1) 1 _ 0 [] eq_refl _ _); [vm_compute; reflexivity|]. simpl. auto.
Qed.
Print Assumptions C39_returned_close_refuted.

(** max_number is not a bound on the number of connections: two users hold one each from a pool of one. *)
Theorem C39_number_refuted : ~ C39_number_statement.
Proof. intros H. specialize (H 1%Z 10%Z [[Acquire]; [Acquire]] (times 7 0 ++ times 7 1) ltac:(lia)). vm_compute in H. congruence. Qed.
Print Assumptions C39_number_refuted.

Theorem C39_full_statement_refuted : ~ C39_full_statement.
Proof. intros (H & _). exact (C39_can_finish_refuted H). Qed.
Print Assumptions C39_full_statement_refuted.

(** ** examples *)
(** two users, a pool of one with two cycles: the first connection is used twice and torn down, the second released into the pool, then
    failed by the next user *)
Example C39_example : let c := pexec 1 2 (pstart [[Acquire; Release 0; Acquire; Release 0]; [Acquire; Release 0; Acquire; Fail 0; Release 0]])
    (times 10 0 ++ times 2 0 ++ times 2 1 ++ times 9 0 ++ times 30 1) in
  map results (pthreads c) = [[Got 0; Done; Got 0; Done]; [Got 1; Done; Got 1; Done; Done]] /\
  trace c = [Took 0; Took 0; Tore 0; Took 1; Took 1; Marked 1; Tore 1] /\ idle c = [] /\ next c = 2.
Proof. vm_compute. auto. Qed.
(** closing with one idle and one leased, which comes back later *)
Example C39_example_close : let c := pexec 2 5 (pstart [[Acquire; Acquire; Release 0; Close; Acquire; Release 0]]) (times 40 0) in
  map results (pthreads c) = [[Got 0; Got 1; Done; Done; Terminating; Done]] /\ torn (trace c) = [0] /\ idle c = [1] /\ finalized c = true.
Proof. vm_compute. auto. Qed.
(** the hypotheses of C39_invalidated, with a connection torn down by this very call *)
Example C39_example_invalidate : let c := pexec 2 5 (pstart [[Acquire; Release 0; Invalidate]]) (times 15 0) in
  map at_ (pthreads c) = [ILoop] /\ torn (trace c) = [0] /\ map at_ (pthreads (pturn 2 5 c 0 true)) = [Outside].
Proof. vm_compute. auto. Qed.
(** the hypotheses of C39_closed *)
Example C39_example_closed : let c := pexec 2 5 (pstart [[Close]; [Acquire]]) (times 2 0) in
  finalized c = true /\ map at_ (pthreads c) = [ILock; Outside] /\ map results (pthreads (pexec 2 5 c (times 1 1))) = [[]; [Terminating]].
Proof. vm_compute. auto. Qed.
