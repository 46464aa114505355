(** C35: LockedDataset. *)
From Verif Require Import Prelude PreludeFacts Locked_Model Locked_Spec Locked_Proofs.

(** Whatever the schedule, at most one thread is inside. *)
Theorem C35_one_at_a_time : forall (V : Type) (v : V) programs es t th t' th',
  let c := lexec (lstart v programs) es in
  nth_error (lthreads c) t = Some th -> in_with th -> nth_error (lthreads c) t' = Some th' -> in_with th' -> t = t'.
Proof. intros V v programs es t th t' th'. exact (one_at_a_time V v programs es t th t' th'). Qed.
Print Assumptions C35_one_at_a_time.

(** If the attribute is used inside blocks only, the blocks take effect one after another, in an order that agrees with time. *)
Theorem C35_blocks_are_serial : forall (V : Type) (v : V) programs es1 es2, Forall (Forall (@only_with V)) programs ->
  exists log since, explains log v programs (lexec (lstart v programs) es1) /\
                    explains (log ++ since) v programs (lexec (lstart v programs) (es1 ++ es2)).
Proof. intros V v programs es1 es2. exact (over_time V v programs es1 es2). Qed.
Print Assumptions C35_blocks_are_serial.

(** However far the threads got, all of them can come to an end (blocks are not nested). *)
Theorem C35_can_finish : forall (V : Type) (v : V) programs es, exists more,
  Forall (fun th => todo th = [] /\ at_ th = Outside) (lthreads (lexec (lstart v programs) (es ++ more))).
Proof. intros V v programs es. exact (can_finish V v programs es). Qed.
Print Assumptions C35_can_finish.

(** An access outside raises ResourceNotLocked and has no effect; an access inside does not raise it; no other exception is raised
    by an acquisition that fails. *)
Definition C35_outside_raises : Prop := forall (V : Type) (v : V) programs es t th x rest,
  let c := lexec (lstart v programs) es in
  nth_error (lthreads c) t = Some th -> at_ th = Outside -> todo th = Bare x :: rest ->
  nth_error (lthreads (levent c (Turn t))) t = Some (mk_lthread rest Outside (results th ++ [NotLocked])) /\ attr (levent c (Turn t)) = attr c.
Definition C35_inside_works : Prop := forall (V : Type) (v : V) programs es t th, Forall (Forall (@only_with V)) programs ->
  nth_error (lthreads (lexec (lstart v programs) es)) t = Some th -> ~ In NotLocked (results th).
Definition C35_fails_with_ResourceLocked : Prop := forall (V : Type) (v : V) programs es t th,
  nth_error (lthreads (lexec (lstart v programs) es)) t = Some th -> ~ In WouldWait (results th).
Definition C35_full_statement : Prop := C35_outside_raises /\ C35_inside_works /\ C35_fails_with_ResourceLocked.

(** Missing: an access made while some thread is inside or leaving. *)
Theorem C35_outside_raises_partial : forall (V : Type) (v : V) programs es t th x rest,
  let c := lexec (lstart v programs) es in
  nth_error (lthreads c) t = Some th -> at_ th = Outside -> todo th = Bare x :: rest ->
  (forall u uth, nth_error (lthreads c) u = Some uth -> ~ busy uth) ->
  nth_error (lthreads (levent c (Turn t))) t = Some (mk_lthread rest Outside (results th ++ [NotLocked])) /\ attr (levent c (Turn t)) = attr c.
Proof. intros V v programs es t th x rest. exact (outside_raises V v programs es t th x rest). Qed.
Print Assumptions C35_outside_raises_partial.

(** Missing: schedules in which another thread runs between the release of the lock and the clearing of the flag. *)
Theorem C35_inside_works_partial : forall (V : Type) (v : V) programs es t th,
  Forall (Forall (@only_with V)) programs -> no_gaps (lstart v programs) es ->
  nth_error (lthreads (lexec (lstart v programs) es)) t = Some th -> ~ In NotLocked (results th).
Proof. intros V v programs es t th. exact (inside_works V v programs es t th). Qed.
Print Assumptions C35_inside_works_partial.

Definition turns (l : list nat) : list event := map Turn l.
(** two threads increment-like; a third tries and is refused *)
Definition demo : list (list (action Z)) :=
  [[With None [Read; Write 5%Z; Read]]; [With None [Read; Write 6%Z]; With (Some Timed) [Read]]; [With (Some Try) [Write 9%Z]]].
Definition demo_events : list event :=
  turns [0; 0; 0; 1; 1; 0; 0; 2; 2; 2; 0; 0; 0; 0; 0; 0; 0; 1; 1; 1; 1; 1; 1; 1; 1; 1; 1; 1; 1; 1; 1; 1; 1].
Example C35_demo : let c := lexec (lstart 1%Z demo) demo_events in
  (attr c, lock c, map (@results Z) (lthreads c)) =
  (6%Z, None, [[Value 1%Z; Written; Value 5%Z]; [Value 5%Z; Written; Value 6%Z]; [WouldWait]]).
Proof. vm_compute. reflexivity. Qed.
Example C35_demo_meets : no_gaps (lstart 1%Z demo) demo_events /\ Forall (Forall (@only_with Z)) demo.
Proof. split; [apply no_gaps_check; vm_compute; reflexivity|repeat constructor]. Qed.
Example C35_demo_inside : exists th, nth_error (lthreads (lexec (lstart 1%Z demo) (turns [0; 0; 0; 1; 1; 0; 0]))) 0 = Some th /\ in_with th.
Proof. eexists. split; [vm_compute; reflexivity|exact I]. Qed.
Example C35_bare_example : map (@results Z) (lthreads (lexec (lstart 1%Z [[With None [Read]; Bare Read; Bare (Write 3%Z)]]) (turns [0; 0; 0; 0; 0; 0; 0; 0; 0; 0])))
  = [[Value 1%Z; NotLocked; NotLocked]].
Proof. vm_compute. reflexivity. Qed.

(** [locked] belongs to the dataset, not to the thread: while thread 0 is inside, thread 1 reads and writes without the lock. *)
Theorem C35_outside_access_refuted : let c := lexec (lstart 1%Z [[With None [Read; Read]]; [Bare Read; Bare (Write 9%Z)]]) (turns [0; 0; 0; 0; 0; 0; 1; 1; 1; 1; 0; 0]) in
  map (@results Z) (lthreads c) = [[Value 1%Z; Value 9%Z]; [Value 1%Z; Written]].
Proof. vm_compute. reflexivity. Qed.
Print Assumptions C35_outside_access_refuted.
(** __exit__ clears the flag after the lock is released: thread 1, who has entered, gets ResourceNotLocked. *)
Theorem C35_inside_refuted : let c := lexec (lstart 1%Z [[With None []]; [With None [Read]]]) (turns [0; 0; 0; 0; 0; 1; 1; 1; 1; 0; 1]) in
  map (@results Z) (lthreads c) = [[]; [NotLocked]] /\ lock c = Some 1.
Proof. vm_compute. auto. Qed.
Print Assumptions C35_inside_refuted.
(** A failed acquisition raises WouldWaitMore, which is no kind of ResourceLocked. *)
Theorem C35_would_wait_refuted : map (@results Z) (lthreads (lexec (lstart 1%Z [[With None []]; [With (Some Try) [Read]]]) (turns [0; 0; 0; 1; 1; 1]))) = [[]; [WouldWait]].
Proof. vm_compute. reflexivity. Qed.
Print Assumptions C35_would_wait_refuted.
(** The arguments given once stay: a later plain `with ds` of anybody does not wait. *)
Theorem C35_arguments_stay_refuted :
  map (@results Z) (lthreads (lexec (lstart 1%Z [[With (Some Try) [Read]; With None [Read]]; [With None [Read]]])
    (turns [0; 0; 0; 0; 0; 0; 0; 0; 0; 0; 0; 1; 1; 1]))) = [[Value 1%Z]; [WouldWait]].
Proof. vm_compute. reflexivity. Qed.
Print Assumptions C35_arguments_stay_refuted.
(** As above, but two threads give different arguments at the same time, and one gets the other's. *)
Theorem C35_arguments_mixed_refuted :
  map (@results Z) (lthreads (lexec (lstart 1%Z [[With (Some Forever) [Read]]; [With (Some Contradictory) [Read]]]) (turns [0; 1; 0]))) = [[BadCall]; []].
Proof. vm_compute. reflexivity. Qed.
Print Assumptions C35_arguments_mixed_refuted.
Theorem C35_full_statement_refuted : ~ C35_full_statement.
Proof.
  intros (H & _). specialize (H Z 1%Z [[With None [Read]]; [Bare Read]] (turns [0; 0; 0; 0]) 1 _ Read [] eq_refl eq_refl eq_refl).
  vm_compute in H. destruct H as [H _]. discriminate H.
Qed.
Print Assumptions C35_full_statement_refuted.
Theorem C35_inside_works_refuted : ~ C35_inside_works.
Proof.
  intros H. assert (Forall (Forall (@only_with Z)) [[With None []]; [With None [Read]]]) as K by (repeat constructor).
  specialize (H Z 1%Z _ (turns [0; 0; 0; 0; 0; 1; 1; 1; 1; 0; 1]) 1 _ K eq_refl). apply H. vm_compute. auto.
Qed.
Print Assumptions C35_inside_works_refuted.
Theorem C35_fails_with_ResourceLocked_refuted : ~ C35_fails_with_ResourceLocked.
Proof.
  intros H. specialize (H Z 1%Z [[With None []]; [With (Some Try) [Read]]] (turns [0; 0; 0; 1; 1; 1]) 1 _ eq_refl). apply H. vm_compute. auto.
Qed.
Print Assumptions C35_fails_with_ResourceLocked_refuted.
