(** Theorems about AtomicNumber.wait_until_equal (C55), for any number of threads and every interleaving unless said otherwise. *)
From Verif Require Import Prelude Await_Model Await_Spec Await_Proofs.

(** wait_until_equal(v) returns only at a moment the number equals v, *)
Theorem C55_returns_when_equal : forall c e t v, ends_with c e t (Reached v) -> value c = v.
Proof. exact returns_equal. Qed.
Print Assumptions C55_returns_when_equal.
(** and raises WouldWaitMore only at a moment it does not. *)
Theorem C55_would_wait_when_not : forall c e t v, ends_with c e t (WouldWait v) -> value c <> v.
Proof. exact would_wait_unequal. Qed.
Print Assumptions C55_would_wait_when_not.

(** Without a timeout it raises nothing. *)
Theorem C55_untimed_raises_nothing : forall v programs es t th, Forall (Forall untimed) programs ->
  nth_error (athreads (aexec (astart v programs) es)) t = Some th ->
  forall w, ~ In (WouldWait w) (results th) /\ ~ In (CondLocked w) (results th).
Proof. exact untimed_quiet. Qed.
Print Assumptions C55_untimed_raises_nothing.

(** Operations and waits never block each other for ever: unless all threads have finished or wait to be notified, one of them can go on. *)
Theorem C55_no_deadlock : forall v programs es,
  (exists th, In th (athreads (aexec (astart v programs) es)) /\ ~ over th /\ ~ asleep th) ->
  exists t, astep (aexec (astart v programs) es) (Turn t) <> aexec (astart v programs) es.
Proof. exact no_deadlock. Qed.
Print Assumptions C55_no_deadlock.

(** The full statement: when no change is under way nobody is left waiting for the value the number has. *)
Definition C55_full_statement : Prop := forall v programs es,
  let c := aexec (astart v programs) es in
  Forall (fun th => ~ changing th) (athreads c) -> Forall (fun th => waiting_for (value c) th -> ~ asleep th) (athreads c).

(** True if all changes are by operators that notify, and none of them stores between a comparison and the wait that follows it; *)
Theorem C55_nobody_oversleeps_partial : forall v programs es, Forall (Forall noisy_op) programs -> undisturbed (astart v programs) es ->
  let c := aexec (astart v programs) es in
  Forall (fun th => ~ changing th) (athreads c) -> Forall (fun th => waiting_for (value c) th -> ~ asleep th) (athreads c).
Proof. exact nobody_oversleeps. Qed.
Print Assumptions C55_nobody_oversleeps_partial.
(** then, with nothing left to do but waiting for the value the number has, every waiting call can return normally. *)
Theorem C55_waiters_return_partial : forall v programs es, Forall (Forall noisy_op) programs -> undisturbed (astart v programs) es ->
  let c := aexec (astart v programs) es in
  Forall (fun th => over th \/ (todo th = [] /\ waiting_for (value c) th)) (athreads c) ->
  exists more, let d := aexec c more in
    Forall over (athreads d) /\
    forall t th th', nth_error (athreads c) t = Some th -> nth_error (athreads d) t = Some th' -> waiting_for (value c) th ->
      results th' = results th ++ [Reached (value c)].
Proof. exact waiters_return. Qed.
Print Assumptions C55_waiters_return_partial.

(** The hypotheses are met: one thread waits for 1 and sleeps, the other adds 1; the first wakes up and returns. *)
Definition plus_one : aop := Change (fun x => x + 1)%Z true.
Definition asleep_first : list aevent := repeat (Turn 0) 5 ++ repeat (Turn 1) 7.
Example C55_example_undisturbed : undisturbed (astart 0 [[WaitEq 1 false]; [plus_one]]) asleep_first.
Proof.
  unfold asleep_first; cbn [repeat app undisturbed]; repeat split; intros t th Ht E S; injection Ht as <-; vm_compute in E; injection E as <-; simpl in S; try contradiction.
  vm_compute. repeat constructor; intros [].
Qed.
Example C55_example_returns :
  map results (athreads (aexec (astart 0 [[WaitEq 1 false]; [plus_one]]) (asleep_first ++ repeat (Turn 0) 4))) = [[Reached 1]; [Changed]] /\
  map at_ (athreads (aexec (astart 0 [[WaitEq 1 false]; [plus_one]]) (repeat (Turn 0) 5))) = [Asleep 1 false; Outside].
Proof. split; reflexivity. Qed.
(** A timed call raises when its time is over. *)
Example C55_example_timed :
  map results (athreads (aexec (astart 0 [[WaitEq 1 true]]) (repeat (Turn 0) 5 ++ [Expire 0; Turn 0; Turn 0; Expire 0; Turn 0]))) = [[WouldWait 1]].
Proof. reflexivity. Qed.

(** Otherwise the notification may come between the comparison and the wait, and the number is 1 while its waiter sleeps. *)
Definition lost : list aevent := repeat (Turn 0) 3 ++ repeat (Turn 1) 7 ++ repeat (Turn 0) 2.
Theorem C55_lost_wakeup_refuted :
  let c := aexec (astart 0 [[WaitEq 1 false]; [plus_one]]) lost in value c = 1%Z /\ map at_ (athreads c) = [Asleep 1 false; Outside] /\ forall es, aexec c es = c.
Proof.
  split; [reflexivity|split; [reflexivity|]]. intros es. set (c := aexec _ lost). assert (forall e, astep c e = c) as H.
  { intros [[|[|t]]|[|[|t]]]; try reflexivity; unfold c, astep, aturn, aexpire; simpl; destruct t; reflexivity. }
  induction es as [|e es IH]; [reflexivity|]. cbn [aexec]. rewrite H. exact IH.
Qed.
Print Assumptions C55_lost_wakeup_refuted.
(** Nor do operators such as |= wake anybody up. *)
Theorem C55_silent_operator_refuted :
  let c := aexec (astart 0 [[WaitEq 1 false]; [Change (fun x => Z.lor x 1) false]]) (repeat (Turn 0) 5 ++ repeat (Turn 1) 4) in
  value c = 1%Z /\ map at_ (athreads c) = [Asleep 1 false; Outside] /\ map todo (athreads c) = [[]; []].
Proof. repeat split. Qed.
Print Assumptions C55_silent_operator_refuted.
Theorem C55_full_statement_refuted : ~ C55_full_statement.
Proof.
  intros H. specialize (H 0%Z [[WaitEq 1 false]; [plus_one]] lost). cbv zeta in H. vm_compute in H.
  assert (Forall (fun th : athread => match at_ th with AtMonitor _ _ | Inside _ _ | AtLock | Notifying | Unlocking | Leaving => True | _ => False end -> False)
     [{| todo := []; at_ := Asleep 1 false; results := [] |}; {| todo := []; at_ := Outside; results := [Changed] |}]) as K by (repeat constructor; intros []).
  specialize (H K). inversion H as [|x l K1 K2]. exact (K1 eq_refl I).
Qed.
Print Assumptions C55_full_statement_refuted.
(** A timed call that has seen the number equal v still raises WouldWaitMore if the number changes before the second comparison, although
    its time was not over; *)
Theorem C55_raises_early_refuted :
  map results (athreads (aexec (astart 1 [[WaitEq 1 true]; [plus_one]]) (repeat (Turn 0) 3 ++ repeat (Turn 1) 7 ++ [Turn 0]))) = [[WouldWait 1]; [Changed]].
Proof. reflexivity. Qed.
Print Assumptions C55_raises_early_refuted.
(** and if its time is over while it waits for the condition's lock it raises ResourceLocked, not WouldWaitMore, even when the number is v by then. *)
Theorem C55_resource_locked_refuted :
  let c := aexec (astart 0 [[WaitEq 1 true]; [plus_one]]) (repeat (Turn 0) 3 ++ repeat (Turn 1) 4 ++ [Expire 0]) in
  map results (athreads c) = [[CondLocked 1]; []] /\ value c = 1%Z.
Proof. split; reflexivity. Qed.
Print Assumptions C55_resource_locked_refuted.
