(** C34: PeekableQueue. *)
From Verif Require Import Prelude PreludeFacts Queue_Model Queue_Spec Queue_Proofs.

(** Calls take effect one after the other, as on a FIFO queue, in an order that agrees with time. *)
Theorem C34_fifo : forall (A : Type) (programs : list (list (qop A))) es1 es2,
  exists log since, explains log programs (qexec (qstart programs) es1) /\
                    explains (log ++ since) programs (qexec (qstart programs) (es1 ++ es2)).
Proof. intros A programs es1 es2. exact (over_time A programs es1 es2). Qed.
Print Assumptions C34_fifo.

(** What was got is what was put, in order; the rest is in the queue. *)
Theorem C34_order : forall (A : Type) (programs : list (list (qop A))) es,
  let c := qexec (qstart programs) es in
  exists log, accounts_for log programs c /\
    (exists waiting, puts log = gets log ++ waiting /\ (qlock c = None -> items c = waiting)).
Proof. intros A programs es. exact (order A programs es). Qed.
Print Assumptions C34_order.

(** The k-th call of a thread gave up only if the queue was empty at a moment during that call. *)
Theorem C34_gives_up_only_when_empty : forall (A : Type) (programs : list (list (qop A))) es t th k,
  nth_error (qthreads (qexec (qstart programs) es)) t = Some th ->
  nth_error (qresults th) k = Some RaisedEmpty \/ nth_error (qresults th) k = Some RaisedLocked ->
  exists before after, es = before ++ after /\ items (qexec (qstart programs) before) = [] /\
      calls_over (qexec (qstart programs) before) t = k /\ is_inside (qexec (qstart programs) before) t.
Proof. intros A programs es t th k. exact (gave_up A programs es t th k). Qed.
Print Assumptions C34_gives_up_only_when_empty.

(** If every get and peek has a timeout, all calls can come to an end, however far they got. *)
Theorem C34_timed_calls_can_finish : forall (A : Type) (programs : list (list (qop A))) es,
  Forall (Forall (@gives_timeout A)) programs -> exists more, all_over (qexec (qstart programs) (es ++ more)).
Proof. intros A programs es. exact (can_finish A programs es). Qed.
Print Assumptions C34_timed_calls_can_finish.

(** Woken by a put: nobody sleeps for good while there is an item. *)
Definition C34_full_statement : Prop := forall (A : Type) (programs : list (list (qop A))) es,
  let c := qexec (qstart programs) es in at_rest c -> forall t, asleep c t -> items c = [].

(** Missing: schedules in which another thread runs between the giving back of the lock and the start of waiting; peek; timeouts. *)
Theorem C34_nobody_sleeps_partial : forall (A : Type) (programs : list (list (qop A))) es,
  Forall (Forall (@plain A)) programs -> no_gaps (qstart programs) es ->
  let c := qexec (qstart programs) es in at_rest c -> forall t, asleep c t -> items c = [].
Proof. intros A programs es. exact (nobody_sleeps A programs es). Qed.
Print Assumptions C34_nobody_sleeps_partial.

Definition turns (l : list nat) : list event := map (fun t => Turn t false) l.
(** two consumers wait, a third thread puts two items at once *)
Definition demo : list (list (qop Z)) := [[Get false]; [Get false]; [PutMany [7; 8]%Z]; [Get false]].
Definition demo_events : list event :=
  turns [0; 0; 0; 0; 1; 1; 1; 1; 2; 2; 2; 2; 2; 2; 1; 1; 0; 0; 3; 3; 3; 3].
Example C34_demo : let c := qexec (qstart demo) demo_events in
  (items c, map (@qresults Z) (qthreads c), map (@at_ Z) (qthreads c)) = ([], [[Got 8%Z]; [Got 7%Z]; [Done]; []], [Outside; Outside; Outside; Waiting]).
Proof. vm_compute. reflexivity. Qed.
Example C34_demo_no_gaps : no_gaps (qstart demo) demo_events /\ Forall (Forall (@plain Z)) demo.
Proof. split; [apply no_gaps_check; vm_compute; reflexivity|repeat constructor]. Qed.
Example C34_demo_at_rest : at_rest (qexec (qstart demo) demo_events).
Proof. apply at_rest_check. vm_compute. reflexivity. Qed.
Example C34_giving_up_example :
  let c := qexec (qstart [[Get true; Get true]; [Put 5%Z]]) (turns [0; 0; 0; 0] ++ [Expire 0; Turn 0 false; Turn 0 true; Turn 0 true; Turn 0 true]) in
  map (@qresults Z) (qthreads c) = [[RaisedEmpty; RaisedEmpty]; []].
Proof. vm_compute. reflexivity. Qed.

(** The consumer finds the queue empty and gives back the lock; the producer puts 7 and notifies nobody; the consumer starts to wait, for good. *)
Definition lost : qstate Z := qexec (qstart [[Get false]; [Put 7%Z]]) (turns [0; 0; 0; 1; 1; 1; 1; 1; 0]).
Theorem C34_lost_wakeup_refuted : at_rest lost /\ asleep lost 0 /\ items lost = [7%Z].
Proof. split; [apply at_rest_check; vm_compute; reflexivity|]. split; [|reflexivity]. eexists. split; reflexivity. Qed.
Print Assumptions C34_lost_wakeup_refuted.
(** The item is announced to one that only peeks. *)
Definition peeked : qstate Z := qexec (qstart [[Peek false]; [Get false]; [Put 7%Z]]) (turns [0; 0; 0; 0; 1; 1; 1; 1; 2; 2; 2; 2; 2; 0; 0]).
Theorem C34_peek_takes_the_wakeup_refuted : at_rest peeked /\ asleep peeked 1 /\ items peeked = [7%Z].
Proof. split; [apply at_rest_check; vm_compute; reflexivity|]. split; [|reflexivity]. eexists. split; reflexivity. Qed.
Print Assumptions C34_peek_takes_the_wakeup_refuted.
(** It is announced to one whose time is over. *)
Definition expired : qstate Z :=
  qexec (qstart [[Get true]; [Get false]; [Put 7%Z]]) (turns [0; 0; 0; 0; 1; 1; 1; 1] ++ Expire 0 :: turns [2; 2; 2; 2; 2; 0]).
Theorem C34_expired_takes_the_wakeup_refuted : at_rest expired /\ asleep expired 1 /\ items expired = [7%Z].
Proof. split; [apply at_rest_check; vm_compute; reflexivity|]. split; [|reflexivity]. eexists. split; reflexivity. Qed.
Print Assumptions C34_expired_takes_the_wakeup_refuted.
Theorem C34_full_statement_refuted : ~ C34_full_statement.
Proof.
  intros H. destruct C34_lost_wakeup_refuted as (H1 & H2 & H3). pose proof (H Z _ _ H1 0 H2) as K. fold lost in K. congruence.
Qed.
Print Assumptions C34_full_statement_refuted.
(** get(timeout) raises ResourceLocked, not Empty, when the producer holds the condition at that moment; and an item is there. *)
Theorem C34_resource_locked_refuted :
  let c := qexec (qstart [[Get true]; [Put 7%Z]]) (turns [0; 0; 0; 1; 1; 1; 1] ++ [Expire 0]) in
  map (@qresults Z) (qthreads c) = [[RaisedLocked]; []] /\ items c = [7%Z].
Proof. vm_compute. split; reflexivity. Qed.
Print Assumptions C34_resource_locked_refuted.
