(** C73: theorems. *)
From Coq Require Import Lia Permutation.
From Verif Require Import Prelude SyncPool_Model SyncPool_Spec SyncPool_Proofs.

(** When sync_threadpool returns, every job submitted before the call has finished, whatever the scheduler, the other threads that
    submit jobs and the clock did. *)
Theorem C73_done : forall timed w es1 es2, 0 < w -> caller (exec timed (start w) es1) = NotYet ->
  caller (exec timed (start w) (es1 ++ es2)) = Returned ->
  forall j, j < submitted (exec timed (start w) es1) -> In j (finished (exec timed (start w) (es1 ++ es2))).
Proof. exact sync_done. Qed.
Print Assumptions C73_done.

(** No job is lost, run twice or cancelled by the synchronisation: each is waiting, running or finished, once. *)
Theorem C73_accounted : forall timed w es, accounted (exec timed (start w) es).
Proof. intros timed w es. exact (accounted_exec timed es (start w) (accounted_start w)). Qed.
Print Assumptions C73_accounted.

(** WouldWaitMore is raised only if max_wait was given. *)
Theorem C73_only_timed : forall w es, caller (exec false (start w) es) <> Raised.
Proof. exact only_timed. Qed.
Print Assumptions C73_only_timed.

(** If nobody else submits anything, there is a way for the call to return, whatever was queued and running. *)
Theorem C73_can_return : forall timed w es, 0 < w -> caller (exec timed (start w) es) = NotYet ->
  exists more, no_submissions more /\ caller (exec timed (start w) (es ++ more)) = Returned.
Proof. exact call_can_return. Qed.
Print Assumptions C73_can_return.

(** ** The call can always still return *)
Definition C73_full_statement : Prop := forall timed w es1 es2, 0 < w -> caller (exec timed (start w) es1) = NotYet -> no_submissions es2 ->
  caller (exec timed (start w) (es1 ++ es2)) <> Raised ->
  exists more, caller (exec timed (start w) (es1 ++ es2 ++ more)) = Returned.

(** Without a limit, it is stuck for ever exactly if a worker was late for the notification, or the caller for that of the number. *)
Theorem C73_stuck_partial : forall w es1 es2, 0 < w -> caller (exec false (start w) es1) = NotYet -> no_submissions es2 ->
  let p := exec false (start w) (es1 ++ es2) in
  never_returns false p <->
  (caller p = WaitAll /\ exists i, nth_error (workers p) i = Some Asleep \/ nth_error (workers p) i = Some ToSleep) \/
  ((caller p = GoToSleep \/ caller p = Sleeping) /\ counter p = 0).
Proof. exact stuck_iff. Qed.
Print Assumptions C73_stuck_partial.

(** one worker, no jobs: the task counts itself, the caller sees zero and notifies, and only then the task goes to sleep *)
Definition late_worker : list event := [Turn; Turn; Turn; Work 0; Work 0; Turn; Turn; Turn; Turn].
Theorem C73_late_worker_refuted : caller (exec false (start 1) late_worker) = WaitAll /\ never_returns false (exec false (start 1) late_worker).
Proof.
  split; [reflexivity|]. apply (stuck_iff 1 [] late_worker); auto.
  - vm_compute. intros H. repeat destruct H as [H|H]; try discriminate; auto.
  - left. split; [reflexivity|]. exists 0. right. reflexivity.
Qed.
Print Assumptions C73_late_worker_refuted.
(** the caller sees one, the task counts itself and notifies, and only then the caller goes to sleep *)
Definition late_caller : list event := [Turn; Turn; Turn; Work 0; Turn; Turn; Turn; Work 0; Turn].
Theorem C73_late_caller_refuted : caller (exec false (start 1) late_caller) = Sleeping /\ counter (exec false (start 1) late_caller) = 0 /\
  never_returns false (exec false (start 1) late_caller).
Proof.
  split; [reflexivity|]. split; [reflexivity|]. apply (stuck_iff 1 [] late_caller); auto.
  - vm_compute. intros H. repeat destruct H as [H|H]; try discriminate; auto.
Qed.
Print Assumptions C73_late_caller_refuted.
Theorem C73_full_statement_refuted : ~ C73_full_statement.
Proof.
  intros H. destruct (H false 1 [] late_worker) as [more R]; auto.
  - vm_compute. intros X. repeat destruct X as [X|X]; try discriminate; auto.
  - vm_compute. discriminate.
  - apply (proj2 C73_late_worker_refuted more). rewrite <- exec_app. exact R.
Qed.
Print Assumptions C73_full_statement_refuted.

(** After a timeout the workers that had come to the meeting sleep for ever. *)
Theorem C73_timeout_loses_workers : forall timed es i p, caller p = Raised -> nth_error (workers p) i = Some Asleep ->
  nth_error (workers (exec timed p es)) i = Some Asleep.
Proof. intros timed es i p C H. exact (sleeps_on timed es i p (or_intror C) H). Qed.
Print Assumptions C73_timeout_loses_workers.

(** two workers, a long job: the free worker takes a task and sleeps, the limit is over, the second task is cancelled *)
Definition timed_out : list event := [Submit; Work 0; Turn; Turn; Turn; Turn; Work 1; Work 1; Work 1; Expire].
Theorem C73_timeout_refuted : caller (exec true (start 2) timed_out) = Raised /\ cancelled (exec true (start 2) timed_out) = true /\
  forall es, nth_error (workers (exec true (start 2) (timed_out ++ es))) 1 = Some Asleep.
Proof.
  split; [reflexivity|]. split; [reflexivity|]. intros es. rewrite exec_app. apply C73_timeout_loses_workers; reflexivity.
Qed.
Print Assumptions C73_timeout_refuted.
(** one worker: the limit is over when the queue has just emptied; no job will ever be run by this pool again *)
Definition timed_out_last : list event := [Turn; Turn; Turn; Work 0; Work 0; Work 0; Turn; Expire].
Theorem C73_dead_pool_refuted : caller (exec true (start 1) timed_out_last) = Raised /\
  forall es, nth_error (workers (exec true (start 1) (timed_out_last ++ es))) 0 = Some Asleep.
Proof. split; [reflexivity|]. intros es. rewrite exec_app. apply C73_timeout_loses_workers; reflexivity. Qed.
Print Assumptions C73_dead_pool_refuted.

(** the hypotheses are met: two workers, three jobs, one running, when the call begins; it returns *)
Definition busy : list event := [Submit; Submit; Submit; Work 0; Work 1; Work 1].
Definition returning : list event := [Turn; Turn; Turn; Turn; Work 1; Work 0; Work 0; Work 0; Work 0; Work 1; Work 1; Work 1; Work 1; Turn; Turn; Turn; Turn; Work 0; Work 1; Turn].
Example C73_met : caller (exec false (start 2) busy) = NotYet /\ no_submissions returning /\
  caller (exec false (start 2) (busy ++ returning)) = Returned /\ submitted (exec false (start 2) busy) = 3 /\ finished (exec false (start 2) busy) = [1].
Proof.
  repeat split; try reflexivity. vm_compute. intros X. repeat destruct X as [X|X]; try discriminate; auto.
Qed.
Example C73_ex : finished (exec false (start 2) (busy ++ returning)) = [1; 0; 2].
Proof. reflexivity. Qed.
