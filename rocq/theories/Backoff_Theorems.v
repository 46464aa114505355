(** C26: ExponentialBackoff (satella/time/backoff.py). *)
From Verif Require Import Prelude Backoff_Model Backoff_Spec Backoff_Proofs.
Local Open Scope Z_scope.

(** Over every session with a clock that does not go back: the wait doubles from [start] up to [limit] with
    each failure beyond the grace, success resets it, and the next check is due once more than the wait has
    passed since the last failure. For 0 < start <= limit. *)
Theorem C26_backoff_partial : forall start limit grace ops t0, 0 < start -> start <= limit -> clock_rises ops ->
  fst (backoff_run (new_backoff start limit (Z.of_nat grace)) ops) = answers start limit grace (mk_history 0 t0) ops.
Proof. intros start limit grace ops t0 H1 H2. exact (session_ok start limit grace H1 H2 ops t0). Qed.
Print Assumptions C26_backoff_partial.

(** launch(): the function is called until it returns, its result is returned, between the calls it sleeps for
    the waits in their order, and the backoff is as new afterwards. *)
Theorem C26_launch : forall R start limit grace times (r : R) rest, 0 < start -> start <= limit ->
  launched (new_backoff start limit (Z.of_nat grace)) (map Failed times ++ Returned r :: rest) [] =
  (Some (Ok r), new_backoff start limit (Z.of_nat grace), map (wait start limit grace) (seq 1 (length times))).
Proof. intros R start limit grace times r rest H1 H2. exact (launched_ok start limit grace H1 H2 times r rest). Qed.
Print Assumptions C26_launch.
(** An exception that is not listed comes out at once. *)
Theorem C26_launch_raises : forall R times e rest b slept,
  fst (fst (launched b (map Failed times ++ @Raised R e :: rest) slept)) = Some (Err e).
Proof. intros R times e rest b slept. exact (launched_raise times e rest b slept). Qed.
Print Assumptions C26_launch_raises.

(** wait_until_available() returns only when the service can be checked: it was not to be waited for, or
    success() was called, or the time has passed. *)
Theorem C26_wait_returns : forall turns b timeout began b' ws,
  wait_loop b timeout began turns [] = (Some (Ok tt), b', ws) ->
  unavailable_until b' = None /\
  (unavailable_until b = None \/ (exists t, In t turns /\ notified t = true) \/
   exists t u, In t turns /\ unavailable_until b = Some u /\ u < at_check t).
Proof. intros turns b timeout began b' ws. exact (wait_loop_ok turns b timeout began [] b' ws). Qed.
Print Assumptions C26_wait_returns.
(** It raises only WouldWaitMore, and only after the timeout. *)
Theorem C26_wait_raises : forall turns b timeout began b' ws e,
  wait_loop b timeout began turns [] = (Some (Err e), b', ws) ->
  e = WouldWaitMore /\ exists l t, timeout = Some l /\ In t turns /\ l <= at_timeouted t - began.
Proof. intros turns b timeout began b' ws e. exact (wait_loop_err turns b timeout began [] b' ws e). Qed.
Print Assumptions C26_wait_raises.

(** ** What fails *)
Definition C26_full_statement : Prop := forall start limit grace ops t0, 0 < start -> 0 < limit -> clock_rises ops ->
  fst (backoff_run (new_backoff start limit (Z.of_nat grace)) ops) = answers start limit grace (mk_history 0 t0) ops.
(** The first wait is not capped: with start above limit it exceeds the limit. *)
Theorem C26_full_statement_refuted : ~ C26_full_statement.
Proof.
  intros H. specialize (H 60 30 0%nat [BFailed 0; BSleep] 0). vm_compute in H.
  assert (E : [OUnit; OSleep 60] = [OUnit; OSleep 30]) by (apply H; auto). discriminate.
Qed.
Print Assumptions C26_full_statement_refuted.
Theorem C26_first_wait_above_limit_refuted :
  fst (backoff_run (new_backoff 60 30 0) [BFailed 0; BSleep]) = [OUnit; OSleep 60].
Proof. reflexivity. Qed.
Print Assumptions C26_first_wait_above_limit_refuted.
(** The example of the class documentation (failed, sleep for the wait, then available) does not hold: available
    says no until success() is called. *)
Theorem C26_available_refuted :
  fst (backoff_run (new_backoff 2 30 0) [BFailed 0; BAvailable; BReady 3; BAvailable]) = [OUnit; OBool false; OBool true; OBool false].
Proof. reflexivity. Qed.
Print Assumptions C26_available_refuted.
(** wait_until_available(timeout=5) waits for all of the 30 seconds that remain, and then raises WouldWaitMore
    although the service can be checked. *)
Theorem C26_wait_timeout_refuted :
  let b := failed (new_backoff 30 30 0) 0 in
  wait_loop b (Some 5) 0 [mk_turn 0 0 false; mk_turn 31 31 false] [] = (Some (Err WouldWaitMore), b, [30])
  /\ snd (ready_for_next_check b 31) = true.
Proof. split; reflexivity. Qed.
Print Assumptions C26_wait_timeout_refuted.

(** ** Examples *)
Example C26_example :
  fst (backoff_run (new_backoff 2 7 1)
    [BFailed 0; BSleep; BReady 0; BFailed 1; BSleep; BReady 3; BReady 4; BFailed 5; BSleep; BNextCheck 6; BFailed 9; BSleep;
     BSuccess; BReady 9; BSleep])
  = [OUnit; OSleep 0; OBool true; OUnit; OSleep 2; OBool false; OBool true; OUnit; OSleep 4; ONextCheck (Some 3); OUnit; OSleep 7;
     OUnit; OBool true; OSleep 0].
Proof. reflexivity. Qed.
Example C26_example_hypotheses : clock_rises [BFailed 0; BSleep; BReady 0; BFailed 1; BNextCheck 6].
Proof. vm_compute. intuition discriminate. Qed.
Example C26_example_launch :
  launched (new_backoff 2 7 0) [Failed 0; Failed 3; Failed 9; Returned 5] [] = (Some (Ok 5), new_backoff 2 7 0, [2; 4; 7]).
Proof. reflexivity. Qed.
Example C26_example_wait :
  wait_loop (failed (new_backoff 2 30 0) 0) None 0 [mk_turn 0 1 false; mk_turn 3 3 false] [] = (Some (Ok tt), mk_backoff 2 30 0 0 2 None, [1]).
Proof. reflexivity. Qed.
