(** C27: measure (satella/time/measure.py). *)
From Verif Require Import Prelude Measure_Model Measure_Spec Measure_Proofs.
Local Open Scope Z_scope.

(** Every session of a measure is one of a stopwatch that, when it is started again, resumes: the time elapsed is
    the total of the time between start and stop, the timeout is signalled iff the time has reached it, what
    remains is not negative. Missing: sessions that start a counter that has already measured something; asking
    a counter that cannot be stopped whether it is stopped. *)
Theorem C27_stopwatch_partial : forall can_stop adjust created_stopped limit now ops,
  asks_stopped_properly can_stop ops -> never_resumed true can_stop limit (new_watch can_stop adjust created_stopped now) ops ->
  fst (measure_run (new_measure can_stop adjust created_stopped limit now) ops)
  = watch_run true can_stop limit (new_watch can_stop adjust created_stopped now) ops.
Proof. exact session_documented. Qed.
Print Assumptions C27_stopwatch_partial.

(** All sessions: a stopwatch that forgets what it measured when it is started again. *)
Theorem C27_forgetful_stopwatch_partial : forall can_stop adjust created_stopped limit now ops,
  asks_stopped_properly can_stop ops ->
  fst (measure_run (new_measure can_stop adjust created_stopped limit now) ops)
  = watch_run false can_stop limit (new_watch can_stop adjust created_stopped now) ops.
Proof. exact session_same. Qed.
Print Assumptions C27_forgetful_stopwatch_partial.

(** Whatever was done to it, what remains is never negative. *)
Theorem C27_remaining : forall m now t, time_remaining m now = Some t -> 0 <= t.
Proof. exact remaining_nonneg. Qed.
Print Assumptions C27_remaining.

(** A decorated function is given a counter that counts from when the function was entered. *)
Theorem C27_decorated : forall m t t1 t2 now, create_stopped m = false ->
  snd (given_to_function m t t1 t2) = Ok tt /\
  get_time_elapsed (fst (given_to_function m t t1 t2)) now = now - (if stop_on_stop m then t2 else t).
Proof. exact given_elapsed. Qed.
Print Assumptions C27_decorated.

(** ** What fails *)
Definition C27_full_statement : Prop := forall can_stop adjust created_stopped limit now ops,
  fst (measure_run (new_measure can_stop adjust created_stopped limit now) ops)
  = watch_run true can_stop limit (new_watch can_stop adjust created_stopped now) ops.
(** start() after stop() does not resume: the 10 units measured before are lost. *)
Theorem C27_full_statement_refuted : ~ C27_full_statement.
Proof.
  intros H. specialize (H true 0 false None 0 [MStop 10; MStart 20 20; MElapsed 25]). discriminate.
Qed.
Print Assumptions C27_full_statement_refuted.
Theorem C27_resume_refuted :
  fst (measure_run (new_measure true 0 false None 0) [MStop 10; MStart 20 20; MElapsed 25]) = [ODone (Ok tt); ODone (Ok tt); OTime 5].
Proof. reflexivity. Qed.
Print Assumptions C27_resume_refuted.
(** With stop_on_stop=False a counter counts on after reset(), but says that it is stopped. *)
Theorem C27_stopped_refuted :
  fst (measure_run (new_measure false 0 false None 0) [MReset 10; MStopped; MElapsed 15]) = [ODone (Ok tt); OFlag true; OTime 5].
Proof. reflexivity. Qed.
Print Assumptions C27_stopped_refuted.

(** ** Examples *)
Example C27_example :
  fst (measure_run (new_measure true 0 true (Some 10) 0)
    [MElapsed 3; MStart 4 4; MElapsed 9; MRemaining 9; MTimeouted 9; MTimeouted 14; MAssert 15; MStop 20; MElapsed 30; MRemaining 30;
     MReset 31; MEnter 32 32; MExit 36; MElapsed 99])
  = [OTime 0; ODone (Ok tt); OTime 5; ORemaining (Some 5); OFlag false; OFlag true; ODone (Err WouldWaitMore); ODone (Ok tt); OTime 16;
     ORemaining (Some 0); ODone (Ok tt); ODone (Ok tt); ODone (Ok tt); OTime 4].
Proof. reflexivity. Qed.
Example C27_example_hypotheses :
  never_resumed true true (Some 10) (new_watch true 0 true 0) [MElapsed 3; MStart 4 4; MStop 20; MReset 31; MEnter 32 32; MExit 36].
Proof. simpl. intuition. Qed.
