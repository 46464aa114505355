(** Theorems about TerminableThread, IntervalTerminableThread and call_in_separate_thread *)
From Verif Require Import Prelude Thread_Model Thread_Spec Thread_Proofs.

(** ** C49: cleanup exactly once, after the last loop; no loop once termination was observed *)
(** Whatever prepare(), loop(), on_overrun() and cleanup() do and whenever terminate() is called, a thread that ended has called prepare()
    once, then loop() (and on_overrun()) any number of times, then cleanup() once, none of them before the previous one ended. *)
Theorem C49_cleanup_exactly_once : forall interval terminate_on es o, let c := texec interval terminate_on tnew es in
  Forall unforced es -> at_ c = Ended o -> whole_life (entries (trace c)) /\ one_at_a_time None (trace c).
Proof. intros interval ton es o c F E. split; [exact (whole_when_ended interval ton es o F E) | exact (never_overlap interval ton es)]. Qed.
Print Assumptions C49_cleanup_exactly_once.
(** At every moment, and with terminate(force=True) as well, the calls are a part of such a life: cleanup() never twice, nothing after it. *)
Theorem C49_never_twice : forall interval terminate_on es, let c := texec interval terminate_on tnew es in
  part_of_life (entries (trace c)) /\ one_at_a_time None (trace c).
Proof. intros interval ton es c. split; [exact (life_parts interval ton es) | exact (never_overlap interval ton es)]. Qed.
Print Assumptions C49_never_twice.
(** Once the thread saw that it is to terminate, it calls nothing but cleanup(). *)
Theorem C49_no_loop_once_seen : forall interval terminate_on es l1 l2 m, trace (texec interval terminate_on tnew es) = l1 ++ Saw true :: l2 ->
  In (Enters m) l2 -> m = Cleanup.
Proof. intros interval ton es l1 l2 m. exact (calm_exec interval ton es l1 l2 m). Qed.
Print Assumptions C49_no_loop_once_seen.
(** After terminate() the loop is entered at most once more: the thread may have been past its check. *)
Theorem C49_one_more_loop_at_most : forall interval terminate_on es l1 l2, trace (texec interval terminate_on tnew es) = l1 ++ Terminated :: l2 ->
  loops l2 <= 1.
Proof. intros interval ton es l1 l2. exact (one_more_loop interval ton es l1 l2). Qed.
Print Assumptions C49_one_more_loop_at_most.
(** Once terminate() was called, the thread ends in at most seven steps of its own, a call of the user's method being one. *)
Theorem C49_ends_soon : forall interval terminate_on es l, let c := texec interval terminate_on tnew es in
  In Terminated (trace c) -> 7 <= length l -> exists o, at_ (on_its_own interval terminate_on c l) = Ended o.
Proof.
  intros interval ton es l c T L. apply ends_soon.
  - exact (proj2 (flag_terminated interval ton es) T).
  - exact (has_interval_exec interval ton es).
  - exact (Nat.le_trans _ _ _ (left_max _) L).
Qed.
Print Assumptions C49_ends_soon.
(** How it ends: all the calls but the last one and cleanup() returned; the exception of the last one is swallowed if it is SystemExit, or
    one of terminate_on, and not raised in on_overrun(); otherwise it leaves the thread, unless cleanup() raised as well. If it was not
    SystemExit, a thread that swallowed it is marked as terminating. *)
Theorem C49_how_it_ends : forall interval terminate_on es o, let c := texec interval terminate_on tnew es in
  Forall unforced es -> at_ c = Ended o ->
  exists l m o1 o2, exits (trace c) = l ++ [(m, o1); (Cleanup, o2)] /\ Forall (fun x => snd x = Returns) l /\ o = final terminate_on m o1 o2 /\
    (verdict terminate_on m o1 = Returns -> o1 <> Raises SysExit -> flag c = true).
Proof. intros interval ton es o. exact (how_it_ends interval ton es o). Qed.
Print Assumptions C49_how_it_ends.
(** An interval thread calls loop() again after having slept for exactly what was left of its period, in pieces of two seconds at most, or
    after on_overrun() if nothing was. *)
Theorem C49_interval_timely : forall seconds terminate_on es, timely seconds None (trace (texec (Some seconds) terminate_on tnew es)).
Proof. intros seconds ton es. exact (timely_exec seconds ton es). Qed.
Print Assumptions C49_interval_timely.
(** safe_wait_condition waits in pieces that add up to the timeout, looking before each of them whether the thread is terminating. *)
Theorem C49_safe_wait : forall timeout wake dont_raise looks, (0 < wake)%Z ->
  safe_wait_condition timeout wake dont_raise looks =
    (fst (waited (rounds timeout wake) dont_raise looks), firstn (snd (waited (rounds timeout wake) dont_raise looks)) (pieces timeout wake)).
Proof. intros timeout wake d looks W. rewrite <- (Z.sub_0_r timeout) at 2 3 4. exact (wait_loop_ok looks 0 timeout wake d W). Qed.
Print Assumptions C49_safe_wait.
Theorem C49_safe_sleep : forall timeout wake looks last, (0 < wake)%Z ->
  safe_sleep timeout wake looks last =
    (fst (slept (rounds timeout wake) looks last), firstn (snd (slept (rounds timeout wake) looks last)) (pieces timeout wake)).
Proof. intros timeout wake looks d W. rewrite <- (Z.sub_0_r timeout) at 2 3 4. exact (sleep_loop_ok looks 0 timeout wake d W). Qed.
Print Assumptions C49_safe_sleep.
Theorem C49_pieces : forall timeout wake, (0 < wake)%Z ->
  Forall (fun d => 0 < d <= wake)%Z (pieces timeout wake) /\ total (pieces timeout wake) = Z.max 0 timeout.
Proof. exact pieces_ok. Qed.
Print Assumptions C49_pieces.

(** *** non-trivial cases *)
Definition odd (n : nat) : option bool := Some (Nat.odd n).
(** loop() is called twice, then raises an exception of terminate_on *)
Example C49_a_life : let c := texec None odd tnew
    [Go; Go; Ends Returns 0; Go; Go; Ends Returns 0; Go; Go; Ends (Raises (Ordinary 3)) 0; Go; Go; Go; Ends Returns 0] in
  at_ c = Ended Returns /\ entries (trace c) = [Prepare; Loop; Loop; Cleanup] /\ flag c = true.
Proof. repeat split. Qed.
(** the exception is not in terminate_on, cleanup() is called all the same *)
Example C49_a_failure : let c := texec None odd tnew [Go; Go; Ends Returns 0; Go; Go; Ends (Raises (Ordinary 2)) 0; Go; Go; Ends Returns 0] in
  at_ c = Ended (Raises (Ordinary 2)) /\ entries (trace c) = [Prepare; Loop; Cleanup].
Proof. repeat split. Qed.
(** terminate() between the check and loop(): one more loop *)
Example C49_late : let c := texec None odd tnew [Go; Go; Ends Returns 0; Go; Terminate false; Go; Ends Returns 0; Go; Go; Ends Returns 0] in
  at_ c = Ended Returns /\ entries (trace c) = [Prepare; Loop; Cleanup].
Proof. repeat split. Qed.
(** an interval thread that sleeps three seconds in two pieces, overruns and is told to terminate *)
Example C49_an_interval : let c := texec (Some 5000%Z) odd tnew
    [Go; Go; Ends Returns 0; Go; Go; Ends Returns 2000; Go; Go; Go; Go; Go; Go; Go; Go; Go; Go; Ends Returns 6000; Go; Go; Ends Returns 0; Terminate false;
     Go; Go; Ends Returns 0] in
  at_ c = Ended Returns /\ entries (trace c) = [Prepare; Loop; Loop; Overrun; Cleanup] /\
  filter (fun a => match a with Slept _ => true | _ => false end) (trace c) = [Slept 2000; Slept 1000].
Proof. repeat split. Qed.
Example C49_a_wait : safe_wait_condition 5000 2000 false [(false, NotNotified); (false, NotNotified); (false, Notified)] = (WReturned, [2000; 2000; 1000])%Z /\
  safe_wait_condition 5000 2000 false [(false, NotNotified); (true, Notified)] = (WSystemExit, [2000])%Z.
Proof. split; reflexivity. Qed.

(** *** what does not hold *)
(** terminate(force=True): SystemExit may surface before the try block of run() or in its finally clause, and cleanup() is never called. *)
Theorem C49_forced_refuted : exists es o, let c := texec None odd tnew es in at_ c = Ended o /\ entries (trace c) = [Prepare; Loop] /\ exits (trace c) = [(Prepare, Returns); (Loop, Returns)].
Proof. exists [Go; Go; Ends Returns 0; Go; Go; Ends Returns 0; Terminate true; Go; Surface], (Raises SysExit). repeat split. Qed.
Print Assumptions C49_forced_refuted.
Theorem C49_forced_early_refuted : exists es o, let c := texec None odd tnew es in at_ c = Ended o /\ entries (trace c) = [].
Proof. exists [Go; Terminate true; Surface], (Raises SysExit). repeat split. Qed.
Print Assumptions C49_forced_early_refuted.
(** SystemExit is not treated as one of terminate_on: the thread that it ended is not marked as terminating. *)
Theorem C49_system_exit_refuted : exists es, Forall unforced es /\ let c := texec None odd tnew es in at_ c = Ended Returns /\ flag c = false.
Proof. exists [Go; Go; Ends Returns 0; Go; Go; Ends (Raises SysExit) 0; Go; Ends Returns 0]. repeat split. repeat constructor. Qed.
Print Assumptions C49_system_exit_refuted.
(** An exception of terminate_on raised by on_overrun() ends the thread with a traceback. *)
Theorem C49_overrun_refuted : exists es, Forall unforced es /\ odd 1 = Some true /\ at_ (texec (Some 0%Z) odd tnew es) = Ended (Raises (Ordinary 1)).
Proof.
  exists [Go; Go; Ends Returns 0; Go; Go; Ends Returns 1; Go; Go; Ends (Raises (Ordinary 1)) 0; Go; Ends Returns 0]. repeat split. repeat constructor.
Qed.
Print Assumptions C49_overrun_refuted.
(** safe_wait_condition with a timeout within wake_up_each looks at the flag only once, and with a timeout of zero it looks neither at the
    flag nor at the condition; with wake_up_each=0 it never ends. *)
Theorem C49_zero_timeout_refuted : safe_wait_condition 0 2000 false [(true, Notified)] = (WWouldWaitMore, []).
Proof. reflexivity. Qed.
Print Assumptions C49_zero_timeout_refuted.
Theorem C49_zero_wake_refuted : forall n, fst (safe_wait_condition 5000 0 false (repeat (false, NotNotified) n)) = StillWaiting.
Proof. intros n. exact (wait_forever n 0 5000 0 false (Z.le_refl 0) eq_refl). Qed.
Print Assumptions C49_zero_wake_refuted.

(** ** C56: the future of call_in_separate_thread *)
(** Wherever cancel() falls, the function is called at most once, and never if the future says it was cancelled, which it says only if
    somebody did. *)
Theorem C56_called_once : forall es, let c := fexec call_start es in calls c <= 1 /\ (future c = FCancelled -> calls c = 0 /\ In Cancel es).
Proof. exact called_once. Qed.
Print Assumptions C56_called_once.
Definition C56_full_statement : Prop := forall es o, nth_error (turns es) 1 = Some o -> let c := fexec call_start es in
  future c = FCancelled /\ calls c = 0 \/ future c = resolved o /\ calls c = 1.
(** Missing: functions that raise SystemExit, KeyboardInterrupt and the like. *)
Theorem C56_future_resolved_partial : forall es o, nth_error (turns es) 1 = Some o -> catchable o -> let c := fexec call_start es in
  future c = FCancelled /\ calls c = 0 \/ future c = resolved o /\ calls c = 1.
Proof. exact future_resolved. Qed.
Print Assumptions C56_future_resolved_partial.
Example C56_a_result : fexec call_start [FTurn (FReturns 0); Cancel; FTurn (FReturns 7)] = mk_call (FResult 7) FDone 1.
Proof. reflexivity. Qed.
Example C56_a_cancel : fexec call_start [Cancel; FTurn (FReturns 0); FTurn (FReturns 7)] = mk_call FCancelled FDone 0.
Proof. reflexivity. Qed.
Theorem C56_full_statement_refuted : ~ C56_full_statement.
Proof. intros H. destruct (H [FTurn (FReturns 0); FTurn (FRaises SysExit)] (FRaises SysExit) eq_refl) as [[A _]|[A _]]; discriminate A. Qed.
Print Assumptions C56_full_statement_refuted.
(** Whoever waits for such a future waits for ever. *)
Theorem C56_never_resolved_refuted : forall es, future (fexec (fexec call_start [FTurn (FReturns 0); FTurn (FRaises SysExit)]) es) = Running.
Proof. intros es. exact (never_resolved es (fexec call_start [FTurn (FReturns 0); FTurn (FRaises SysExit)]) eq_refl eq_refl). Qed.
Print Assumptions C56_never_resolved_refuted.
