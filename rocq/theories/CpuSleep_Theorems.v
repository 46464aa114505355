(** C81: theorems. *)
From Coq Require Import String.
From Verif Require Import Prelude CpuSleep_Model CpuSleep_Spec CpuSleep_Proofs.
Local Open Scope Z_scope.

(** sleep_cpu_aware sleeps to the end, or to the first look at the load that finds it outside, and tells which. *)
Definition C81_sleep_full_statement : Prop := forall occ now seconds below above check, 0 <= seconds -> 0 <= check ->
  exists fin b, sleep_cpu_aware occ now seconds below above check = Ok (fin, b) /\ slept occ now seconds check below above fin b.
Theorem C81_sleep_partial : forall occ now seconds below above check, 0 < check -> 0 <= seconds ->
  exists fin b, sleep_cpu_aware occ now seconds below above check = Ok (fin, b) /\ slept occ now seconds check below above fin b.
Proof. exact sleep_ok. Qed.
Print Assumptions C81_sleep_partial.
(** so never for longer than asked *)
Theorem C81_not_longer : forall occ now seconds below above check fin b, 0 < check -> 0 <= seconds ->
  sleep_cpu_aware occ now seconds below above check = Ok (fin, b) -> now <= fin <= now + seconds.
Proof.
  intros occ now seconds below above check fin b C P E. destruct (sleep_ok occ now seconds below above check C P) as (f & b' & E' & S).
  rewrite E in E'. injection E' as <- <-. apply (slept_bounds occ _ _ _ _ _ _ _ C P S).
Qed.
Print Assumptions C81_not_longer.
(** with check_each=0 it never ends, however long it runs *)
Theorem C81_never_ends_refuted : forall fuel, sleep_loop (fun _ => 5) fuel 0 10 (Some 1) None 0 = Err Diverges.
Proof. induction fuel as [|fuel IH]; auto. Qed.
Print Assumptions C81_never_ends_refuted.
Theorem C81_sleep_full_statement_refuted : ~ C81_sleep_full_statement.
Proof. intros H. destruct (H (fun _ => 5) 0 10 (Some 1) None 0) as (fin & b & E & _); [lia|lia|]. vm_compute in E. discriminate E. Qed.
Print Assumptions C81_sleep_full_statement_refuted.
Example C81_sleep_met : sleep_cpu_aware (fun t => if t =? 2000 then 10 else 50) 0 2500 (Some 20) None 1000 = Ok (2000, true) /\
  sleep_cpu_aware (fun t => 50) 0 2500 (Some 20) None 1000 = Ok (2500, false).
Proof. split; reflexivity. Qed.

(** ** the thread *)
(** One sleep of the thread ends at most max_sooner before its end; before it only if the load is below the percentile or it is terminating. A
    terminating thread may leave it with SystemExit instead. *)
Theorem C81_thread_sleep : forall occ term max_sooner wakeup, 0 < wakeup -> 0 <= max_sooner -> forall now how_long per_val, 0 <= how_long ->
  (exists fin, cpu_sleep occ term max_sooner wakeup now how_long per_val = Ok fin /\
    now <= fin /\ now + how_long - max_sooner <= fin <= now + how_long /\ (fin = now + how_long \/ occ fin < per_val \/ term fin = true)) \/
  (cpu_sleep occ term max_sooner wakeup now how_long per_val = Err SystemExitExn /\ exists t, now <= t <= now + how_long /\ term t = true).
Proof. exact cpu_sleep_ok. Qed.
Print Assumptions C81_thread_sleep.
(** A thread that is not terminating calls loop() for ever, each time in time: not before max_sooner before its time, before its time only if the load is
    below the percentile, and not later, unless the loop itself took longer. *)
Theorem C81_in_time : forall occ term max_sooner wakeup, 0 < wakeup -> 0 <= max_sooner -> forall seconds per, (forall t, term t = false) ->
  forall durations now, Forall (Z.le 0) durations ->
  let l := starts (fst (run occ term max_sooner wakeup seconds per now durations)) in
  length l = length durations /\ (durations <> [] -> nth_error l 0 = Some now) /\
  forall i s d s', nth_error l i = Some s -> nth_error durations i = Some d -> nth_error l (S i) = Some s' ->
    in_time seconds max_sooner s d s' /\ (s' < s + seconds -> occ s' < per (s + d)).
Proof. intros. apply run_starts; auto. Qed.
Print Assumptions C81_in_time.
(** on_overrun() is called with the durations that were longer than the time, in order. *)
Theorem C81_overruns : forall occ term max_sooner wakeup, 0 < wakeup -> 0 <= max_sooner -> forall seconds per, (forall t, term t = false) ->
  forall durations now, Forall (Z.le 0) durations ->
  map (fun d => match d with LoopAt _ => 0 | OverrunAt _ m => m end)
    (filter (fun d => match d with LoopAt _ => false | OverrunAt _ _ => true end) (fst (run occ term max_sooner wakeup seconds per now durations))) =
  filter (fun d => seconds <? d) durations.
Proof. intros. apply run_overruns; auto. Qed.
Print Assumptions C81_overruns.
Example C81_met : run (fun t => if t =? 9000 then 1 else 9) (fun _ => false) 2000 3000 10000 (fun _ => 5) 0 [300; 12000; 9000; 0] =
  ([LoopAt 0; LoopAt 9000; OverrunAt 21000 12000; LoopAt 21000; LoopAt 31000], None).
Proof. reflexivity. Qed.

(** max_sooner is what was given, or a tenth of seconds; seconds may be a time string. *)
Definition C81_init_full_statement : Prop := forall max_sooner seconds, exists m, init_max_sooner max_sooner seconds = Ok m /\
  match max_sooner with Some v => m = v | None => forall ms, seconds = Seconds ms -> m = ms / 10 end.
Theorem C81_init_partial : forall ms, init_max_sooner None (Seconds ms) = Ok (ms / 10) /\
  forall v s, v <> 0 -> init_max_sooner (Some v) s = Ok v.
Proof. intros ms. split; auto. intros [|p|p] s N; auto. congruence. Qed.
Print Assumptions C81_init_partial.
(** With a time string and without max_sooner the constructor raises TypeError; max_sooner=0 is taken for none. *)
Theorem C81_time_string_refuted : forall s, init_max_sooner None (TimeString s) = Err TypeError.
Proof. reflexivity. Qed.
Print Assumptions C81_time_string_refuted.
Theorem C81_zero_refuted : init_max_sooner (Some 0) (Seconds 5000) = Ok 500.
Proof. reflexivity. Qed.
Print Assumptions C81_zero_refuted.
Theorem C81_init_full_statement_refuted : ~ C81_init_full_statement.
Proof. intros H. destruct (H None (TimeString "10s")) as (m & E & _). discriminate E. Qed.
Print Assumptions C81_init_full_statement_refuted.
