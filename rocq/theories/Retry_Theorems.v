(** C37: retry. *)
From Verif Require Import Prelude PreludeFacts Retry_Model Retry_Spec Retry_Proofs.

(** The function is called until its first success, at most `times` times, with the callbacks in their places. *)
Definition C37_full_statement : Prop := forall (V : Type) (s : settings) (f : nat -> res V) n, times s = Some n -> (0 <= n)%Z ->
  forall fuel, exists r, snd (inner s f fuel) = Some r /\ expected s f (fst (inner s f fuel)) r.

(** Missing: callbacks that raise; times = 0. *)
Theorem C37_retry_partial : forall (V : Type) (s : settings) (f : nat -> res V) n, quiet_callbacks s -> times s = Some n -> (0 < n)%Z ->
  forall fuel, exists r, snd (inner s f fuel) = Some r /\ expected s f (fst (inner s f fuel)) r.
Proof. intros V s f n Hq. exact (limited V s f Hq n). Qed.
Print Assumptions C37_retry_partial.

(** times = None: the same when some call does not fail with a listed exception, *)
Theorem C37_unlimited_partial : forall (V : Type) (s : settings) (f : nat -> res V) k, quiet_callbacks s ->
  times s = None -> leading_failures s f k -> (forall e, f k = Err e -> caught s e = false) ->
  forall fuel, k < fuel -> exists r, snd (inner s f fuel) = Some r /\ expected s f (fst (inner s f fuel)) r.
Proof. intros V s f k Hq. exact (unlimited_stops V s f Hq k). Qed.
Print Assumptions C37_unlimited_partial.
(** else there is always another call. *)
Theorem C37_unlimited_goes_on_partial : forall (V : Type) (s : settings) (f : nat -> res V), quiet_callbacks s ->
  times s = None -> (forall k, leading_failures s f k) -> forall fuel, inner s f fuel = (failures s f fuel, None).
Proof. intros V s f Hq. exact (unlimited_goes_on V s f Hq). Qed.
Print Assumptions C37_unlimited_goes_on_partial.

(** Never more than `times` calls, whatever the callbacks do. *)
Theorem C37_at_most_times : forall (V : Type) (s : settings) (f : nat -> res V) n fuel, times s = Some n -> (0 <= n)%Z ->
  (Z.of_nat (calls_of_function (fst (inner s f fuel))) <= n)%Z.
Proof. intros V s f n fuel. exact (at_most V s f n fuel). Qed.
Print Assumptions C37_at_most_times.
Theorem C37_failures_are_calls : forall (V : Type) (s : settings) (f : nat -> res V) k, calls_of_function (failures s f k) = k.
Proof. intros V s f k. exact (failures_count V s f k). Qed.
Print Assumptions C37_failures_are_calls.

Definition yes (X : Type) (_ : X) : res unit := Ok tt.
Arguments yes {X}.
Definition only_key (e : exn) : bool := match e with KeyError => true | _ => false end.
Definition demo (n : option Z) (sw : bool) : settings := mk_settings n only_key yes sw (Some yes) (Some yes) (Some yes).
Definition third_time (i : nat) : res Z := if Nat.ltb i 2 then Err KeyError else Ok 7%Z.
Example C37_demo_success : inner (demo (Some 5%Z) true) third_time 0 = ([Fun; Between KeyError; Fun; Between KeyError; Fun; Success 2], Some (Ok (Some 7%Z))).
Proof. reflexivity. Qed.
Example C37_demo_failure : inner (demo (Some 2%Z) false) third_time 0 = ([Fun; Between KeyError; Fun; Between KeyError; Failure KeyError; OldFailure KeyError], Some (Err KeyError)).
Proof. reflexivity. Qed.
Example C37_demo_swallowed : snd (inner (demo (Some 1%Z) true) third_time 0) = Some (Ok None).
Proof. reflexivity. Qed.
Example C37_demo_other : inner (demo None true) (fun i => if Nat.eqb i 1 then Err ValueError else Err KeyError : res Z) 9 = ([Fun; Between KeyError; Fun], Some (Err ValueError)).
Proof. reflexivity. Qed.
Example C37_demo_quiet : forall n sw, quiet_callbacks (demo n sw).
Proof. intros n sw. repeat split; intros x; reflexivity. Qed.
Example C37_demo_leading : leading_failures (demo None true) third_time 2.
Proof. intros i Hi. exists KeyError. unfold third_time. apply Nat.ltb_lt in Hi. rewrite Hi. auto. Qed.

(** times = 0: UnboundLocalError. *)
Theorem C37_zero_times_refuted : inner (demo (Some 0%Z) true) third_time 0 = ([], Some (Err NameErrorExn)).
Proof. reflexivity. Qed.
Print Assumptions C37_zero_times_refuted.
(** An exception of call_on_success that is listed is taken for a failure of the function, which is then called again. *)
Theorem C37_success_callback_refuted :
  inner (mk_settings (Some 2%Z) only_key yes true None (Some (fun _ => Err KeyError)) None) (fun _ => Ok 7%Z) 0
  = ([Fun; Success 0; Fun; Success 1; Failure KeyError], Some (Ok None)).
Proof. reflexivity. Qed.
Print Assumptions C37_success_callback_refuted.
(** call_between_retries is called also when no retry follows. *)
Theorem C37_between_without_retry_refuted :
  inner (mk_settings (Some 1%Z) only_key yes true None None (Some yes)) third_time 0 = ([Fun; Between KeyError; Failure KeyError], Some (Ok None)).
Proof. reflexivity. Qed.
Print Assumptions C37_between_without_retry_refuted.
Theorem C37_full_statement_refuted : ~ C37_full_statement.
Proof.
  intros H. destruct (H Z (demo (Some 0%Z) true) third_time 0%Z eq_refl (Z.le_refl 0) 0) as (r & H1 & H2). vm_compute in H1. injection H1 as <-.
  inversion H2; subst; unfold allowed in *; simpl in *; try lia; discriminate.
Qed.
Print Assumptions C37_full_statement_refuted.
