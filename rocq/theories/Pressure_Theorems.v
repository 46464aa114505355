(** Theorems about the memory pressure manager (C64): any conditions, any number of levels and callbacks, any history of checks,
    registrations and cancellations. *)
From Coq Require Import QArith.
From Verif Require Import Prelude Pressure_Model Pressure_Spec Pressure_Proofs.
Local Open Scope nat_scope.

(** The full statement: every condition fires when what is free falls below its value, and any combination means what it says. *)
Definition C64_full_statement : Prop := forall m c b, sane m -> can_fire m c = Ok b -> (b = true <-> holds m c).
(** True of all combinations of the conditions but LocalRelativeValue. *)
Theorem C64_conditions_partial : forall m c b, sane m -> not_relative c -> can_fire m c = Ok b -> (b = true <-> holds m c).
Proof. exact conditions. Qed.
Print Assumptions C64_conditions_partial.
(** LocalRelativeValue(v) fires when MORE than v per cent of the memory that the program may use is free. *)
Theorem C64_local_relative_refuted : forall m v x, (0 < x)%Z -> maximum m = Some x ->
  (can_fire m (LocalRelativeValue v) = Ok true <-> (inject_Z v * inject_Z x < (inject_Z x - inject_Z (rss m)) * 100)%Q).
Proof. exact local_relative. Qed.
Print Assumptions C64_local_relative_refuted.
Definition half_used : memory := mk_memory 100 200 50 (Some 100%Z) (fun _ => Ok true).
Theorem C64_full_statement_refuted : ~ C64_full_statement.
Proof.
  intros H. destruct (H half_used (LocalRelativeValue 20) true) as (K & _); [split; simpl; [reflexivity|intros x E; inversion E; reflexivity]|reflexivity|].
  destruct (K eq_refl) as (x & E & L). inversion E; subst. discriminate.
Qed.
Print Assumptions C64_full_statement_refuted.
(** Given a maximum, no condition raises. *)
Theorem C64_conditions_total : forall m c x, sane m -> maximum m = Some x -> (forall f, exists b, custom m f = Ok b) -> exists b, can_fire m c = Ok b.
Proof. exact conditions_total. Qed.
Print Assumptions C64_conditions_total.

(** A check that raises nothing sets the level to the highest whose condition fires, and announces every level on the way: entering each
    level passed upwards, leaving each passed downwards, back to normal at level 0, remaining if nothing changed; each live callback
    once, in order of registration. *)
Theorem C64_check : forall conds m w m' l, running m = true -> stopped m = false -> step conds m (Check w) = (m', Did l None) ->
  severity (fun c => can_fire (mem w) c = Ok true) conds (level m') /\ l = announcements m w (level m').
Proof. exact checked. Qed.
Print Assumptions C64_check.
Theorem C64_check_documented_partial : forall conds m w m' l, running m = true -> stopped m = false -> sane (mem w) -> Forall not_relative conds ->
  step conds m (Check w) = (m', Did l None) -> severity (holds (mem w)) conds (level m').
Proof. exact checked_documented. Qed.
Print Assumptions C64_check_documented_partial.
(** A check raises nothing unless a callback or a condition does. *)
Theorem C64_check_total : forall conds ops w x, let m := fst (run conds new_manager ops) in
  (forall t v, In (Advance t v) ops -> t <= length conds) -> running m = true ->
  (forall c, raises w c = false) -> (forall o, collector_raises w o = false) ->
  sane (mem w) -> maximum (mem w) = Some x -> (forall f, exists b, custom (mem w) f = Ok b) ->
  exists m' l, step conds m (Check w) = (m', Did l None).
Proof. exact checked_total. Qed.
Print Assumptions C64_check_total.
(** Entering and leaving a level alternate for ever: a callback for each, registered below that level, is called in turn, and the last
    call tells on which side the level is. *)
Theorem C64_alternation : forall conds ops more k c d, let m := fst (run conds new_manager ops) in
  level m < k -> In c (entered m k) -> In d (left_ m k) -> ~ In c (cancelled m) -> ~ In d (cancelled m) ->
  ~ In (Cancel c) more -> ~ In (Cancel d) more -> quiet (snd (run conds m more)) ->
  alternating (Entered k c) (Left k d) (filter (is_about k c d) (notices (snd (run conds m more)))) (k <=? level (fst (run conds m more))).
Proof. exact alternation. Qed.
Print Assumptions C64_alternation.
(** A cancelled callback is never called again, whatever happens. *)
Theorem C64_cancelled_never : forall conds c ops m, In c (cancelled m) ->
  forall x, In x (notices (snd (run conds m ops))) -> about x <> Some c.
Proof. exact cancelled_never. Qed.
Print Assumptions C64_cancelled_never.
(** The level is always one of the levels, also if callbacks raise. *)
Theorem C64_level_bound : forall conds ops m, level m <= length conds -> (forall t w, In (Advance t w) ops -> t <= length conds) ->
  level (fst (run conds m ops)) <= length conds.
Proof. exact level_bound. Qed.
Print Assumptions C64_level_bound.
(** Callbacks and objects to clean up can be registered for the levels there are; for others IndexError is raised and the manager keeps
    calling what it called. *)
Theorem C64_registering : forall conds m k,
  (length conds < k ->
    (forall o, step conds m (CleanupOnEntered k o) = (m, Refused IndexError)) /\
    (forall d, exists m', step conds m (Register d k) = (m', Refused IndexError) /\
       entered m' = entered m /\ left_ m' = left_ m /\ remains m' = remains m /\ level m' = level m)) /\
  (k <= length conds -> forall o, exists m', step conds m (CleanupOnEntered k o) = (m', Fine) /\ objects m' k = objects m k ++ [o] /\
     (forall j, j <> k -> objects m' j = objects m j) /\ entered m' = entered m /\ left_ m' = left_ m /\ remains m' = remains m /\ level m' = level m).
Proof. exact registering. Qed.
Print Assumptions C64_registering.
Theorem C64_stopped : forall conds m w, stopped m = true -> step conds m (Check w) = (m, Did [] None).
Proof. intros conds m w S. cbn [step]. unfold loop. rewrite S. destruct (running m); reflexivity. Qed.
Print Assumptions C64_stopped.
(** If a callback or a condition raises, what was called is the beginning of what should have been, and the thread is dead ... *)
Theorem C64_raised_partial : forall conds m w m' l e, running m = true -> stopped m = false -> step conds m (Check w) = (m', Did l (Some e)) ->
  running m' = false /\
  (calculate conds (mem w) = Err e /\ l = [] /\ level m' = level m \/
   exists target rest, calculate conds (mem w) = Ok target /\ announcements m w target = l ++ rest).
Proof. exact check_raised. Qed.
Print Assumptions C64_raised_partial.
(** ... so that the level never changes again and nothing is called, whatever the memory does. *)
Theorem C64_dead_forever_refuted : forall conds ops m, running m = false -> (forall t w, ~ In (Advance t w) ops) ->
  level (fst (run conds m ops)) = level m /\ notices (snd (run conds m ops)) = [].
Proof. exact dead_forever. Qed.
Print Assumptions C64_dead_forever_refuted.

(** Two levels, below 20 and below 10 per cent free. *)
Definition two_levels : list condition := [GlobalRelativeValue 20; AnyOf [GlobalRelativeValue 10; NotOf (CustomCondition 0)]].
Definition with_free (a : Z) : world :=
  mk_world (mk_memory a 100 10 (Some 100%Z) (fun _ => Ok true)) (fun _ => false) (fun _ => false) (fun _ => false).
Definition preparation : list op := [Register OnEntered 1; Register OnLeft 1; Register OnEntered 2; Register OnLeft 2; RegisterNormal; Register OnRemaining 1].
Definition prepared : manager := fst (run two_levels new_manager preparation).
Definition ups_and_downs : list op := map (fun a => Check (with_free a)) [50; 15; 15; 5; 50; 5; 15]%Z.
Example C64_example : snd (run two_levels prepared ups_and_downs) =
  [Did [] None; Did [Entered 1 0] None; Did [Remaining 1 5] None; Did [Entered 2 2] None; Did [Left 2 3; Left 1 1; Normal 4] None;
   Did [Entered 1 0; Entered 2 2] None; Did [Left 2 3] None].
Proof. vm_compute. reflexivity. Qed.
Example C64_example_alternation : alternating (Entered 1 0) (Left 1 1) [Entered 1 0; Left 1 1; Entered 1 0] true /\
  filter (is_about 1 0 1) (notices (snd (run two_levels prepared ups_and_downs))) = [Entered 1 0; Left 1 1; Entered 1 0] /\
  level prepared < 1 /\ In 0 (entered prepared 1) /\ In 1 (left_ prepared 1) /\ cancelled prepared = [] /\ running prepared = true.
Proof.
  split; [|vm_compute; auto 10]. apply (alt_a (l := [Entered 1 0; Left 1 1])), (alt_b (l := [Entered 1 0])), (alt_a (l := [])), alt_nil.
Qed.
(** The callback for entering level 1 raises: one level is behind the memory for ever. *)
Definition raising (w : world) (c : nat) : world := mk_world (mem w) (Nat.eqb c) (collector_raises w) (gone w).
Example C64_example_raised : forall n,
  level (fst (run two_levels prepared (Check (raising (with_free 5) 0) :: repeat (Check (with_free 50)) n))) = 1.
Proof.
  intros n. destruct (dead_forever two_levels (repeat (Check (with_free 50)) n) (fst (run two_levels prepared [Check (raising (with_free 5) 0)]))) as (E & _).
  - vm_compute. reflexivity.
  - intros t w I. apply repeat_spec in I. discriminate.
  - cbn [run] in *. destruct (step two_levels prepared (Check (raising (with_free 5) 0))) as (m & x) eqn:S. cbn [fst] in E.
    destruct (run two_levels m _). cbn [fst] in *. rewrite E. apply (f_equal (fun z => level (fst z))) in S. vm_compute in S. auto.
Qed.
(** Without a maximum, the local conditions raise TypeError at the first check, which is the end of the thread. *)
Theorem C64_no_maximum_refuted : forall v w, maximum (mem w) = None ->
  let (m, x) := step [LocalAbsoluteValue v] new_manager (Check w) in x = Did [] (Some TypeError) /\ running m = false.
Proof. intros v w E. cbn. rewrite E. auto. Qed.
Print Assumptions C64_no_maximum_refuted.
(** A callback that raises in an advance by hand drops all callbacks of that level registered after it, and itself. *)
Theorem C64_callbacks_lost_refuted : entered (fst (run two_levels new_manager
  [Register OnEntered 1; Register OnEntered 1; Register OnEntered 1; Advance 1 (raising (with_free 50) 1)])) 1 = [0].
Proof. vm_compute. reflexivity. Qed.
Print Assumptions C64_callbacks_lost_refuted.
