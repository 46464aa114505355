(** C30: CallableGroup calls its live callbacks once each, in order. *)
From Verif Require Import Prelude CallGroup_Model CallGroup_Spec CallGroup_Proofs.

(** What happens in every history of adding, cancelling and calling in which the code does as documented
    (see [proper_op]); functions may cancel callbacks while they are called. *)
Theorem C30_session_partial : forall R A gather swallow (ops : list (group_op R A)),
  proper gather swallow new_registry ops ->
  fst (group_run gather swallow new_group ops) = spec_run gather new_registry ops.
Proof. exact (fun R A gather swallow ops => run_ok R A gather swallow ops _ _ (new_rel)). Qed.
Print Assumptions C30_session_partial.

(** A call at the end of such a history, when no function touches the group: every live callback once, in order of
    registration, with the arguments; the results in the same order. *)
Theorem C30_call_partial : forall R A gather swallow (ops : list (group_op R A)) (args : A) (w : world R),
  proper gather swallow new_registry (ops ++ [GCall args w]) -> (forall c, fst (w c) = []) ->
  let s := fold_left (fun s o => fst (spec_step gather s o)) ops new_registry in
  snd (group_step gather swallow (snd (group_run gather swallow new_group ops)) (GCall args w)) =
  OCalled (Ok (if gather then Some (map (fun e => match snd (w (fst e)) with Ok r => QValue r | Err x => QExn x end) (live s)) else None))
          (map (fun e => (fst (snd e), args)) (live s)).
Proof. exact quiet_call. Qed.
Print Assumptions C30_call_partial.

(** An exception that is not swallowed reaches the caller after the callbacks before it were called, and of all the
    callbacks only those that came before it (and are not one-shot) are still registered. *)
Theorem C30_exception_loses_the_rest : forall R A gather (args : A) (w : world R) g e pre c os post,
  NoDup (map fst (callables g)) -> (forall c, fst (w c) = []) ->
  filter (fun x => negb (is_cancelled g (fst x))) (callables g) = pre ++ (c, os) :: post ->
  (forall x b, In (x, b) pre -> exists r, snd (w x) = Ok r) -> snd (w c) = Err e ->
  exists g', call gather false args w g = (g', Err e, map (fun x => (fun_of g (fst x), args)) (pre ++ [(c, os)])) /\
    callables g' = filter (fun x => negb (snd x)) pre.
Proof. exact group_raises. Qed.
Print Assumptions C30_exception_loses_the_rest.

(** CallNoOftenThan: the interval passes between a call's end and the next call. *)
Theorem C30_no_often_apart : forall interval calls,
  apart interval (times_called calls (no_often_run (new_no_often interval) calls)).
Proof. exact (fun interval calls => proj1 (no_often_apart calls (new_no_often interval))). Qed.
Print Assumptions C30_no_often_apart.
(** and a call that is due is made *)
Theorem C30_no_often_due : forall n b a t, (last_called n + interval n <= b)%Z ->
  exists r, no_often_run n ((b, a) :: t) = true :: r.
Proof. exact (fun n b a t H => no_often_due _ n b a t eq_refl H). Qed.
Print Assumptions C30_no_often_due.

(** A history that meets the hypotheses: the second callback cancels the fourth, the third is one-shot and raises. *)
Definition ex_world : world Z := fun c => match c with
  | 0 => ([], Ok 10%Z) | 1 => ([ECancel 3], Ok 11%Z) | 2 => ([], Err ValueError) | _ => ([], Ok 13%Z) end.
Definition ex_ops : list (group_op Z Z) :=
  [GAdd 100 false; GAdd 101 false; GAdd 102 true; GAdd 103 false; GCall 7%Z ex_world; GCancel 0; GCall 8%Z ex_world;
   GAddCallback 2 false; GAddCallback 1 true; GRemoveCancelled; GCall 9%Z ex_world].
Example C30_session_hypotheses_met : proper true true new_registry ex_ops.
Proof.
  assert (H : forall c e, In e (fst (ex_world c)) -> exists c', e = ECancel c').
  { intros [|[|[|c]]] e Hi; simpl in Hi; try contradiction. destruct Hi as [Hi|[]]. exists 3. auto. }
  repeat (split; [simpl; try exact I; try lia; (split; [left; vm_compute; discriminate|split; [exact H|left; reflexivity]])|]).
  repeat split; try exact I; try (vm_compute; lia); try exact H; left; try reflexivity; vm_compute; discriminate.
Qed.
Example C30_session_example : fst (group_run true true new_group ex_ops) =
  [OCallback 0; OCallback 1; OCallback 2; OCallback 3;
   OCalled (Ok (Some [QValue 10%Z; QValue 11%Z; QExn ValueError; QNone])) [(100, 7%Z); (101, 7%Z); (102, 7%Z)];
   ODone;
   OCalled (Ok (Some [QValue 11%Z])) [(101, 8%Z)];
   OCallback 2; OCallback 1; ODone;
   OCalled (Ok (Some [QValue 11%Z; QExn ValueError])) [(101, 9%Z); (102, 9%Z)]].
Proof. vm_compute. reflexivity. Qed.
Example C30_raises_example : exists g', call true false 5%Z ex_world (mk_group [(0, false); (2, false); (1, false)] [] [100; 101; 102])
  = (g', Err ValueError, [(100, 5%Z); (102, 5%Z)]) /\ callables g' = [(0, false)].
Proof. eexists. vm_compute. split; reflexivity. Qed.
Example C30_no_often_example : no_often_run (new_no_often 10) [(15, 17); (20, 21); (27, 27)]%Z = [true; false; true].
Proof. reflexivity. Qed.

(** The full property: every history is as documented, when exceptions are swallowed and functions add nothing. *)
Definition quiet_op (o : group_op Z Z) : Prop := match o with GCall _ w => forall c, fst (w c) = [] | GAddCallback _ _ => False | _ => True end.
Definition C30_full_statement : Prop := forall ops : list (group_op Z Z), Forall quiet_op ops ->
  fst (group_run true true new_group ops) = spec_run true new_registry ops.
(** When all the callbacks are cancelled the results hold a None for each. *)
Definition ex_quiet : world Z := fun c => ([], Ok (Z.of_nat c)).
Theorem C30_all_cancelled_refuted :
  fst (group_run true true new_group [GAdd 100 false; GCancel 0; GCall 7%Z ex_quiet]) = [OCallback 0; ODone; OCalled (Ok (Some [QNone])) []] /\
  spec_run true new_registry [GAdd 100 false; GCancel 0; GCall 7%Z ex_quiet] = [OCallback 0; ODone; OCalled (Ok (Some [])) []].
Proof. vm_compute. split; reflexivity. Qed.
Print Assumptions C30_all_cancelled_refuted.
(** has_cancelled_callbacks answers the opposite. *)
Theorem C30_has_cancelled_refuted :
  fst (group_run (R := Z) (A := Z) true true new_group [GAdd 100 false; GHasCancelled; GCancel 0; GHasCancelled])
    = [OCallback 0; OFlag true; ODone; OFlag false] /\
  spec_run (R := Z) (A := Z) true new_registry [GAdd 100 false; GHasCancelled; GCancel 0; GHasCancelled]
    = [OCallback 0; OFlag false; ODone; OFlag true].
Proof. vm_compute. split; reflexivity. Qed.
Print Assumptions C30_has_cancelled_refuted.
Theorem C30_full_statement_refuted : ~ C30_full_statement.
Proof.
  intro H. specialize (H [GAdd 100 false; GCancel 0; GCall 7%Z ex_quiet]).
  assert (Hq : Forall quiet_op [GAdd 100 false; GCancel 0; GCall 7%Z ex_quiet]) by (repeat constructor).
  specialize (H Hq). vm_compute in H. discriminate.
Qed.
Print Assumptions C30_full_statement_refuted.
(** A callback that raises takes those after it out of the group: the second call calls nothing but the first. *)
Definition ex_once (c : nat) : list effect * res Z := match c with 1 => ([], Err ValueError) | _ => ([], Ok 0%Z) end.
Theorem C30_exception_unregisters_refuted :
  fst (group_run true false new_group [GAdd 100 false; GAdd 101 false; GAdd 102 false; GCall 7%Z ex_once; GCall 7%Z ex_quiet]) =
  [OCallback 0; OCallback 1; OCallback 2; OCalled (Err ValueError) [(100, 7%Z); (101, 7%Z)]; OCalled (Ok (Some [QValue 0%Z])) [(100, 7%Z)]].
Proof. vm_compute. reflexivity. Qed.
Print Assumptions C30_exception_unregisters_refuted.
(** A function added from a callback is called before that callback next time. *)
Definition ex_adds (c : nat) : list effect * res Z := match c with 0 => ([EAdd 101 false], Ok 0%Z) | _ => ([], Ok 0%Z) end.
Theorem C30_order_after_reentrant_add_refuted :
  fst (group_run true true new_group [GAdd 100 false; GCall 7%Z ex_adds; GCall 7%Z ex_quiet]) =
  [OCallback 0; OCalled (Ok (Some [QValue 0%Z])) [(100, 7%Z)]; OCalled (Ok (Some [QValue 1%Z; QValue 0%Z])) [(101, 7%Z); (100, 7%Z)]].
Proof. vm_compute. reflexivity. Qed.
Print Assumptions C30_order_after_reentrant_add_refuted.
(** "Same callable can't be added twice": a function added twice is called twice. *)
Theorem C30_added_twice_refuted :
  fst (group_run true true new_group [GAdd 100 false; GAdd 100 false; GCall 7%Z ex_quiet]) =
  [OCallback 0; OCallback 1; OCalled (Ok (Some [QValue 0%Z; QValue 1%Z])) [(100, 7%Z); (100, 7%Z)]].
Proof. vm_compute. reflexivity. Qed.
Print Assumptions C30_added_twice_refuted.
(** CallNoOftenThan counts from the clock's zero: within the interval from it the first call is not made. *)
Theorem C30_no_often_first_refuted : no_often_run (new_no_often 10) [(5, 5)]%Z = [false].
Proof. reflexivity. Qed.
Print Assumptions C30_no_often_first_refuted.
