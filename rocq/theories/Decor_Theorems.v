(* C71: decorators that look at or change the arguments of a call. *)
From Coq Require Import List Bool Arith ZArith String Lia.
From Verif Require Import Prelude PreludeFacts Args_Model Args_Spec Args_Proofs Decor_Model Decor_Spec Decor_Proofs.
Import ListNotations.
Local Open Scope nat_scope.
Local Open Scope list_scope.

(* However the arguments of a valid call are passed, the body runs with each
   parameter processed by the operation attached to it. False. *)
Definition C71_full_statement : Prop :=
  forall callable s body ops kwops args kw b w,
    writable s -> dwf kw -> attachable s ops kwops ->
    py_bind s args kw = Ok b -> all_processed callable s ops kwops b w ->
    for_argument s body callable ops kwops args kw = body w.

(* What is true. If some parameter has a default: provided no default is itself
   callable, and the call is one get_arguments (C69) understands. If none has:
   provided arguments are passed the way their operations are attached. *)
Theorem C71_for_argument_partial : forall callable s body ops kwops args kw b w,
  writable s -> dwf kw -> attachable s ops kwops ->
  py_bind s args kw = Ok b -> all_processed callable s ops kwops b w ->
  (some_default s -> callable PyNone = None /\
     (forall p d, In p s -> p_default p = Some d -> callable d = None) /\
     (forall n, In n reserved -> ~ In n (dkeys kw) /\ ~ In n (dkeys kwops)) /\
     ~ named_before_star s args) ->
  (~ some_default s -> passed_alike s ops kwops args) ->
  for_argument s body callable ops kwops args kw = body w.
Proof.
  intros callable s body ops kwops args kw b w W K A B P H1 H2.
  destruct (has_defaults s) eqn:HD.
  - destruct (H1 (has_defaults_some s HD)) as [C [D [R N]]].
    exact (for_argument_slow callable s body ops kwops args kw b w W K A
      (fun n i => proj1 (R n i)) (fun n i => proj2 (R n i)) N C D B P HD).
  - exact (for_argument_fast callable s body ops kwops args kw b w W K A (H2 (has_defaults_none s HD)) B P HD).
Qed.
Print Assumptions C71_for_argument_partial.

(* An operation for a parameter named "function" or "special_behaviour": if some
   parameter has a default, no call can be made. *)
Theorem C71_reserved : forall callable s body ops kwops args kw n,
  some_default s -> In n reserved -> In n (dkeys kwops) ->
  for_argument s body callable ops kwops args kw = Err TypeError.
Proof.
  intros callable s body ops kwops args kw n D R I. unfold for_argument.
  destruct (has_defaults s) eqn:H; [|destruct (has_defaults_none s H D)].
  assert (M : has kwops n = true) by (apply (dmem_In sok); exact I).
  destruct R as [<-|[<-|[]]]; rewrite M; [reflexivity|]. rewrite orb_true_r. reflexivity.
Qed.
Print Assumptions C71_reserved.

(* transform_arguments: in a call without keyword arguments every expression is
   evaluated over the original arguments, and the function runs with the results
   in place of the parameters they are for. *)
Theorem C71_transform_arguments_partial : forall s body es args b new,
  writable s -> ~ named_before_star s args -> py_bind s args [] = Ok b ->
  NoDup (map fst es) ->
  (forall n e, In (n, e) es ->
     exists p, In p s /\ p_name p = n /\ p_kind p <> VarPos /\ p_kind p <> VarKw) ->
  (forall old n e, (forall p, In p s -> get old (p_name p) = get b (p_name p)) ->
     In (n, e) es -> exists v, e old = Ok v /\ get new n = Some v) ->
  dkeys new = map p_name s ->
  (forall p, In p s -> ~ In (p_name p) (map fst es) -> get new (p_name p) = get b (p_name p)) ->
  transform_arguments s body es args [] = body new.
Proof. exact transform_arguments_ok. Qed.
Print Assumptions C71_transform_arguments_partial.

(* transform_result: in a call without keyword arguments the expression sees the
   result as x and the other parameters by their names. *)
Theorem C71_transform_result_partial : forall s body expr args b a,
  writable s -> ~ named_before_star s args -> py_bind s args [] = Ok b -> body b = Ok a ->
  exists local, transform_result s body expr args [] = expr local /\
    get local "x"%string = Some a /\
    forall p, In p s -> p_name p <> "x"%string -> get local (p_name p) = get b (p_name p).
Proof. exact transform_result_ok. Qed.
Print Assumptions C71_transform_result_partial.

Theorem C71_transform_result_raises : forall s body expr args kw e,
  call s body args kw = Err e -> transform_result s body expr args kw = Err e.
Proof. exact transform_result_err. Qed.
Print Assumptions C71_transform_result_raises.

(* replace_argument_if with instance_of: an argument that is an instance is
   replaced, all the others stay, and a call without one goes through unchanged. *)
Theorem C71_replace_argument_partial : forall s body arg st inst args kw b p,
  writable s -> dwf kw -> (forall n, In n reserved -> ~ In n (dkeys kw)) ->
  ~ named_before_star s args -> py_bind s args kw = Ok b ->
  In p s -> p_name p = arg -> p_kind p <> VarPos -> p_kind p <> VarKw ->
  (forall v, get b arg = Some v -> inst v = false ->
     replace_argument_if s body arg st inst None args kw = body b) /\
  (forall v w new, get b arg = Some v -> inst v = true -> st v = Ok w ->
     dkeys new = map p_name s -> get new arg = Some w ->
     (forall q, In q s -> q <> p -> get new (p_name q) = get b (p_name q)) ->
     replace_argument_if s body arg st inst None args kw = body new).
Proof. exact replace_none. Qed.
Print Assumptions C71_replace_argument_partial.

(* attach_arguments: extra positional arguments come last, extra keyword
   arguments take precedence. *)
Theorem C71_attach_arguments : forall s body xargs xkw args kw, dwf kw -> dwf xkw ->
  exists kw', attach_arguments s body xargs xkw args kw = call s body (args ++ xargs) kw' /\ dwf kw' /\
    forall n, get kw' n = match get xkw n with Some v => Some v | None => get kw n end.
Proof. exact attach_ok. Qed.
Print Assumptions C71_attach_arguments.

(* precondition: with conditions that answer as expected (positional ones: no other
   false value than False, keyword ones: no exception), arguments passed the way the
   conditions are attached and defaults that obey them, the function runs
   if all the conditions hold, otherwise PreconditionError is raised and it does
   not run. *)
Theorem C71_precondition_partial : forall s body conds kwconds args kw b,
  writable s -> dwf kw -> attachable s conds kwconds -> passed_alike s conds kwconds args ->
  (forall c, In c conds -> strict c) -> (forall n c, In (n, c) kwconds -> total c) ->
  (forall p c v, In p s -> dget String.eqb kwconds (p_name p) = Some c -> p_default p = Some v ->
     holds c v) ->
  py_bind s args kw = Ok b ->
  (all_hold s conds kwconds b -> precondition s body conds kwconds args kw = Called (body b)) /\
  (~ all_hold s conds kwconds b -> precondition s body conds kwconds args kw = PreconditionFailed).
Proof. exact precondition_rule. Qed.
Print Assumptions C71_precondition_partial.

(* postcondition *)
Theorem C71_postcondition_partial : forall s body c args kw,
  (forall e, call s body args kw = Err e -> postcondition s body c args kw = Called (Err e)) /\
  (forall v, call s body args kw = Ok v ->
     (c v = IsTrue -> postcondition s body c args kw = Called (Ok v)) /\
     (c v = IsFalse -> postcondition s body c args kw = PreconditionFailed) /\
     (forall e, c v = Raises e -> postcondition s body c args kw = OtherError e)).
Proof. exact postcondition_rule. Qed.
Print Assumptions C71_postcondition_partial.

(* ---- examples and refutations ---- *)
Local Open Scope string_scope.
Local Open Scope Z_scope.

Module Cases.
  Definition p n k d := Param n k d.
  (* def f(x, y) *)
  Definition two := [p "x" PosOrKw None; p "y" PosOrKw None].
  (* def g(x, key=str) *)
  Definition def_str := [p "x" PosOrKw None; p "key" PosOrKw (Some (Atom 101))].
  (* def h(x, key='5') *)
  Definition def_5 := [p "x" PosOrKw None; p "key" PosOrKw (Some (Str "5"))].
  (* the callables int and str *)
  Definition int_ : val := Atom 100.
  Definition str_ : val := Atom 101.
  Definition callable (v : val) : option (val -> res val) :=
    match v with
    | Atom 100 => Some (fun x => match x with Str "5" => Ok (Atom 5) | Atom n => Ok (Atom n) | _ => Err ValueError end)
    | Atom 101 => Some (fun x => match x with Atom 5 => Ok (Str "5") | Atom 101 => Ok (Str "<class 'str'>") | _ => Ok x end)
    | _ => None
    end.
  Definition body (b : vars) : res val := Ok (Tup (map snd b)).
  (* @for_argument(int, str) def f(x, y): f('5', 5) *)
  Definition ops := [int_; str_].
  Definition args := [Str "5"; Atom 5].
End Cases.

(* both paths of C71_for_argument_partial *)
Example C71_example_fast :
  writable Cases.two /\ attachable Cases.two Cases.ops [] /\
  passed_alike Cases.two Cases.ops ([] : vars) Cases.args /\
  ~ some_default Cases.two /\
  py_bind Cases.two Cases.args [] = Ok [("x", Str "5"); ("y", Atom 5)] /\
  all_processed Cases.callable Cases.two Cases.ops [] [("x", Str "5"); ("y", Atom 5)]
     [("x", Atom 5); ("y", Str "5")] /\
  for_argument Cases.two Cases.body Cases.callable Cases.ops [] Cases.args [] =
    Ok (Tup [Atom 5; Str "5"]).
Proof.
  split; [apply writableb_ok; reflexivity|].
  split; [split; [vm_compute; lia|intros n []]|].
  split; [split; [vm_compute; lia|intros i p _ []]|].
  split; [apply has_defaults_none; reflexivity|]. split; [reflexivity|]. split; [|reflexivity].
  split; [reflexivity|]. intros [|[|i]] p v P G; simpl in P.
  - injection P as <-. simpl in G. injection G as <-. exists (Atom 5). split; auto. simpl. eauto.
  - injection P as <-. simpl in G. injection G as <-. exists (Str "5"). split; auto. simpl. eauto.
  - destruct i; discriminate.
Qed.

(* @for_argument(int, key=int) def h(x, key='5'): h('5') *)
Example C71_example_slow :
  writable Cases.def_5 /\ attachable Cases.def_5 [Cases.int_] [("key", Cases.int_)] /\
  some_default Cases.def_5 /\
  (forall p d, In p Cases.def_5 -> p_default p = Some d -> Cases.callable d = None) /\
  (forall n, In n reserved -> ~ In n ["key"]) /\
  ~ named_before_star Cases.def_5 [Str "5"] /\
  all_processed Cases.callable Cases.def_5 [Cases.int_] [("key", Cases.int_)]
     [("x", Str "5"); ("key", Str "5")] [("x", Atom 5); ("key", Atom 5)] /\
  for_argument Cases.def_5 Cases.body Cases.callable [Cases.int_] [("key", Cases.int_)] [Str "5"] [] =
    Ok (Tup [Atom 5; Atom 5]).
Proof.
  split; [apply writableb_ok; reflexivity|].
  split.
  { split; [vm_compute; lia|]. intros n [<-|[]]. exists 1%nat, (Cases.p "key" PosOrKw (Some (Str "5"))).
    repeat split. left; reflexivity. }
  split; [apply has_defaults_some; reflexivity|].
  split. { intros p d [<-|[<-|[]]]; simpl; intros E; try discriminate. injection E as <-. reflexivity. }
  split. { intros n [<-|[<-|[]]] [H|[]]; discriminate. }
  split. { intros [[p [I K]] _]. destruct I as [<-|[<-|[]]]; discriminate. }
  split; [|reflexivity].
  split; [reflexivity|]. intros [|[|i]] p v P G; simpl in P.
  - injection P as <-. simpl in G. injection G as <-. exists (Atom 5). split; auto. simpl. eauto.
  - injection P as <-. simpl in G. injection G as <-. exists (Atom 5). split; auto. simpl. eauto.
  - destruct i; discriminate.
Qed.

(* An operation attached by position whose argument is passed by name: the call
   fails, @for_argument(int, str) def f(x, y): f('5', y=5). *)
Theorem C71_passed_by_name_refuted :
  py_bind Cases.two [Str "5"] [("y", Atom 5)] = Ok [("x", Str "5"); ("y", Atom 5)] /\
  for_argument Cases.two Cases.body Cases.callable Cases.ops [] [Str "5"] [("y", Atom 5)] = Err AssertionError.
Proof. split; reflexivity. Qed.
Print Assumptions C71_passed_by_name_refuted.

(* An operation attached by name whose argument is passed by position is not
   applied, @for_argument(x=int) def f(x, y): f('5', 5). *)
Theorem C71_passed_by_position_refuted :
  for_argument Cases.two Cases.body Cases.callable [] [("x", Cases.int_)] [Str "5"; Atom 5] [] =
    Ok (Tup [Str "5"; Atom 5]).
Proof. reflexivity. Qed.
Print Assumptions C71_passed_by_position_refuted.

(* A default that is callable is taken for an operation: with
   @for_argument(int) def g(x, key=str), the call g('5') runs with key =
   str(str), and g('5', 5) with key = '5'. *)
Theorem C71_callable_default_refuted :
  for_argument Cases.def_str Cases.body Cases.callable [Cases.int_] [] [Str "5"] [] =
    Ok (Tup [Atom 5; Str "<class 'str'>"]) /\
  for_argument Cases.def_str Cases.body Cases.callable [Cases.int_] [] [Str "5"; Atom 5] [] =
    Ok (Tup [Atom 5; Str "5"]).
Proof. split; reflexivity. Qed.
Print Assumptions C71_callable_default_refuted.

Theorem C71_full_statement_refuted : ~ C71_full_statement.
Proof.
  intros H.
  assert (X := H Cases.callable Cases.two Cases.body Cases.ops [] [Str "5"] [("y", Atom 5)]
    [("x", Str "5"); ("y", Atom 5)] [("x", Atom 5); ("y", Str "5")]).
  destruct C71_example_fast as [W [A [_ [_ [_ [P _]]]]]].
  assert (Y := X W). clear X. specialize (Y ltac:(repeat constructor; intros [])).
  specialize (Y A eq_refl P). discriminate Y.
Qed.
Print Assumptions C71_full_statement_refuted.

(* With a keyword argument the expressions see the NAME of the argument instead
   of its value: @transform_arguments(x='x') def f(x, y): f(1, y=2) runs with
   y = 'y', and @transform_result('y') returns 'y'. *)
Theorem C71_transform_keywords_refuted :
  transform_arguments Cases.two Cases.body [("x", fun l => match get l "x" with Some v => Ok v | None => Err NameErrorExn end)]
    [Atom 1] [("y", Atom 2)] = Ok (Tup [Atom 1; Str "y"]) /\
  transform_result Cases.two Cases.body (fun l => match get l "y" with Some v => Ok v | None => Err NameErrorExn end)
    [Atom 1] [("y", Atom 2)] = Ok (Str "y").
Proof. split; reflexivity. Qed.
Print Assumptions C71_transform_keywords_refuted.

(* Without: @transform_arguments(x='y', y='x'), swapping, f(1, 2). *)
Example C71_example_transform :
  let var n := fun l : vars => match get l n with Some v => Ok v | None => Err NameErrorExn end in
  ~ named_before_star Cases.two [Atom 1; Atom 2] /\
  transform_arguments Cases.two Cases.body [("x", var "y"); ("y", var "x")] [Atom 1; Atom 2] [] =
    Ok (Tup [Atom 2; Atom 1]) /\
  transform_result Cases.two Cases.body (var "y") [Atom 1; Atom 2] [] = Ok (Atom 2).
Proof.
  split; [|split; reflexivity]. intros [[p [I K]] _]. destruct I as [<-|[<-|[]]]; discriminate.
Qed.

(* replace_argument_if(predicate=...) replaces the argument even where the
   predicate is false. *)
Theorem C71_predicate_ignored_refuted :
  replace_argument_if Cases.two Cases.body "x" (fun _ => Ok (Atom 0)) (fun _ => false)
    (Some (fun _ => false)) [Atom 1; Atom 2] [] = Ok (Tup [Atom 0; Atom 2]).
Proof. reflexivity. Qed.
Print Assumptions C71_predicate_ignored_refuted.

Example C71_example_replace :
  replace_argument_if Cases.two Cases.body "x" (fun _ => Ok (Atom 0)) (fun v => match v with Atom 1 => true | _ => false end)
    None [Atom 1; Atom 2] [] = Ok (Tup [Atom 0; Atom 2]) /\
  replace_argument_if Cases.two Cases.body "x" (fun _ => Ok (Atom 0)) (fun v => match v with Atom 1 => true | _ => false end)
    None [Atom 3; Atom 2] [] = Ok (Tup [Atom 3; Atom 2]) /\
  attach_arguments Cases.two Cases.body [] [("y", Atom 9)] [Atom 3] [("y", Atom 2)] = Ok (Tup [Atom 3; Atom 9]).
Proof. repeat split. Qed.

(* conditions on numbers *)
Module Conds.
  Definition positive : cond := fun v => match v with Atom n => if 0 <? n then IsTrue else IsFalse | _ => IsFalse end.
  Definition zero_is_falsy : cond := fun v => match v with Atom 0 => Falsy | Atom _ => Truthy | _ => Raises TypeError end.
End Conds.

Example C71_example_precondition :
  attachable Cases.two [Conds.positive] [("y", Conds.positive)] /\
  passed_alike Cases.two [Conds.positive] [("y", Conds.positive)] [Atom 1] /\
  strict Conds.positive /\ total Conds.positive /\
  precondition Cases.two Cases.body [Conds.positive] [("y", Conds.positive)] [Atom 1] [("y", Atom 2)] =
    Called (Ok (Tup [Atom 1; Atom 2])) /\
  precondition Cases.two Cases.body [Conds.positive] [("y", Conds.positive)] [Atom 1] [("y", Atom 0)] =
    PreconditionFailed.
Proof.
  split.
  { split; [vm_compute; lia|]. intros n [<-|[]]. exists 1%nat, (Cases.p "y" PosOrKw None).
    repeat split. left; reflexivity. }
  split.
  { split; [vm_compute; lia|]. intros [|[|i]] p P I; simpl in P.
    - injection P as <-. destruct I as [I|[]]. discriminate.
    - left. reflexivity.
    - destruct i; discriminate. }
  split. { intros v. unfold holds, Conds.positive. destruct v; auto. destruct (0 <? n); auto. }
  split. { intros v e. unfold Conds.positive. destruct v; try discriminate. destruct (0 <? n); discriminate. }
  split; reflexivity.
Qed.

(* The full statement about preconditions: PreconditionError whenever a condition
   is not met. *)
Definition C71_precondition_full_statement : Prop :=
  forall s body conds kwconds args kw b,
    writable s -> dwf kw -> attachable s conds kwconds -> py_bind s args kw = Ok b ->
    ~ all_hold s conds kwconds b -> precondition s body conds kwconds args kw = PreconditionFailed.

(* A positional condition that returns 0, None or another false value lets the
   call through. *)
Theorem C71_falsy_condition_refuted :
  precondition Cases.two Cases.body [Conds.zero_is_falsy] [] [Atom 0; Atom 0] [] =
    Called (Ok (Tup [Atom 0; Atom 0])) /\
  postcondition Cases.two (fun _ => Ok (Atom 0)) Conds.zero_is_falsy [Atom 0; Atom 0] [] = Called (Ok (Atom 0)).
Proof. split; reflexivity. Qed.
Print Assumptions C71_falsy_condition_refuted.

(* A condition attached by name is not checked if the argument is passed by
   position. *)
Theorem C71_condition_bypassed_refuted :
  precondition Cases.two Cases.body [] [("y", Conds.positive)] [Atom 1; Atom 0] [] =
    Called (Ok (Tup [Atom 1; Atom 0])).
Proof. reflexivity. Qed.
Print Assumptions C71_condition_bypassed_refuted.

(* A TypeError of a condition attached by name is not turned into
   PreconditionError, that of a positional one is. *)
Theorem C71_condition_type_error_refuted :
  precondition Cases.two Cases.body [] [("y", Conds.zero_is_falsy)] [Atom 1] [("y", Str "a")] =
    OtherError TypeError /\
  precondition Cases.two Cases.body [Conds.zero_is_falsy] [] [Str "a"; Atom 1] [] = PreconditionFailed.
Proof. split; reflexivity. Qed.
Print Assumptions C71_condition_type_error_refuted.

Theorem C71_precondition_full_statement_refuted : ~ C71_precondition_full_statement.
Proof.
  intros H.
  assert (X := H Cases.two Cases.body [] [("y", Conds.positive)] [Atom 1; Atom 0] []
    [("x", Atom 1); ("y", Atom 0)] ltac:(apply writableb_ok; reflexivity) ltac:(constructor)).
  enough (precondition Cases.two Cases.body [] [("y", Conds.positive)] [Atom 1; Atom 0] [] = PreconditionFailed)
    by (rewrite C71_condition_bypassed_refuted in *; discriminate).
  apply X.
  - split; [vm_compute; lia|]. intros n [<-|[]]. exists 1%nat, (Cases.p "y" PosOrKw None).
    repeat split. left; reflexivity.
  - reflexivity.
  - intros A. destruct (A 1%nat (Cases.p "y" PosOrKw None) (Atom 0) Conds.positive); try reflexivity; discriminate.
Qed.
Print Assumptions C71_precondition_full_statement_refuted.
