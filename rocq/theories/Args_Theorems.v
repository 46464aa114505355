(* C69: get_arguments tells what a call would bind, call_with_arguments makes a
   call from such a dictionary. *)
From Coq Require Import List Bool Arith ZArith String.
From Verif Require Import Prelude Args_Model Args_Spec Args_Proofs.
Import ListNotations.
Local Open Scope nat_scope.
Local Open Scope list_scope.

(* The property in full. *)
Definition C69_full_statement : Prop :=
  (forall s args kw, writable s -> dwf kw ->
     (python_accepts s args kw ->
        exists b, get_arguments s args kw = Ok b /\ python_binding s args kw b) /\
     (~ python_accepts s args kw -> get_arguments s args kw = Err TypeError)) /\
  (forall s d, writable s -> dwf d -> sensible s d ->
     (forall p, In p s -> promised d p <> None) ->
     (forall n, In n (dkeys d) -> In n (map p_name s)) ->
     exists args kw, call_with_arguments s d = Ok (args, kw) /\ python_accepts s args kw /\
       forall i p, nth_error s i = Some p -> value_of s args kw i p = promised d p).

(* The binder used below and by overloading.py follows Python's rule. *)
Theorem C69_call_rule : forall s args kw, writable s ->
  (forall r, py_bind s args kw = Ok r ->
     python_accepts s args kw /\ python_binding s args kw r /\ dkeys r = map p_name s) /\
  (forall e, py_bind s args kw = Err e -> e = TypeError /\ ~ python_accepts s args kw).
Proof. exact call_rule. Qed.
Print Assumptions C69_call_rule.

(* Missing: signatures with *args some of whose positional parameters are passed
   by name, and the two keyword names get_arguments keeps for itself. *)
Theorem C69_get_arguments_partial : forall s args kw, writable s -> dwf kw ->
  (forall n, In n reserved -> ~ In n (dkeys kw)) ->
  python_accepts s args kw -> ~ named_before_star s args ->
  exists b, get_arguments s args kw = Ok b /\ python_binding s args kw b.
Proof. exact get_arguments_binding. Qed.
Print Assumptions C69_get_arguments_partial.

Theorem C69_missing_is_a_TypeError : forall s args kw, writable s -> dwf kw ->
  lacking s args kw -> get_arguments s args kw = Err TypeError.
Proof. exact get_arguments_missing. Qed.
Print Assumptions C69_missing_is_a_TypeError.

Theorem C69_only_TypeError : forall s args kw e,
  get_arguments s args kw = Err e -> e = TypeError.
Proof. exact get_arguments_only. Qed.
Print Assumptions C69_only_TypeError.

(* What happens when too much is given: it is not noticed, and the parameters
   still get their values. *)
Theorem C69_surplus_ignored_partial : forall s args kw, writable s -> dwf kw ->
  (forall n, In n reserved -> ~ In n (dkeys kw)) ->
  ~ lacking s args kw -> ~ named_before_star s args ->
  exists b, get_arguments s args kw = Ok b /\
    (forall i p, nth_error s i = Some p -> p_kind p <> VarKw ->
       get b (p_name p) = value_of s args kw i p) /\
    (forall n, In n (dkeys b) <-> In n (map p_name s)).
Proof. exact get_arguments_lenient. Qed.
Print Assumptions C69_surplus_ignored_partial.

Theorem C69_call_with_missing : forall s d p, writable s -> In p s -> promised d p = None ->
  call_with_arguments s d = Err TypeError.
Proof. exact call_with_missing. Qed.
Print Assumptions C69_call_with_missing.

Theorem C69_call_with_extra : forall s d n, writable s -> dwf d -> sensible s d ->
  (forall p, In p s -> promised d p <> None) -> In n (dkeys d) -> ~ In n (map p_name s) ->
  call_with_arguments s d = Err ValueError.
Proof. exact call_with_extra. Qed.
Print Assumptions C69_call_with_extra.

(* Missing: dictionaries that leave out a positional parameter but contain a
   later one. *)
Theorem C69_call_with_partial : forall s d, writable s -> dwf d -> sensible s d ->
  (forall p, In p s -> promised d p <> None) ->
  (forall n, In n (dkeys d) -> In n (map p_name s)) -> ~ gap s d ->
  exists args kw, call_with_arguments s d = Ok (args, kw) /\ python_accepts s args kw /\
    forall i p, nth_error s i = Some p -> value_of s args kw i p = promised d p.
Proof. exact call_with_values. Qed.
Print Assumptions C69_call_with_partial.

(* A call taken apart by get_arguments and made by call_with_arguments binds
   every parameter as the original call does. *)
Theorem C69_round_trip : forall s args kw b, writable s -> dwf kw ->
  python_accepts s args kw -> get_arguments s args kw = Ok b ->
  exists args' kw', call_with_arguments s b = Ok (args', kw') /\
    py_bind s args' kw' = py_bind s args kw.
Proof. exact round_trip. Qed.
Print Assumptions C69_round_trip.

(* ---- refutations ---- *)
Local Open Scope string_scope.
Notation req n k := (Param n k None).
Notation opt n k v := (Param n k (Some (Atom v))).


(* def f(a, *args): f(a=1) is a legal call, but get_arguments(f, a=1) raises. *)
Theorem C69_star_refuted :
  let s := [req "a" PosOrKw; req "args" VarPos] in
  writable s /\ python_accepts s [] [("a", Atom 1)] /\
  get_arguments s [] [("a", Atom 1)] = Err TypeError.
Proof.
  split; [apply writableb_ok; reflexivity|].
  split; [eapply bound_accepts; reflexivity|reflexivity].
Qed.
Print Assumptions C69_star_refuted.

(* def f(a): f(1, 2), f(1, zz=2) and f(1, a=2) are TypeErrors, get_arguments
   answers {'a': 1} to all of them. *)
Theorem C69_surplus_refuted :
  let s := [req "a" PosOrKw] in
  writable s /\
  (~ python_accepts s [Atom 1; Atom 2] [] /\
   get_arguments s [Atom 1; Atom 2] [] = Ok [("a", Atom 1)]) /\
  (~ python_accepts s [Atom 1] [("zz", Atom 2)] /\
   get_arguments s [Atom 1] [("zz", Atom 2)] = Ok [("a", Atom 1)]) /\
  (~ python_accepts s [Atom 1] [("a", Atom 2)] /\
   get_arguments s [Atom 1] [("a", Atom 2)] = Ok [("a", Atom 1)]).
Proof.
  split; [apply writableb_ok; reflexivity|].
  split; [|split]; (split; [|reflexivity]); apply unbound_rejects; reflexivity.
Qed.
Print Assumptions C69_surplus_refuted.

(* def f( **kw): get_arguments(f, function=1) is a TypeError. *)
Theorem C69_reserved_refuted :
  let s := [req "kw" VarKw] in
  writable s /\ python_accepts s [] [("function", Atom 1)] /\
  get_arguments s [] [("function", Atom 1)] = Err TypeError.
Proof.
  split; [apply writableb_ok; reflexivity|].
  split; [eapply bound_accepts; reflexivity|reflexivity].
Qed.
Print Assumptions C69_reserved_refuted.

(* def f(a=1, b=2): call_with_arguments(f, {'b': 5}) calls f(5), so that a is 5
   and b is 2. *)
Theorem C69_call_with_gap_refuted :
  let s := [opt "a" PosOrKw 1; opt "b" PosOrKw 2] in
  writable s /\ call_with_arguments s [("b", Atom 5)] = Ok ([Atom 5], []) /\
  py_bind s [Atom 5] [] = Ok [("a", Atom 5); ("b", Atom 2)].
Proof. split; [apply writableb_ok; reflexivity|]. split; reflexivity. Qed.
Print Assumptions C69_call_with_gap_refuted.

Theorem C69_full_statement_refuted : ~ C69_full_statement.
Proof.
  intros [H _].
  destruct (H [req "a" PosOrKw] [Atom 1; Atom 2] [] (writableb_ok [req "a" PosOrKw] eq_refl) (NoDup_nil _)) as [_ R].
  specialize (R (unbound_rejects [req "a" PosOrKw] [Atom 1; Atom 2] [] eq_refl eq_refl)).
  vm_compute in R. discriminate.
Qed.
Print Assumptions C69_full_statement_refuted.

(* ---- a concrete case ----
   def f(a, b, /, c, d=4, *rest, k, m=7, **more);
   f(1, 2, 3, 8, 9, k=5, zz=6) *)
Definition f_all : sig :=
  [req "a" PosOnly; req "b" PosOnly; req "c" PosOrKw; opt "d" PosOrKw 4; req "rest" VarPos;
   req "k" KwOnly; opt "m" KwOnly 7; req "more" VarKw].
Definition f_args : list val := [Atom 1; Atom 2; Atom 3; Atom 8; Atom 9].
Definition f_kw : vars := [("k", Atom 5); ("zz", Atom 6)].

Example C69_hypotheses_met : writable f_all /\ dwf f_kw /\ python_accepts f_all f_args f_kw /\
  ~ named_before_star f_all f_args /\ (forall n, In n reserved -> ~ In n (dkeys f_kw)).
Proof.
  split; [apply writableb_ok; reflexivity|]. split; [exact (nodupb_ok ["k"; "zz"] eq_refl)|].
  split; [eapply bound_accepts; reflexivity|]. split.
  - intros [_ [i [p [A [K [L D]]]]]]. simpl in L.
    do 5 (destruct i as [|i]; [exfalso; repeat (apply le_S_n in L); inversion L|]).
    do 3 (destruct i as [|i]; [simpl in A; injection A as <-; simpl in K; destruct K; discriminate|]).
    destruct i; discriminate.
  - intros n [<-|[<-|[]]] [C|[C|[]]]; discriminate.
Qed.

Example C69_example :
  get_arguments f_all f_args f_kw = Ok
    [("a", Atom 1); ("b", Atom 2); ("c", Atom 3); ("d", Atom 8); ("rest", Tup [Atom 9]);
     ("k", Atom 5); ("m", Atom 7); ("more", Dct [("zz", Atom 6)])] /\
  call_with_arguments f_all
    [("a", Atom 1); ("b", Atom 2); ("c", Atom 3); ("d", Atom 8); ("rest", Tup [Atom 9]);
     ("k", Atom 5); ("m", Atom 7); ("more", Dct [("zz", Atom 6)])]
  = Ok (f_args, [("k", Atom 5); ("m", Atom 7); ("zz", Atom 6)]) /\
  call_with_arguments f_all [("a", Atom 1)] = Err TypeError /\
  call_with_arguments [req "a" PosOrKw] [("a", Atom 1); ("q", Atom 1)] = Err ValueError /\
  get_arguments f_all [Atom 1; Atom 2; Atom 3] [] = Err TypeError.
Proof. repeat split; reflexivity. Qed.
