(** C79: theorems. *)
From Verif Require Import Prelude Typed_Model Typed_Spec Typed_Proofs.

(** A call gives exactly the tuple of the values given for the fields, each converted if it is not of the type of its field; TypeError if there is no
    such tuple, although what was given could be converted. *)
Definition C79_full_statement : Prop := forall (N T V : Type) (neqb : N -> N -> bool) (isinst : V -> T -> res bool) (conv : T -> V -> res V), eqb_ok neqb ->
  forall fields args kwargs, dwf kwargs -> NoDup (map fst fields) ->
  (forall r, (exists c, new neqb isinst conv fields args kwargs = Ok (c, r)) <-> built isinst conv fields args kwargs r /\ length args <= length fields) /\
  (convertible isinst conv fields args kwargs -> (forall r, ~ (built isinst conv fields args kwargs r /\ length args <= length fields)) ->
    new neqb isinst conv fields args kwargs = Err TypeError).
(** If there are not more positional arguments than fields. *)
Theorem C79_built_partial : forall (N T V : Type) (neqb : N -> N -> bool) (isinst : V -> T -> res bool) (conv : T -> V -> res V), eqb_ok neqb ->
  forall fields args kwargs r, dwf kwargs -> NoDup (map fst fields) -> length args <= length fields ->
  ((exists c, new neqb isinst conv fields args kwargs = Ok (c, r)) <-> built isinst conv fields args kwargs r).
Proof. exact new_ok. Qed.
Print Assumptions C79_built_partial.
Theorem C79_refuses_partial : forall (N T V : Type) (neqb : N -> N -> bool) (isinst : V -> T -> res bool) (conv : T -> V -> res V), eqb_ok neqb ->
  forall fields args kwargs, dwf kwargs -> NoDup (map fst fields) -> length args <= length fields ->
  convertible isinst conv fields args kwargs -> (forall r, ~ built isinst conv fields args kwargs r) ->
  new neqb isinst conv fields args kwargs = Err TypeError.
Proof. exact new_refuses. Qed.
Print Assumptions C79_refuses_partial.
(** More are ignored. *)
Theorem C79_too_many_refuted : forall (N T V : Type) (neqb : N -> N -> bool) (isinst : V -> T -> res bool) (conv : T -> V -> res V) fields args extra,
  length args = length fields -> new neqb isinst conv fields (args ++ extra) [] = new neqb isinst conv fields args [].
Proof. exact too_many. Qed.
Print Assumptions C79_too_many_refuted.
Theorem C79_full_statement_refuted : ~ C79_full_statement.
Proof.
  intros H. destruct (H nat nat nat Nat.eqb (fun _ _ => Ok true) (fun _ v => Ok v) Nat.eqb_eq [(0, None)] [1; 2] []) as [A _]; [constructor|repeat constructor; auto|].
  destruct (proj1 (A [1]) (ex_intro _ Base eq_refl)) as [_ L]. simpl in L. lia.
Qed.
Print Assumptions C79_full_statement_refuted.

(** The last fields may as well be given by name, in any order. *)
Theorem C79_by_name : forall (N T V : Type) (neqb : N -> N -> bool) (isinst : V -> T -> res bool) (conv : T -> V -> res V), eqb_ok neqb ->
  forall fields args k kw, NoDup (map fst fields) -> length args = length fields -> dwf kw ->
  (forall n g, In (n, g) kw <-> exists i t, k <= i /\ nth_error fields i = Some (n, t) /\ nth_error args i = Some g) ->
  forall c r, new neqb isinst conv fields args [] = Ok (c, r) <-> new neqb isinst conv fields (firstn k args) kw = Ok (c, r).
Proof. exact by_name. Qed.
Print Assumptions C79_by_name.
Example C79_met : let f := [(0, Some 0); (1, None); (2, Some 0)] in let isinst := fun v (_ : nat) => Ok (Nat.leb 10 v) in let conv := fun _ v => if Nat.eqb v 9 then Err ValueError else Ok (v + 10) in
  new Nat.eqb isinst conv f [3] [(2, 12); (1, 4)] = Ok (Base, [13; 4; 12]) /\ new Nat.eqb isinst conv f [3; 4; 12] [] = Ok (Base, [13; 4; 12]) /\
  new Nat.eqb isinst conv f [3] [(2, 12); (0, 4)] = Err TypeError /\ new Nat.eqb isinst conv f [9; 4; 12] [] = Err ValueError.
Proof. repeat split. Qed.

(** An instance of the class that was called: never, it is an instance of the namedtuple below it. *)
Theorem C79_instance_refuted : forall (N T V : Type) (neqb : N -> N -> bool) (isinst : V -> T -> res bool) (conv : T -> V -> res V) fields args kwargs c r,
  new neqb isinst conv fields args kwargs = Ok (c, r) -> c <> Returned.
Proof. intros N T V neqb isinst conv fields args kwargs c r E. rewrite (new_base _ _ _ _ _ _ _ _ _ _ _ E). discriminate. Qed.
Print Assumptions C79_instance_refuted.
(** A constructor that is not a class, documented to be allowed, is a TypeError of isinstance. *)
Theorem C79_callable_refuted : forall (N T V : Type) (neqb : N -> N -> bool) (isinst : V -> T -> res bool) conv n t v,
  isinst v t = Err TypeError -> new neqb isinst conv [(n, Some t)] [v] [] = Err TypeError.
Proof. intros N T V neqb isinst conv n t v E. unfold new. simpl. rewrite E. reflexivity. Qed.
Print Assumptions C79_callable_refuted.
(** A KeyError of the conversion of a field given by name is reported as a field that was not given. *)
Theorem C79_key_error_refuted : forall isinst conv (t v : nat), isinst v t = Ok false -> conv t v = Err KeyError ->
  new Nat.eqb isinst conv [(0, Some t)] [v] [] = Err KeyError /\ new Nat.eqb isinst conv [(0, Some t)] [] [(0, v)] = Err TypeError.
Proof. intros isinst conv t v I C. unfold new. simpl. rewrite I. simpl. rewrite C. auto. Qed.
Print Assumptions C79_key_error_refuted.
