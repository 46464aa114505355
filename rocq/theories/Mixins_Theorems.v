(** C92: classes outfitted with a comparison mix-in have comparisons and hashes that agree with each other. *)
From Coq Require Import List Bool Arith ZArith Lia.
From Verif Require Import Prelude Mixins_Model Mixins_Spec Mixins_Proofs.
Import ListNotations.
Open Scope nat_scope.

(** ComparableAndHashableBy: if the values of the fields compare lawfully, so do the objects (of whatever classes with the mix-in). *)
Theorem C92_by : forall (F : Type) (vcmp : cmpop -> F -> F -> res bool) (vhash : F -> res Z) (Q : F -> Prop),
  lawful_equality Q (vcmp OpEq) vhash -> lawful_order Q vcmp ->
  lawful_equality (fun o => exists n v, comparable_by o = Some n /\ attr o n = Some v /\ Q v) (by_cmp vcmp OpEq) (by_hash vhash) /\
  lawful_order (fun o => exists n v, comparable_by o = Some n /\ attr o n = Some v /\ Q v) (by_cmp vcmp).
Proof. exact @by_lawful. Qed.
Print Assumptions C92_by.

(** The objects compare as their fields do, and have their hashes. *)
Theorem C92_by_fields : forall (F : Type) (vcmp : cmpop -> F -> F -> res bool) (vhash : F -> res Z) op a b n v m u,
  comparable_by a = Some n -> attr a n = Some v -> comparable_by b = Some m -> attr b m = Some u -> by_cmp vcmp op a b = vcmp op v u /\ by_hash vhash a = vhash v.
Proof. intros F vcmp vhash op a b n v m u A B C D. unfold by_cmp, by_hash, field. rewrite A, B, C, D. split; reflexivity. Qed.
Print Assumptions C92_by_fields.

(** Numbers as fields meet the hypotheses. *)
Example C92_by_numbers : lawful_equality (fun _ => True) (fun a b => Ok (zcmp OpEq a b)) (fun a : Z => Ok (a * 3)%Z) /\ lawful_order (fun _ => True) (fun op (a b : Z) => Ok (zcmp op a b)).
Proof. split; [apply z_equality|apply z_order]. Qed.
Definition vector (length_ : Z) : byobj Z := {| comparable_by := Some 3; attr := fun n => if Nat.eqb n 3 then Some length_ else None |}.
Example C92_by_example : by_cmp (fun op (a b : Z) => Ok (zcmp op a b)) OpLt (vector 2) (vector 3) = Ok true /\ by_cmp (fun op (a b : Z) => Ok (zcmp op a b)) OpGe (vector 2) (vector 3) = Ok false.
Proof. split; reflexivity. Qed.

(** An object with the mix-in is to be comparable for equality with any other; compared with one without it, it raises. *)
Definition C92_by_full_statement : Prop := forall (self other : byobj Z) v n, comparable_by self = Some n -> attr self n = Some v ->
  exists r, by_cmp (fun op (a b : Z) => Ok (zcmp op a b)) OpEq self other = Ok r.
Theorem C92_by_full_statement_refuted : ~ C92_by_full_statement.
Proof.
  intros H. destruct (H (vector 2) {| comparable_by := None; attr := fun _ => Some 2%Z |} 2%Z 3 eq_refl eq_refl) as [r E]. discriminate E.
Qed.
Print Assumptions C92_by_full_statement_refuted.

(** The example in the docstring: a vector is not greater than one of the same length. *)
Theorem C92_docstring_refuted : forall z, by_cmp (fun op (a b : Z) => Ok (zcmp op a b)) OpGt (vector z) (vector z) = Ok false.
Proof. intros z. cbn. rewrite Z.ltb_irrefl. reflexivity. Qed.
Print Assumptions C92_docstring_refuted.

Section Vals.
  (** Whatever int() does to strings, whatever str() does, and whatever the hashes of numbers and strings are. *)
  Variables (parse : str -> option Z) (show : val -> str) (hash_int hash_half : Z -> Z) (hash_str : str -> Z) (hash_none : Z).

  (** Objects compared by int(), members of ComparableIntEnums, and integers, in any mixture. *)
  Theorem C92_integers : lawful_equality integral (py_cmp parse show OpEq) (py_hash hash_int hash_half hash_str hash_none) /\ lawful_order integral (py_cmp parse show).
  Proof. apply integral_lawful. Qed.

  Theorem C92_integers_by_value : forall a b, integral a -> integral b ->
    (py_cmp parse show OpLt a b = Ok true <-> (int_value a < int_value b)%Z) /\ (py_cmp parse show OpEq a b = Ok true <-> int_value a = int_value b).
  Proof. apply integral_values. Qed.

  (** Members of ComparableIntEnums with integers and floats. *)
  Theorem C92_int_enums : lawful_equality numeric (py_cmp parse show OpEq) (py_hash hash_int hash_half hash_str hash_none) /\ lawful_order numeric (py_cmp parse show).
  Proof. apply numeric_lawful. Qed.

  (** Objects compared by str(), and strings. *)
  Theorem C92_strings : lawful_equality stringy_eq (py_cmp parse show OpEq) (py_hash hash_int hash_half hash_str hash_none) /\ lawful_order stringy (py_cmp parse show).
  Proof. apply stringy_lawful. Qed.

  Theorem C92_strings_by_value : forall a b, stringy a -> stringy b ->
    (py_cmp parse show OpLt a b = Ok true <-> alphabetical (str_value a) (str_value b)) /\ (py_cmp parse show OpEq a b = Ok true <-> str_value a = str_value b).
  Proof. apply stringy_values. Qed.

  (** But not with just any value: objects compared by int() are equal to floats next to them, objects compared by str() to numbers that look the same ... *)
  Theorem C92_float_refuted :
    ~ lawful_equality (fun v => match v with Int _ | Half _ | ByInt _ => True | _ => False end) (py_cmp parse show OpEq) (py_hash hash_int hash_half hash_str hash_none).
  Proof. apply float_refuted. Qed.
  Theorem C92_number_refuted :
    ~ lawful_equality (fun v => match v with Int _ | Str _ | ByStr _ => True | _ => False end) (py_cmp parse show OpEq) (py_hash hash_int hash_half hash_str hash_none).
  Proof. apply number_refuted. Qed.
  (** ... and == raises where it is to be False. *)
  Theorem C92_foreign : forall z, py_cmp parse show OpEq (ByInt z) NoneV = Err TypeError /\ py_cmp parse show OpEq NoneV (ByInt z) = Err TypeError /\
    py_cmp parse show OpEq (IntEnum z) NoneV = Err TypeError /\
    (forall s, parse s = None -> py_cmp parse show OpEq (IntEnum z) (Str s) = Err ValueError /\ py_cmp parse show OpEq (Str s) (ByInt z) = Err ValueError).
  Proof. apply foreign_raises. Qed.
End Vals.
Print Assumptions C92_integers.
Print Assumptions C92_integers_by_value.
Print Assumptions C92_strings_by_value.
Print Assumptions C92_int_enums.
Print Assumptions C92_strings.
Print Assumptions C92_float_refuted.
Print Assumptions C92_number_refuted.
Print Assumptions C92_foreign.

(** The full statement: == among all values answers, is an equivalence and agrees with hash. *)
Definition C92_full_statement : Prop := forall parse show hash_int hash_half hash_str hash_none,
  lawful_equality (fun _ => True) (py_cmp parse show OpEq) (py_hash hash_int hash_half hash_str hash_none).
Theorem C92_full_statement_refuted : ~ C92_full_statement.
Proof.
  intros H. specialize (H (fun _ => None) (fun _ => []) (fun z => z) (fun z => z) (fun _ => 0%Z) 0%Z).
  destruct (eq_answers _ _ _ H (ByInt 2) NoneV I I) as [r E]. discriminate E.
Qed.
Print Assumptions C92_full_statement_refuted.

(** ComparableEnum, when the values of the members are not enumeration members themselves: a member is equal to just what has or is its value, whatever class that is of and on whichever side. *)
Theorem C92_enum_partial : forall comparable values, plain_values values -> forall fuel a b, 2 <= fuel -> exists_in values a -> exists_in values b ->
  comparable_member comparable a \/ comparable_member comparable b ->
  exists r, ev_eq comparable values fuel a b = Ok r /\ (r = true <-> exists n, stands_for values a n /\ stands_for values b n).
Proof. exact ev_eq_plain. Qed.
Print Assumptions C92_enum_partial.
Definition two_enums (c : nat) : list ev := match c with 0 => [Atom 1; Atom 2] | 1 => [Atom 2; Atom 3] | _ => [] end.
Example C92_enum_example : plain_values two_enums /\ ev_eq (fun _ => true) two_enums 2 (Mem 0 1) (Mem 1 0) = Ok true /\ ev_eq (fun _ => true) two_enums 2 (Mem 0 0) (Mem 1 0) = Ok false /\
  ev_eq (fun _ => true) two_enums 2 (Atom 3) (Mem 1 1) = Ok true.
Proof.
  split; [|repeat split; reflexivity]. intros [|[|c]]; (split; [repeat constructor; cbn; intuition discriminate|repeat constructor; eauto]).
Qed.

(** "Comparison order doesn't matter", in full: *)
Definition C92_enum_full_statement : Prop := forall comparable values, (forall c, NoDup (values c)) -> forall a b r, exists_in values a -> exists_in values b ->
  (exists n, forall fuel, n <= fuel -> ev_eq comparable values fuel a b = Ok r) -> exists n, forall fuel, n <= fuel -> ev_eq comparable values fuel b a = Ok r.
(** it does if the value of a member is a member of another enumeration. *)
Theorem C92_enum_full_statement_refuted : ~ C92_enum_full_statement.
Proof.
  intros H. destruct enum_asymmetric as (comparable & values & a & b & _ & ND & EA & EB & F).
  destruct (H comparable values ND a b false EA EB) as [n N].
  - exists 3. intros fuel L. apply (F fuel L).
  - specialize (N (Nat.max n 3) (Nat.le_max_l _ _)). destruct (F (Nat.max n 3) (Nat.le_max_r _ _)) as [_ E]. congruence.
Qed.
Print Assumptions C92_enum_full_statement_refuted.

(** DictionaryEQAble: "both the same exact type" and "the exact same __dict__". *)
Definition C92_dict_full_statement : Prop := forall a b : dobj nat, dwf (ddict a) -> dwf (ddict b) ->
  (dict_eq (fun x y => negb (Nat.eqb x y)) (fun _ _ => None) a b = true <-> dcls a = dcls b /\ same_dict Logic.eq (ddict a) (ddict b)).
(** An object is equal to one with more attributes, which is not equal to it. *)
Theorem C92_dict_full_statement_refuted : ~ C92_dict_full_statement.
Proof.
  intros H. destruct dict_asymmetric as (a & b & WA & WB & E & N).
  pose proof (proj1 (H a b WA WB) E) as [C [S1 S2]]. assert (X : dict_eq (fun x y => negb (Nat.eqb x y)) (fun _ _ => None) b a = true).
  { apply H; auto. split; [auto|]. split; intros k v I; [destruct (S2 k v I) as (u & IU & ->)|destruct (S1 k v I) as (u & IU & ->)]; eauto. }
  congruence.
Qed.
Print Assumptions C92_dict_full_statement_refuted.
Theorem C92_dict_partial : forall (V : Type) (vne : V -> V -> bool) (class_attr : nat -> nat -> option V) (a b : dobj V), dwf (ddict a) -> dwf (ddict b) ->
  length (ddict b) <= length (ddict a) -> (forall c k, In k (dkeys (ddict a)) -> class_attr c k = None) ->
  (dict_eq vne class_attr a b = true <-> dcls a = dcls b /\ same_dict (fun u v => vne u v = false) (ddict a) (ddict b)).
Proof. exact dict_eq_partial. Qed.
Print Assumptions C92_dict_partial.
Theorem C92_dict_ne : forall (V : Type) (vne : V -> V -> bool) (class_attr : nat -> nat -> option V) (a b : dobj V), dict_ne vne class_attr a b = negb (dict_eq vne class_attr a b).
Proof. exact ne_is_not_eq. Qed.
Print Assumptions C92_dict_ne.
Example C92_dict_example : dict_eq (fun x y => negb (Nat.eqb x y)) (fun _ _ => None) {| dcls := 1; ddict := [(1, 5); (2, 6)] |} {| dcls := 1; ddict := [(2, 6); (1, 5)] |} = true.
Proof. reflexivity. Qed.
