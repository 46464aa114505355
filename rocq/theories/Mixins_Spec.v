(** What comparisons and hashes should satisfy, for the objects described by P. *)
From Coq Require Import List Bool Arith ZArith.
From Verif Require Import Prelude Mixins_Model.
Import ListNotations.

Section S.
  Context {T : Type}.

  (** Equality answers, is reflexive, symmetric and transitive, and equal objects have the same hash. *)
  Record lawful_equality (P : T -> Prop) (eq : T -> T -> res bool) (hash : T -> res Z) : Prop := {
    eq_answers : forall a b, P a -> P b -> exists r, eq a b = Ok r;
    eq_refl_ : forall a, P a -> eq a a = Ok true;
    eq_sym_ : forall a b, P a -> P b -> eq a b = Ok true -> eq b a = Ok true;
    eq_trans_ : forall a b c, P a -> P b -> P c -> eq a b = Ok true -> eq b c = Ok true -> eq a c = Ok true;
    eq_hash : forall a b, P a -> P b -> eq a b = Ok true -> exists h, hash a = Ok h /\ hash b = Ok h }.

  (** The comparisons answer, < is transitive, just one of a < b, a == b and b < a holds, and <=, > and >= agree with them. *)
  Record lawful_order (P : T -> Prop) (cmp : cmpop -> T -> T -> res bool) : Prop := {
    ord_answers : forall op a b, P a -> P b -> exists r, cmp op a b = Ok r;
    lt_trans_ : forall a b c, P a -> P b -> P c -> cmp OpLt a b = Ok true -> cmp OpLt b c = Ok true -> cmp OpLt a c = Ok true;
    one_of_three : forall a b, P a -> P b ->
      (cmp OpLt a b = Ok true /\ cmp OpEq a b = Ok false /\ cmp OpLt b a = Ok false) \/
      (cmp OpLt a b = Ok false /\ cmp OpEq a b = Ok true /\ cmp OpLt b a = Ok false) \/
      (cmp OpLt a b = Ok false /\ cmp OpEq a b = Ok false /\ cmp OpLt b a = Ok true);
    le_lt_eq : forall a b, P a -> P b -> (cmp OpLe a b = Ok true <-> cmp OpLt a b = Ok true \/ cmp OpEq a b = Ok true);
    gt_lt_ : forall a b, P a -> P b -> cmp OpGt a b = cmp OpLt b a;
    ge_le_ : forall a b, P a -> P b -> cmp OpGe a b = cmp OpLe b a }.
End S.

Definition integral (v : val) : Prop := match v with Int _ | ByInt _ | IntEnum _ => True | _ => False end.
Definition numeric (v : val) : Prop := match v with Int _ | Half _ | IntEnum _ => True | _ => False end.
Definition stringy (v : val) : Prop := match v with Str _ | ByStr _ => True | _ => False end.
Definition stringy_eq (v : val) : Prop := match v with Str _ | ByStr _ | StrEq _ => True | _ => False end.

(** What an object is compared by. *)
Definition int_value (v : val) : Z := match v with Int z | ByInt z | IntEnum z => z | _ => 0%Z end.
Definition str_value (v : val) : str := match v with Str s | ByStr s | StrEq s => s | _ => [] end.
(** Alphabetical order: after a common beginning, the first string ends or has a smaller character. *)
Definition alphabetical (a b : str) : Prop := exists p a' b', a = p ++ a' /\ b = p ++ b' /\
  match a', b' with [], _ :: _ => True | x :: _, y :: _ => x < y | _, [] => False end.

(** Enumerations whose values are atoms, no value twice. *)
Definition plain_values (values : nat -> list ev) : Prop := forall c, NoDup (values c) /\ Forall (fun v => exists n, v = Atom n) (values c).
(** Members that exist, and atoms. *)
Definition exists_in (values : nat -> list ev) (a : ev) : Prop := match a with Atom _ => True | Mem c i => i < length (values c) end.
(** The atom something stands for: itself, or the value of the member. *)
Definition stands_for (values : nat -> list ev) (a : ev) (n : nat) : Prop :=
  match a with Atom m => m = n | Mem c i => nth_error (values c) i = Some (Atom n) end.
Definition comparable_member (comparable : nat -> bool) (a : ev) : Prop := match a with Atom _ => False | Mem c _ => comparable c = true end.

(** "Both the same exact type" and "the exact same __dict__". *)
Definition same_dict {V} (veq : V -> V -> Prop) (a b : list (nat * V)) : Prop :=
  (forall k v, In (k, v) a -> exists u, In (k, u) b /\ veq u v) /\ (forall k v, In (k, v) b -> exists u, In (k, u) a /\ veq v u).
