(** What frozendict, Immutable and OmniHashableMixin promise. *)
From Verif Require Import Prelude Frozen_Model.
Set Implicit Arguments.

(** two dicts are equal: as many keys, and equal values for each, in whatever order *)
Definition dict_eq {K V} (keqb : K -> K -> bool) (veqb : V -> V -> bool) (d e : dict K V) : Prop :=
  length d = length e /\ forall k v, dget keqb d k = Some v -> exists w, dget keqb e k = Some w /\ veqb v w = true.
(** the operations for which frozendict is prepared, or which only read *)
Definition guarded {K V} (op : fop K V) : Prop :=
  match op with FDel _ | FPop _ _ | FPopitem | FClear | FSetdefault _ _ | FIor _ => False | _ => True end.
Definition writes {K V} (op : fop K V) : Prop := match op with FSet _ _ | FUpdate _ => True | _ => False end.

Definition not_the_flag {A V} (op : iop A V) : Prop := match op with SetFlag _ => False | _ => True end.

(** the fields are all there *)
Definition complete {F V} (fields : nat -> F + list F) (x : obj F V) : Prop :=
  forall f, match fields (cls x) with inl g => f = g | inr l => In f l end -> attr x f <> None.
Definition equivalence {V} (veqb : V -> V -> bool) : Prop :=
  (forall v, veqb v v = true) /\ (forall v w, veqb v w = veqb w v) /\ (forall u v w, veqb u v = true -> veqb v w = true -> veqb u w = true).
(** subclasses: every class is one of its own, and two different classes are not each other's *)
Definition class_order (subclass : nat -> nat -> bool) : Prop :=
  (forall a, subclass a a = true) /\ (forall a b, subclass a b = true -> subclass b a = true -> a = b).
