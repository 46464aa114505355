(** C80: small structures. *)
From Coq Require Import QArith.Qcanon.
From Verif Require Import Prelude.
Local Open Scope nat_scope.
Set Implicit Arguments.

(** c is what a function makes of a and b place by place *)
Definition placewise (f : Qc -> Qc -> Qc) (a b c : list Qc) : Prop :=
  length a = length b /\ length c = length a /\
  forall i x y, nth_error a i = Some x -> nth_error b i = Some y -> nth_error c i = Some (f x y).
Definition scaled (f : Qc -> Qc) (a c : list Qc) : Prop :=
  length c = length a /\ forall i x, nth_error a i = Some x -> nth_error c i = Some (f x).
(** n is the number of different elements of the sets *)
Definition union_size (K : Type) (sets : list (list K)) (n : nat) : Prop :=
  exists u, NoDup u /\ (forall x, In x u <-> exists s, In s sets /\ In x s) /\ length u = n.
Definition disjoint (K : Type) (sets : list (list K)) : Prop :=
  forall i j s t x, nth_error sets i = Some s -> nth_error sets j = Some t -> In x s -> In x t -> i = j.
