(** What is assumed of Python's [<] on elements of ordered containers. *)
From Coq Require Import List Bool.
Import ListNotations.

(** [lt] is the strict part of a total preorder: "not (b < a)" ("a <= b") is
    transitive and total. *)
Definition total_preorder {A : Type} (lt : A -> A -> bool) : Prop :=
  (forall a b, lt a b = true -> lt b a = false) /\
  (forall a b c, lt b a = false -> lt c b = false -> lt c a = false).

(** [l] is in non-decreasing order (every earlier element is not greater than
    every later one). *)
Definition ascending {A : Type} (lt : A -> A -> bool) (l : list A) : Prop :=
  forall i j a b, i < j -> nth_error l i = Some a -> nth_error l j = Some b -> lt b a = false.

(** [m] is not greater than any element of [l]. *)
Definition minimum_of {A : Type} (lt : A -> A -> bool) (m : A) (l : list A) : Prop :=
  forall x, In x l -> lt x m = false.
