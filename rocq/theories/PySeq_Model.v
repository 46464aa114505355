(** Python sequence primitives used by several modelled modules: sorted(),
    integer indexing with negative indices, slices with step 1. *)
From Verif Require Import Prelude.

Set Implicit Arguments.

(** [sorted(l)]: stable insertion sort by [<] (the only stable sorted
    arrangement when [<] is the strict part of a total preorder). *)
Fixpoint py_insert {A} (lt : A -> A -> bool) (x : A) (l : list A) : list A :=
  match l with
  | [] => [x]
  | y :: t => if lt y x then y :: py_insert lt x t else x :: l
  end.
Fixpoint py_sorted {A} (lt : A -> A -> bool) (l : list A) : list A :=
  match l with
  | [] => []
  | x :: t => py_insert lt x (py_sorted lt t)
  end.

(** [l[i]] with Python's negative indices; None stands for IndexError *)
Definition py_index {A} (l : list A) (i : Z) : option A :=
  let n := Z.of_nat (length l) in
  let j := if Z.ltb i 0 then (i + n)%Z else i in
  if Z.ltb j 0 then None else nth_error l (Z.to_nat j).

(** slice.indices(len) for one bound, step 1: negative counts from the end,
    then clamped to 0..len *)
Definition slice_bound (n : nat) (i : Z) : nat :=
  if Z.ltb i 0 then Z.to_nat (Z.max 0 (i + Z.of_nat n)) else Nat.min (Z.to_nat i) n.
Definition slice_start (n : nat) (i : option Z) : nat :=
  match i with None => 0 | Some i => slice_bound n i end.
Definition slice_stop (n : nat) (i : option Z) : nat :=
  match i with None => n | Some i => slice_bound n i end.
(** [l[a:b]] *)
Definition py_slice {A} (l : list A) (a b : option Z) : list A :=
  let n := length l in
  firstn (slice_stop n b - slice_start n a) (skipn (slice_start n a) l).
