(** Specifications of the transforms. *)
From Coq Require Import QArith Qabs.
From Verif Require Import Prelude.
Set Implicit Arguments.

(** [r] lies in [lo, hi], and no point of it is nearer to [v] *)
Definition nearest (lo hi v r : Q) : Prop :=
  (lo <= r <= hi)%Q /\ forall x, (lo <= x <= hi)%Q -> (Qabs (v - r) <= Qabs (v - x))%Q.

(** in ascending order, equal neighbours allowed / not allowed *)
Definition ordered (l : list Q) : Prop :=
  forall i j a b, (i <= j)%nat -> nth_error l i = Some a -> nth_error l j = Some b -> (a <= b)%Q.
Definition strictly_ordered (l : list Q) : Prop :=
  forall i j a b, (i < j)%nat -> nth_error l i = Some a -> nth_error l j = Some b -> (a < b)%Q.

(** the straight line through (x1, y1) and (x2, y2), at x *)
Definition line (x1 y1 x2 y2 x : Q) : Q := (y1 + (x - x1) * (y2 - y1) / (x2 - x1))%Q.

(** [l'] is the shortest extension of [l] to a multiple of |m|, by elements made by [pad] *)
Definition padded {T} (pad : nat -> T) (m : Z) (l l' : list T) : Prop :=
  exists n, l' = l ++ map pad (seq 0 n) /\ (m | Z.of_nat (length l'))%Z /\
            forall n', (n' < n)%nat -> ~ (m | Z.of_nat (length l + n'))%Z.
