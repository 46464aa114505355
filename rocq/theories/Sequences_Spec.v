(** Specifications of the sequence helpers, by positions. *)
From Verif Require Import Prelude.
Set Implicit Arguments.

(** [gs] cuts [l] into consecutive groups of [n], the last of 1 to [n] elements *)
Definition is_grouping {T} (n : nat) (l : list T) (gs : list (list T)) : Prop :=
  concat gs = l /\
  (forall before g after, gs = before ++ g :: after ->
     1 <= length g <= n /\ (after <> [] -> length g = n)).

(** [f] describes [out] position by position: there are [n] elements and the i-th
    is given by [f i] *)
Definition described {B} (out : list B) (n : nat) (f : nat -> option B) : Prop :=
  length out = n /\ (forall i, i < n -> nth_error out i = f i).

(** is_last: position i of [l] together with "i is the last position" *)
Definition flagged {T} (l : list T) (i : nat) : option (bool * T) :=
  match nth_error l i with Some x => Some (Nat.eqb (S i) (length l), x) | None => None end.

(** add_next: position i of [l] with the element after it; after the last one comes
    [at_end] *)
Definition with_next {T} (l : list T) (at_end : option T) (i : nat) : option (T * option T) :=
  match nth_error l i with
  | Some x => Some (x, match nth_error l (S i) with Some y => Some y | None => at_end end)
  | None => None
  end.

(** the pairs of positions of half of the cartesian square, and their order *)
Definition pos_lt (a b : nat * nat) : Prop := fst a < fst b \/ (fst a = fst b /\ snd a < snd b).
Inductive increasing : list (nat * nat) -> Prop :=
| inc_nil : increasing []
| inc_one p : increasing [p]
| inc_cons p q l : pos_lt p q -> increasing (q :: l) -> increasing (p :: q :: l).
Definition at_positions {T} (l : list T) (p : nat * nat) : option (T * T) :=
  match nth_error l (fst p), nth_error l (snd p) with Some x, Some y => Some (x, y) | _, _ => None end.
(** [out] is [l] taken at exactly those pairs of positions, in increasing order *)
Definition is_half_square {T} (same : bool) (l : list T) (out : list (T * T)) : Prop :=
  exists ps, increasing ps /\
    (forall i j, In (i, j) ps <-> (i < length l /\ j < length l /\ (if same then i <= j else i < j))) /\
    map Some out = map (at_positions l) ps.

(** [r] is the first position at which [p] holds *)
Definition is_first {T} (p : T -> bool) (l : list T) (i : nat) : Prop :=
  (exists x, nth_error l i = Some x /\ p x = true) /\
  (forall j x, j < i -> nth_error l j = Some x -> p x = false).
