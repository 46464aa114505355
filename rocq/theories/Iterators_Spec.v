(** Specifications of the iterator helpers: which element stands at which
    position. [out] is described completely by [forall i, nth_error out i = ...],
    as there is nothing beyond its end. *)
From Verif Require Import Prelude.
Set Implicit Arguments.

(** the sequence turned left by n places *)
Definition rotated {T} (n : nat) (l : list T) : list T := skipn n l ++ firstn n l.
(** turned by a signed number of places: to the left, or to the right *)
Definition rotation {T} (factor : Z) (l : list T) : list T :=
  if (0 <=? factor)%Z then rotated (Z.to_nat factor) l else rotated (length l - Z.to_nat (- factor)) l.

(** the elements that did not occur before, each at its first place *)
Definition first_occurrences {T} (eqb : T -> T -> bool) (l : list T) : list T :=
  map snd (filter (fun p => negb (existsb (eqb (snd p)) (firstn (fst p) l))) (combine (seq 0 (length l)) l)).

(** a row across several sequences, when all of them reach that far *)
Fixpoint across {T} (ls : list (list T)) (i : nat) : option (list T) :=
  match ls with
  | [] => Some []
  | l :: r => match nth_error l i, across r i with Some x, Some xs => Some (x :: xs) | _, _ => None end
  end.

(** an argument of zip_shifted, with its shift if it has one; [shift_fits]: not by more places than there are *)
Definition turned {T} (a : bool * list T * option Z) : list T :=
  match a with (_, l, Some f) => rotation f l | (_, l, None) => l end.
Definition shift_fits {T} (a : bool * list T * option Z) : Prop :=
  match a with (_, l, Some f) => (Z.abs f <= Z.of_nat (length l))%Z | _ => True end.

(** a tuple stands for its components *)
Definition components {T} (e : T + list T) : list T := match e with inl x => [x] | inr t => t end.

(** the whole numbers from start towards stop, the latter excluded *)
Definition stays_before (start stop step : Z) (i : nat) : Prop :=
  if (0 <? step)%Z then (start + Z.of_nat i * step < stop)%Z else (start + Z.of_nat i * step > stop)%Z.

(** A generator that makes its k-th element of the source's element at position
    [pos k], and has read the source up to that element, not further, when it
    yields it; it ends when there is no such element. *)
From Verif Require Import PyGen_Model.
Definition draws {T B} (g : gen (list T) B) (l : list T) (pos : nat -> nat) (f : nat -> T -> B) : Prop :=
  ends g = None /\
  forall k, nth_error (yields g) k =
            match nth_error l (pos k) with Some x => Some (f k x, skipn (S (pos k)) l) | None => None end.
