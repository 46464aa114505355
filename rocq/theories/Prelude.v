(** Shared vocabulary of the model: exceptions as values, Python dictionaries
    as insertion-ordered association lists, list indexing and update. *)
From Coq Require Export List Arith ZArith Bool Lia Permutation.
Export ListNotations.

Set Implicit Arguments.

(** Python exceptions that the modelled code raises or catches. [UserExn n] is
    an exception raised by user-supplied code (callbacks, getters). *)
Inductive exn : Type :=
| IndexError | KeyError | ValueError | TypeError | AttributeError
| RuntimeError | AssertionError | StopIteration | EmptyExn | FullExn
| AlreadyAllocated | ResourceLocked | ResourceNotLocked | NotEnoughBytes
| ConfigurationError | ConfigurationValidationError | WouldWaitMore
| FileNotFound | OSErrorExn | TimeoutExn | CancelledExn | InvalidStateExn
| AlreadyExists | ImpossibleExn | ZeroDivision | SystemExitExn
| NotImplementedExn | Diverges | NameErrorExn
| UserExn (n : nat).

(** Result of a Python call: a value or a raised exception. *)
Inductive res (A : Type) : Type :=
| Ok (a : A)
| Err (e : exn).
Arguments Ok {A} a.
Arguments Err {A} e.

Definition is_ok {A} (r : res A) : bool := match r with Ok _ => true | Err _ => false end.

Definition res_map {A B} (f : A -> B) (r : res A) : res B :=
  match r with Ok a => Ok (f a) | Err e => Err e end.

Definition res_bind {A B} (r : res A) (f : A -> res B) : res B :=
  match r with Ok a => f a | Err e => Err e end.

(** A boolean equality test that decides Leibniz equality: our reading of
    Python's [==] on hashable values. *)
Definition eqb_ok {K : Type} (eqb : K -> K -> bool) : Prop :=
  forall x y, eqb x y = true <-> x = y.

(** [l[i] = x] for an index in range (Python list item assignment). Outside of
    the range the list is unchanged; callers stay in range. *)
Fixpoint upd {A} (l : list A) (i : nat) (x : A) : list A :=
  match l, i with
  | [], _ => []
  | _ :: t, O => x :: t
  | h :: t, S j => h :: upd t j x
  end.

(** [del l[i]] / [l.pop(i)]. *)
Fixpoint del_nth {A} (i : nat) (l : list A) : list A :=
  match l, i with
  | [], _ => []
  | _ :: t, O => t
  | h :: t, S j => h :: del_nth j t
  end.

(** [l.insert(i, x)] for 0 <= i; beyond the end it appends. *)
Fixpoint insert_at {A} (i : nat) (x : A) (l : list A) : list A :=
  match i, l with
  | O, _ => x :: l
  | S j, [] => [x]
  | S j, h :: t => h :: insert_at j x t
  end.

(** [x in l] for a list. *)
Fixpoint memb {A} (eqb : A -> A -> bool) (x : A) (l : list A) : bool :=
  match l with
  | [] => false
  | y :: t => if eqb y x then true else memb eqb x t
  end.

(** [l.index(p)]: the first position satisfying a predicate. *)
Fixpoint find_index {A} (p : A -> bool) (l : list A) : option nat :=
  match l with
  | [] => None
  | x :: t => if p x then Some O else option_map S (find_index p t)
  end.

(** [l.remove(x)] on a list that contains x: drop the first occurrence. *)
Fixpoint remove_first {A} (eqb : A -> A -> bool) (x : A) (l : list A) : list A :=
  match l with
  | [] => []
  | y :: t => if eqb y x then t else y :: remove_first eqb x t
  end.

(** ** Python dictionaries: association lists in insertion order *)
Section Dict.
  Context {K V : Type}.
  Variable eqb : K -> K -> bool.
  Definition dict := list (K * V).

  Definition dempty : dict := [].

  (** [d.get(k)] *)
  Fixpoint dget (d : dict) (k : K) : option V :=
    match d with
    | [] => None
    | (k', v) :: t => if eqb k' k then Some v else dget t k
    end.

  (** [k in d] *)
  Definition dmem (d : dict) (k : K) : bool :=
    match dget d k with Some _ => true | None => false end.

  (** [d[k] = v]: in place when present, appended otherwise *)
  Fixpoint dset (d : dict) (k : K) (v : V) : dict :=
    match d with
    | [] => [(k, v)]
    | (k', v') :: t => if eqb k' k then (k', v) :: t else (k', v') :: dset t k v
    end.

  (** [del d[k]] for a present key (no-op on an absent one; callers check) *)
  Fixpoint ddel (d : dict) (k : K) : dict :=
    match d with
    | [] => []
    | (k', v') :: t => if eqb k' k then t else (k', v') :: ddel t k
    end.

  Definition dkeys (d : dict) : list K := map fst d.
  Definition dvals (d : dict) : list V := map snd d.

  (** a Python dictionary has each key once *)
  Definition dwf (d : dict) : Prop := NoDup (dkeys d).
End Dict.
Arguments dict : clear implicits.
