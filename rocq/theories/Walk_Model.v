(** Walking through nested structures: satella/coding/sequences/iterators.py, [walk] and [ConstruableIterator]. *)
From Coq Require Import List Arith Lia.
From Verif Require Import Prelude.
Import ListNotations.

Section Walk.
  Context {T : Type}.

  (** What a call of the child getter gives (sequences/iterators.py 128-133): None, a list (or anything with a length), something iterable that
      has no length, such as a generator (len raises TypeError, line 132), or an exception. *)
  Inductive kids := KNone | KList (l : list T) | KUnsized (l : list T) | KRaise (e : exn).

  (** ConstruableIterator.add_many_immediate, sequences/iterators.py 171-178: entry number i of the iterable is inserted at position i. *)
  Fixpoint add_many_immediate_from (i : nat) (t : list T) (entries : list T) : list T :=
    match t with
    | [] => entries
    | x :: t' => add_many_immediate_from (S i) t' (firstn i entries ++ x :: skipn i entries)
    end.
  Definition add_many_immediate (t entries : list T) : list T := add_many_immediate_from 0 t entries.

  (** ConstruableIterator.add_immediate, 163-169 *)
  Definition add_immediate (x : T) (entries : list T) : list T := x :: entries.
  (** ConstruableIterator.add, 180-186 *)
  Definition add (x : T) (entries : list T) : list T := entries ++ [x].
  (** ConstruableIterator.add_many, 188-194 *)
  Definition add_many (t entries : list T) : list T := entries ++ t.
  (** ConstruableIterator.__next__, 199-201: IndexError of an empty deque becomes StopIteration. *)
  Definition next (entries : list T) : res (T * list T) :=
    match entries with [] => Err StopIteration | x :: t => Ok (x, t) end.

  (** How the generator ends: normally, with an exception, or it is still going when the fuel is out. *)
  Inductive ending := EDone | ERaised (e : exn) | EGoing.

  (** The loop of walk, sequences/iterators.py 127-143; gives what is yielded and the ending. The fuel counts the turns of the loop. *)
  Fixpoint walk_loop (fuel : nat) (child_getter : T -> kids) (deep_first leaves_only : bool) (entries : list T) : list T * ending :=
    match fuel with
    | 0 => ([], EGoing)
    | S f =>
      match next entries with
      | Err _ => ([], EDone)
      | Ok (o, a) =>
        let yield_and a' := let '(ys, e) := walk_loop f child_getter deep_first leaves_only a' in (o :: ys, e) in
        match child_getter o with
        | KRaise e => ([], ERaised e)
        | KNone => yield_and a
        | KUnsized _ => yield_and a
        | KList children =>
          if 0 <? length children then
            let a' := if deep_first then add_many_immediate children a else add_many children a in
            if leaves_only then walk_loop f child_getter deep_first leaves_only a' else yield_and a'
          else yield_and a
        end
      end
    end.

  (** walk, sequences/iterators.py 114-143. deque(None) raises TypeError. *)
  Definition walk (fuel : nat) (child_getter : T -> kids) (deep_first leaves_only : bool) (obj : T) : list T * ending :=
    match child_getter obj with
    | KRaise e => ([], ERaised e)
    | KNone => ([], ERaised TypeError)
    | KList l | KUnsized l => walk_loop fuel child_getter deep_first leaves_only l
    end.
End Walk.
Arguments kids : clear implicits.

(** A nested list of Python objects, and what its default child getter, [list], says of each (sequences/iterators.py 114). *)
Inductive pyobj := PyInt (n : nat) | PyStr (chars : list nat) | PyList (l : list pyobj).

(** list(x): the items of a list, the characters of a string (each again a string), TypeError for a number. *)
Definition list_of (x : pyobj) : kids pyobj :=
  match x with
  | PyInt _ => KRaise TypeError
  | PyStr cs => KList (map (fun c => PyStr [c]) cs)
  | PyList l => KList l
  end.

(** A program using a ConstruableIterator: at the number k-th item the body of the loop adds things. *)
Inductive addition (T : Type) := AddImmediate (x : T) | AddManyImmediate (l : list T) | Add (x : T) | AddMany (l : list T).
Arguments AddImmediate {T}. Arguments AddManyImmediate {T}. Arguments Add {T}. Arguments AddMany {T}.

(** sequences/iterators.py 163-194 *)
Definition apply_addition {T} (a : addition T) (entries : list T) : list T :=
  match a with
  | AddImmediate x => add_immediate x entries
  | AddManyImmediate l => add_many_immediate l entries
  | Add x => add x entries
  | AddMany l => add_many l entries
  end.

(** for x in iterator: body(x), sequences/iterators.py 196-201; [body x] is the list of what the body adds when it sees x. *)
Fixpoint for_loop {T} (fuel : nat) (body : T -> list (addition T)) (entries : list T) : list T * bool :=
  match fuel with
  | 0 => ([], false)
  | S f =>
    match next entries with
    | Err _ => ([], true)
    | Ok (x, t) =>
      let '(ys, d) := for_loop f body (fold_left (fun es a => apply_addition a es) (body x) t) in (x :: ys, d)
    end
  end.
