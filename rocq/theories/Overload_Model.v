(* C70: functions overloaded by the types of their arguments
   (satella/coding/overloading.py). *)
From Coq Require Import List Bool Arith ZArith String.
From Verif Require Import Prelude Args_Model.
Import ListNotations.
Set Implicit Arguments.

Section Overload.
  Variable ty : Type.
  (* isinstance(value, type) *)
  Variable inst : val -> ty -> bool.

  (* A TypeSignature, overloading.py:32-57: the parameters of a function and
     their annotations; None is inspect._empty, the annotation of a parameter
     that has none. The return annotation only takes part in the comparison of
     signatures, see `same` below. *)
  Record tsig : Type := TSig { t_sig : sig; t_ann : string -> option ty }.

  (* isinstance(param_value, annotation), overloading.py:90; nothing is an
     instance of inspect._empty. *)
  Definition fits (o : tsig) (e : string * val) : bool :=
    match t_ann o (fst e) with Some t => inst (snd e) t | None => false end.

  (* overloading.py:83-92, TypeSignature.matches: bind raises TypeError if the
     arguments cannot be bound to the signature. *)
  Definition matches (o : tsig) (args : list val) (kw : vars) : res bool :=
    match py_bind (t_sig o) args kw with
    | Err e => Err e
    | Ok b => Ok (forallb (fits o) b)
    end.

  (* overloading.py:67-81: self is a Signature and never equal to {}, so the loop
     is never entered and the answer is always True. *)
  Definition is_more_generic_than (a b : tsig) : bool := true.

  (* The functions an overload object holds, in order of registration
     (type_signatures_to_functions, overloading.py:124); functions are numbers. *)
  Definition table := list (tsig * nat).

  (* CPython, list.sort: an empty or one-element list is left alone; otherwise
     the first run is measured. It is strictly descending if the second element
     is less than the first, and lasts as long as each element is less than the
     one before it. A descending run that is the whole list is reversed, and that
     is all. Any other list: None (not modelled, see is_more_generic_than). *)
  Section Sort.
    Variable A : Type.
    Variable lt : A -> A -> bool.
    Fixpoint descending (a : A) (l : list A) : bool :=
      match l with [] => true | b :: l' => lt b a && descending b l' end.
    Definition py_sort (l : list A) : option (list A) :=
      match l with
      | [] | [_] => Some l
      | a :: l' => if descending a l' then Some (rev l) else None
      end.
  End Sort.

  (* overloading.py:150-153: the matching functions, in order of registration. *)
  Fixpoint matching (t : table) (args : list val) (kw : vars) : res table :=
    match t with
    | [] => Ok []
    | (o, f) :: t' =>
        match matches o args kw with
        | Err e => Err e
        | Ok b => match matching t' args kw with
                  | Err e => Err e
                  | Ok r => Ok (if b then (o, f) :: r else r)
                  end
        end
    end.

  (* overloading.py:144-158, overload.__call__, up to the call: the function
     chosen. The pairs are compared by their signatures, which differ. *)
  Definition choose (t : table) (args : list val) (kw : vars) : res nat :=
    match matching t args kw with
    | Err e => Err e
    | Ok m =>
        match py_sort (fun a b => is_more_generic_than (fst a) (fst b)) m with
        | None => Err Diverges
        | Some m' =>
            match m' with
            | [] => Err TypeError
            | x :: r => Ok (snd (last m' x))
            end
        end
    end.

  (* equality of TypeSignatures, inherited from inspect.Signature *)
  Variable same : tsig -> tsig -> bool.

  (* overloading.py:134-142, overload.overload *)
  Definition register (t : table) (o : tsig) (f : nat) : table * option exn :=
    if existsb (fun e => same (fst e) o) t then (t, Some TypeError)
    else (t ++ [(o, f)], None).

  (* overloading.py:123-124 and any number of registrations *)
  Fixpoint register_all (t : table) (l : list (tsig * nat)) : table * list (option exn) :=
    match l with
    | [] => (t, [])
    | (o, f) :: l' =>
        let '(t1, r) := register t o f in
        let '(t2, rs) := register_all t1 l' in (t2, r :: rs)
    end.
  Definition overloaded (o : tsig) (f : nat) (l : list (tsig * nat)) : table * list (option exn) :=
    register_all [(o, f)] l.
End Overload.
