(** DictObject and apply_dict_object (satella/coding/structures/dictionaries/dict_object.py; all lines are of that file).
    Objects live in a heap and are referred to by their number; what is neither a dictionary nor a list is a number [At z].
    Keys are strings or numbers. [Diverges] is a RecursionError. is_valid_schema (49-76) is not modelled. *)
From Coq Require Import String.
From Verif Require Import Prelude.
Local Open Scope list_scope.

Inductive key : Type := Name (s : string) | Number (z : Z).
Definition key_eqb (a b : key) : bool :=
  match a, b with Name s, Name s' => String.eqb s s' | Number z, Number z' => Z.eqb z z' | _, _ => false end.
Inductive val : Type := At (z : Z) | Ref (p : nat).
(** [wrapped]: a DictObject and not just a dict *)
Inductive obj : Type := ODict (wrapped : bool) (e : dict key val) | OList (l : list val).
Definition heap : Type := list obj.

(** ** items and attributes of one DictObject *)
Section Attributes.
  (** the names that Python's attribute lookup finds in the class, so that __getattr__ is not called: items, keys, copy, is_valid_schema... *)
  Variable in_class : string -> bool.
  Inductive op : Type :=
  | GetItem (k : key) | SetItem (k : key) (v : val) | DelItem (k : key) | Contains (k : key) | Length
  | GetAttr (s : string) | SetAttr (s : string) (v : val) | DelAttr (s : string).
  Inductive out : Type := Item (v : val) | ClassAttribute | Done | Bool (b : bool) | Number_ (n : nat) | Raises (e : exn).
  Definition step (e : dict key val) (o : op) : dict key val * out :=
    match o with
    | GetItem k => (e, match dget key_eqb e k with Some v => Item v | None => Raises KeyError end)
    | SetItem k v => (dset key_eqb e k v, Done)
    | DelItem k => if dmem key_eqb e k then (ddel key_eqb e k, Done) else (e, Raises KeyError)
    | Contains k => (e, Bool (dmem key_eqb e k))
    | Length => (e, Number_ (length e))
    | GetAttr s =>                                                                                              (* 38-40 *)
      (e, if in_class s then ClassAttribute else match dget key_eqb e (Name s) with Some v => Item v | None => Raises AttributeError end)
    | SetAttr s v => (dset key_eqb e (Name s) v, Done)                                                          (* 42-43 *)
    | DelAttr s => if dmem key_eqb e (Name s) then (ddel key_eqb e (Name s), Done) else (e, Raises AttributeError)   (* 45-47 *)
    end.
  Fixpoint steps (e : dict key val) (ops : list op) : dict key val * list out :=
    match ops with [] => (e, []) | o :: r => let (e1, x) := step e o in let (e2, l) := steps e1 r in (e2, x :: l) end.
End Attributes.

(** ** making and copying *)
(** DictObject(v, **kwargs) for a dictionary v (25-30): __new__, then dict.__init__, which for an argument returned by __new__ copies it onto itself *)
Definition construct (h : heap) (p : nat) (kwargs : list (string * val)) : res (heap * nat) :=
  match nth_error h p with
  | Some (ODict true e) =>
    match kwargs with
    | [] => Ok (h, p)                                                                                           (* 26-29 *)
    | _ => Ok (h ++ [ODict true (fold_left (fun e kv => dset key_eqb e (Name (fst kv)) (snd kv)) kwargs e)], length h)
    end
  | Some (ODict false e) => Ok (h ++ [ODict true (fold_left (fun e kv => dset key_eqb e (Name (fst kv)) (snd kv)) kwargs e)], length h)   (* 30 *)
  | _ => Err TypeError                       (* sequences of pairs are not modelled *)
  end.
(** copy.copy(d) (32-33). copy.copy(super()) finds dict's __reduce_ex__ bound to d, makes a DictObject and puts the items of d into it;
    DictObject() of that is the same object *)
Definition copied (h : heap) (p : nat) : res (heap * nat) :=
  match nth_error h p with Some (ODict true e) => Ok (h ++ [ODict true e], length h) | _ => Err TypeError end.

(** ** all that hangs on a value *)
Section Each.
  Context {S : Type}.
  Variable f : S -> val -> res (S * val).
  Fixpoint each (s : S) (l : list val) : res (S * list val) :=
    match l with
    | [] => Ok (s, [])
    | v :: r => match f s v with Err e => Err e | Ok (s1, v') => match each s1 r with Err e => Err e | Ok (s2, r') => Ok (s2, v' :: r') end end
    end.
End Each.
(** apply_dict_object(v) (79-96); the dictionary of the comprehension is gone as soon as the DictObject is made *)
Fixpoint applied (fuel : nat) (h : heap) (v : val) : res (heap * val) :=
  match fuel with
  | O => Err Diverges
  | S n =>
    match v with
    | At z => Ok (h, v)                                                                                         (* 95-96 *)
    | Ref p =>
      match nth_error h p with
      | Some (ODict true _) => Ok (h, v)                                                                        (* 87-88 *)
      | Some (OList l) =>                                                                                       (* 89-90 *)
        match each (applied n) h l with Err e => Err e | Ok (h', l') => Ok (h' ++ [OList l'], Ref (length h')) end
      | Some (ODict false e) =>                                                                                 (* 91-94 *)
        match each (applied n) h (map snd e) with
        | Err x => Err x
        | Ok (h', l') => Ok (h' ++ [ODict true (combine (map fst e) l')], Ref (length h'))
        end
      | None => Ok (h, v)
      end
    end
  end.
(** copy.deepcopy(v, memo) where v may hold DictObjects (35-36). [memo]: what was copied and to where. copy.deepcopy enters a list or a
    plain dictionary into memo before it copies what is inside, so that cycles end; that is not modelled (the model goes on for ever).
    For a DictObject it does so after __deepcopy__ has returned: what is entered before is the temporary super() object. *)
Fixpoint deep (fuel : nat) (s : heap * dict nat nat) (v : val) : res ((heap * dict nat nat) * val) :=
  match fuel with
  | O => Err Diverges
  | S n =>
    match v with
    | At z => Ok (s, v)
    | Ref p =>
      match dget Nat.eqb (snd s) p with
      | Some q => Ok (s, Ref q)
      | None =>
        match nth_error (fst s) p with
        | Some (OList l) =>
          match each (deep n) s l with
          | Err e => Err e
          | Ok ((h, m), l') => Ok ((h ++ [OList l'], dset Nat.eqb m p (length h)), Ref (length h))
          end
        | Some (ODict w e) =>
          match each (deep n) s (map snd e) with
          | Err x => Err x
          | Ok ((h, m), l') => Ok ((h ++ [ODict w (combine (map fst e) l')], dset Nat.eqb m p (length h)), Ref (length h))
          end
        | None => Ok (s, v)
        end
      end
    end
  end.
