(** Model of JSONEncoder, json_encode and JSONAbleDataObject (satella/json.py).

    Values are finite trees (no cycles), numbers are integers. The standard library's json.JSONEncoder.encode is modelled down to the JSON
    tree it writes out; the text of that tree is not modelled. The keys True and 1 of one dictionary, which Python takes for the same key,
    are two keys here. *)
From Coq Require Import String DecimalString.
From Verif Require Import Prelude.
Set Implicit Arguments.
Open Scope string_scope.

(** a value given to the encoder *)
Inductive ev : Type :=
| ENone | EBool (b : bool) | EInt (z : Z) | EStr (s : string)
| EList (l : list ev) | ETuple (l : list ev) | EDict (items : list (ev * ev))
| EEnum (value : ev)                                   (** a member of an enum *)
| EJson (j : ev)                                       (** an object whose to_json() returns j *)
| EObj (attrs : list (string * ev))                    (** an object with a __dict__ *)
| ESlots (cls : string) (slots : list (string * option ev)) (** one with __slots__ only; those not set are None *)
| EOther (cls : string).                               (** one with neither: a set, bytes, ... *)
(** what is written out *)
Inductive json : Type := JNull | JBool (b : bool) | JInt (z : Z) | JStr (s : string) | JList (l : list json) | JObj (entries : list (string * json)).

Section Comprehension.
  Variables (A B : Type) (f : A -> res B).
  Fixpoint collect (l : list A) : res (list B) :=
    match l with
    | [] => Ok []
    | a :: l' => match f a with Err e => Err e | Ok b => match collect l' with Err e => Err e | Ok r => Ok (b :: r) end end
    end.
End Comprehension.
Definition number_text (z : Z) : string := NilZero.string_of_int (Z.to_int z).
(** the text of a key; the library raises TypeError for other keys *)
Definition key_text (k : ev) : option string :=
  match k with
  | ENone => Some "null" | EBool true => Some "true" | EBool false => Some "false" | EInt z => Some (number_text z) | EStr s => Some s
  | _ => None
  end.
Definition key_eqb (a b : ev) : bool :=
  match a, b with
  | ENone, ENone => true | EBool x, EBool y => Bool.eqb x y | EInt x, EInt y => Z.eqb x y | EStr s, EStr t => String.eqb s t
  | _, _ => false
  end.
Definition instance_of (cls : string) : ev := EStr ("<an instance of " ++ cls ++ ">").
(** {f(k): f(v) for ...}; a key that cannot be a key of JSON raises TypeError here if it cannot be hashed, and otherwise when the result
    is written out: here it raises at once *)
Section DictComp.
  Variable f : ev -> res ev.
  Fixpoint dict_comp (d : list (ev * ev)) (items : list (ev * ev)) : res ev :=
    match items with
    | [] => Ok (EDict d)
    | (k, v) :: rest =>
      match f k with
      | Err e => Err e
      | Ok k' => match f v with
                 | Err e => Err e
                 | Ok v' => match key_text k' with None => Err TypeError | Some _ => dict_comp (dset key_eqb d k' v') rest end
                 end
      end
    end.
  (** for k, val in o.__dict__.items(): v[k] = self.default(val) *)
  Fixpoint attr_dict (d : list (ev * ev)) (attrs : list (string * ev)) : res ev :=
    match attrs with
    | [] => Ok (EDict d)
    | (k, v) :: rest => match f v with Err e => Err e | Ok v' => attr_dict (dset key_eqb d (EStr k) v') rest end
    end.
  (** for slot in o.__slots__: v[slot] = self.default(getattr(o, slot)); AttributeError if it is not set *)
  Fixpoint slot_dict (cls : string) (d : list (ev * ev)) (slots : list (string * option ev)) : res ev :=
    match slots with
    | [] => Ok (EDict d)
    | (_, None) :: _ => Ok (instance_of cls)
    | (k, Some v) :: rest => match f v with Err e => Err e | Ok v' => slot_dict cls (dset key_eqb d (EStr k) v') rest end
    end.
End DictComp.
(** json.py:34-59 default. super().default(o) always raises TypeError. to_json() does not raise. *)
Fixpoint default (o : ev) : res ev :=
  match o with
  | EJson j => Ok j
  | ENone | EBool _ | EInt _ | EStr _ => Ok o
  | EEnum v => Ok v
  | EList l | ETuple l => res_map EList (collect default l)
  | EDict items => dict_comp default [] items
  | EObj attrs => attr_dict default [] attrs
  | ESlots cls slots => slot_dict default cls [] slots
  | EOther cls => Ok (instance_of cls)
  end.
(** json.JSONEncoder.encode of the standard library with that default: json.py:62-68 json_encode. It calls default for what it does not
    know, and encodes the result. *)
Fixpoint encode (fuel : nat) (o : ev) : res json :=
  match fuel with
  | O => Err Diverges
  | S n =>
    match o with
    | ENone => Ok JNull
    | EBool b => Ok (JBool b)
    | EInt z => Ok (JInt z)
    | EStr s => Ok (JStr s)
    | EList l | ETuple l => res_map JList (collect (encode n) l)
    | EDict items =>
      res_map JObj (collect (fun kv => match key_text (fst kv) with None => Err TypeError | Some s => res_map (pair s) (encode n (snd kv)) end) items)
    | _ => match default o with Err e => Err e | Ok v => encode n v end
    end
  end.
(** how deep a value is: more than enough fuel *)
Fixpoint depth (o : ev) : nat :=
  match o with
  | ENone | EBool _ | EInt _ | EStr _ => 0
  | EList l | ETuple l => S (list_max (map depth l))
  | EDict items => S (list_max (map (fun kv => Nat.max (depth (fst kv)) (depth (snd kv))) items))
  | EEnum v => S (depth v)
  | EJson j => S (depth j)
  | EObj attrs => S (S (list_max (map (fun kv => depth (snd kv)) attrs)))
  | ESlots _ slots => S (S (list_max (map (fun kv => match snd kv with Some v => depth v | None => 0 end) slots)))
  | EOther _ => 1
  end.
Definition json_encode (o : ev) : res json := encode (S (depth o)) o.

(** *** JSONAbleDataObject *)
Section DataObject.
  Variable V : Type.
  Variable eqb : V -> V -> bool.
  Variable hash : V -> Z.
  Definition seqb : string -> string -> bool := String.eqb.
  (** a class: the names in its __annotations__ and what attributes of the class (its own or inherited) are found *)
  Record dclass : Type := mk_dclass { annotations : list string; class_attrs : dict string V }.
  Definition instance := dict string V.
  (** getattr(o, name): the instance first, then the class *)
  Definition getattr (c : dclass) (o : instance) (name : string) : res V :=
    match dget seqb o name with
    | Some v => Ok v
    | None => match dget seqb (class_attrs c) name with Some v => Ok v | None => Err AttributeError end
    end.
  (** json.py:157-167 __init__; json.py:176-178 from_json is the same with the given dictionary *)
  Definition create (c : dclass) (kwargs : dict string V) : res instance :=
    fold_left (fun r name =>
      match r with
      | Err e => Err e
      | Ok o => match dget seqb kwargs name with
                | Some v => Ok (dset seqb o name v)
                | None => match getattr c o name with Ok _ => Ok o | Err _ => Err ValueError end
                end
      end) (annotations c) (Ok []).
  (** json.py:169-174 to_json *)
  Definition to_json (c : dclass) (o : instance) : res (dict string V) :=
    fold_left (fun r name => match r with Err e => Err e | Ok d => match getattr c o name with Err e => Err e | Ok v => Ok (dset seqb d name v) end end)
      (annotations c) (Ok []).
  (** json.py:148-149 __eq__: the annotations of the class of self; all() stops at the first difference *)
  Fixpoint eq_loop (names : list string) (c : dclass) (o : instance) (c' : dclass) (o' : instance) : res bool :=
    match names with
    | [] => Ok true
    | name :: rest =>
      match getattr c o name with
      | Err e => Err e
      | Ok v => match getattr c' o' name with Err e => Err e | Ok w => if eqb v w then eq_loop rest c o c' o' else Ok false end
      end
    end.
  Definition obj_eq (c : dclass) (o : instance) (c' : dclass) (o' : instance) : res bool := eq_loop (annotations c) c o c' o'.
  (** json.py:151-155 __hash__ *)
  Definition obj_hash (c : dclass) (o : instance) : res Z :=
    fold_left (fun r name => match r with Err e => Err e | Ok h => match getattr c o name with Err e => Err e | Ok v => Ok (Z.lxor h (hash v)) end end)
      (annotations c) (Ok 0%Z).
End DataObject.
