(** Model of jsonify (satella/coding/transforms/jsonify.py), stringify (satella/coding/transforms/__init__.py) and assert_equal
    (satella/coding/deep_compare.py) on Python values.

    Values are finite trees: cyclic structures are not modelled, nor are floats, bytearrays and classes that are two of the kinds below at
    once (such as IntEnum). The entries of dictionaries and the elements of sets are listed in the order Python iterates over them. *)
From Coq Require Import String Ascii.
From Verif Require Import Prelude.
Set Implicit Arguments.

Inductive pyv : Type :=
| PNone | PBool (b : bool) | PInt (z : Z) | PStr (s : string) | PBytes (l : list Z)
| PEnum (cls name : string) (value : pyv)                    (** a member of an enum *)
| PList (l : list pyv) | PTuple (l : list pyv) | PSet (frozen : bool) (l : list pyv) | PDict (items : list (pyv * pyv))
| PIter (l : list pyv)                                       (** an iterator which will yield these *)
| PJson (id : nat) (json : pyv)                              (** a JSONAble whose to_json() returns json *)
| PObj (id : nat) (str_ repr_ : res string).                 (** any other object: what str() and repr() of it do *)

(** *** Python's own operations *)
(** of lists of the same length *)
Section Lists.
  Variables (A B : Type) (f : A -> B -> bool).
  Fixpoint forall2b (l : list A) (m : list B) : bool :=
    match l, m with [], [] => true | a :: l', b :: m' => f a b && forall2b l' m' | _, _ => false end.
End Lists.
Definition num_of (v : pyv) : option Z := match v with PBool b => Some (if b then 1 else 0)%Z | PInt z => Some z | _ => None end.
(** == : True equals 1; objects, iterators and members of enums equal only themselves (an iterator not even that, as two values of
    this model are never the same iterator) *)
Fixpoint py_eq (a b : pyv) {struct a} : bool :=
  match a, b with
  | PNone, PNone => true
  | PBool _, _ | PInt _, _ => match num_of a, num_of b with Some x, Some y => Z.eqb x y | _, _ => false end
  | PStr s, PStr t => String.eqb s t
  | PBytes l, PBytes m => forall2b Z.eqb l m
  | PEnum c n _, PEnum c' n' _ => String.eqb c c' && String.eqb n n'
  | PList l, PList m => forall2b py_eq l m
  | PTuple l, PTuple m => forall2b py_eq l m
  | PSet _ l, PSet _ m => Nat.eqb (length l) (length m) && forallb (fun x => existsb (py_eq x) m) l
  | PDict l, PDict m => Nat.eqb (length l) (length m) && forallb (fun kv => existsb (fun kw => py_eq (fst kv) (fst kw) && py_eq (snd kv) (snd kw)) m) l
  | PJson i _, PJson j _ => Nat.eqb i j
  | PObj i _ _, PObj j _ _ => Nat.eqb i j
  | _, _ => false
  end.
Fixpoint hashable (v : pyv) : bool :=
  match v with
  | PTuple l => forallb hashable l
  | PList _ | PDict _ => false
  | PSet frozen _ => frozen
  | _ => true
  end.
(** d[k] = v of the dictionary d being made: TypeError if the key cannot be hashed *)
Definition py_set (d : list (pyv * pyv)) (k v : pyv) : res (list (pyv * pyv)) := if hashable k then Ok (dset py_eq d k v) else Err TypeError.
(** [f(x) for x in l], where f may raise *)
Section Comprehension.
  Variables (A B : Type) (f : A -> res B).
  Fixpoint collect (l : list A) : res (list B) :=
    match l with
    | [] => Ok []
    | a :: l' => match f a with Err e => Err e | Ok b => match collect l' with Err e => Err e | Ok r => Ok (b :: r) end end
    end.
End Comprehension.

(** *** jsonify *)
(** coding/transforms/jsonify.py:7-40. In the assignment at line 32 the value is converted before the key. *)
Fixpoint jsonify (data : pyv) : res pyv :=
  match data with
  | PNone | PBool _ | PInt _ | PStr _ => Ok data
  | PEnum _ _ v => Ok v
  | PJson _ j => jsonify j
  | PDict items =>
    (fix go (new_mapping : list (pyv * pyv)) (items : list (pyv * pyv)) : res pyv :=
       match items with
       | [] => Ok (PDict new_mapping)
       | (k, v) :: rest =>
         match jsonify v with
         | Err e => Err e
         | Ok v' => match jsonify k with
                    | Err e => Err e
                    | Ok k' => match py_set new_mapping k' v' with Err e => Err e | Ok d => go d rest end
                    end
         end
       end) [] items
  | PBytes l => Ok (PList (map PInt l))
  | PList l | PTuple l | PSet _ l | PIter l => res_map PList (collect jsonify l)
  | PObj _ s r => match s with
                  | Ok x => Ok (PStr x)
                  | Err TypeError => res_map PStr r
                  | Err e => Err e
                  end
  end.

(** *** stringify *)
Section Stringify.
  (** the function given as stringifier *)
  Variable stringifier : pyv -> res string.
  Definition as_string (v : pyv) : res pyv := res_map PStr (stringifier v).
  (** {f(k): f(v) for k, v in items}: the key is converted first *)
  Section DictComp.
    Variable f : pyv -> res pyv.
    Fixpoint dict_comp (d : list (pyv * pyv)) (items : list (pyv * pyv)) : res pyv :=
      match items with
      | [] => Ok (PDict d)
      | (k, v) :: rest =>
        match f k with
        | Err e => Err e
        | Ok k' => match f v with
                   | Err e => Err e
                   | Ok v' => match py_set d k' v' with Err e => Err e | Ok d' => dict_comp d' rest end
                   end
        end
      end.
  End DictComp.
  (** coding/transforms/__init__.py:193-236 stringify with recursively=True; coding/transforms/__init__.py:110-114 _stringify_none.
      Sequences are lists, tuples and bytes. *)
  Fixpoint stringify_rec (str_none : bool) (obj : pyv) : res pyv :=
    match obj with
    | PStr _ => Ok obj
    | PEnum _ n _ => Ok (PStr n)
    | PDict items => dict_comp (stringify_rec str_none) [] items
    | PList l | PTuple l => res_map PList (collect (stringify_rec str_none) l)
    | PBytes l => res_map PList (collect as_string (map PInt l))
    | PNone => if str_none then as_string PNone else Ok PNone
    | _ => as_string obj
    end.
  (** coding/transforms/__init__.py:193-236 stringify *)
  Definition stringify (recursively str_none : bool) (obj : pyv) : res pyv :=
    if recursively then stringify_rec str_none obj else
    match obj with
    | PStr _ => Ok obj
    | PEnum _ n _ => Ok (PStr n)
    | PDict items => dict_comp as_string [] items
    | PList l | PTuple l => res_map PList (collect as_string l)
    | PBytes l => res_map PList (collect as_string (map PInt l))
    | PNone => if str_none then as_string PNone else Ok PNone
    | _ => as_string obj
    end.
End Stringify.

(** *** assert_equal *)
Inductive reason : Type := NotEqual | LengthMismatch | KeyNotFound.
(** it returned, raised Inequal with that reason, or something else *)
Inductive verdict : Type := Same | Inequal (r : reason) | Raised (e : exn).
(** len(b) *)
Definition py_len (b : pyv) : res nat :=
  match b with
  | PStr s => Ok (String.length s)
  | PBytes l => Ok (length l)
  | PList l | PTuple l | PSet _ l => Ok (length l)
  | PDict items => Ok (length items)
  | _ => Err TypeError
  end.
(** the elements zip gets of something that has a length *)
Definition py_elements (b : pyv) : list pyv :=
  match b with
  | PStr s => map (fun c => PStr (String c EmptyString)) (list_ascii_of_string s)
  | PBytes l => map PInt l
  | PList l | PTuple l | PSet _ l => l
  | PDict items => map fst items
  | _ => []
  end.
Section Compare.
  (** what a == b does for an a that is an object, an iterator or a member of an enum *)
  Variable obj_eq : pyv -> pyv -> res bool.
  (** what looking up the keys of the dictionary a does in a b which has the same length and is not a dictionary *)
  Variable lookup_other : pyv -> pyv -> verdict.
  (** b's value of a key *)
  Fixpoint py_find (items : list (pyv * pyv)) (k : pyv) : option pyv :=
    match items with [] => None | (k', v) :: rest => if py_eq k k' then Some v else py_find rest k end.
  (** coding/deep_compare.py:25-63 assert_equal *)
  Fixpoint assert_equal (a b : pyv) {struct a} : verdict :=
    match a with
    | PNone | PBool _ | PInt _ | PStr _ | PBytes _ => if py_eq a b then Same else Inequal NotEqual
    | PSet _ l =>
      match py_len b with
      | Err e => Raised e
      | Ok n => if negb (Nat.eqb (length l) n) then Inequal LengthMismatch else if py_eq a b then Same else Inequal LengthMismatch
      end
    | PList l | PTuple l =>
      match py_len b with
      | Err e => Raised e
      | Ok n =>
        if negb (Nat.eqb (length l) n) then Inequal LengthMismatch else
        (fix go (l m : list pyv) : verdict :=
           match l, m with
           | c :: l', d :: m' => match assert_equal c d with Same => go l' m' | x => x end
           | _, _ => Same
           end) l (py_elements b)
      end
    | PDict l =>
      match py_len b with
      | Err e => Raised e
      | Ok n =>
        if negb (Nat.eqb (length l) n) then Inequal LengthMismatch else
        match l, b with
        | [], _ => Same
        | _, PDict m =>
          (fix go (l : list (pyv * pyv)) : verdict :=
             match l with
             | [] => Same
             | (k, v) :: l' => match py_find m k with
                               | None => Inequal KeyNotFound
                               | Some w => match assert_equal v w with Same => go l' | x => x end
                               end
             end) l
        | _, _ => lookup_other a b
        end
      end
    | PEnum _ _ _ | PIter _ | PJson _ _ | PObj _ _ _ =>
      match obj_eq a b with
      | Ok true => Same
      | Ok false => Inequal NotEqual
      | Err TypeError => Same
      | Err e => Raised e
      end
    end.
End Compare.
