(** Mix-ins that give classes comparisons and hashes: satella/coding/structures/mixins/hashable.py (all but OmniHashableMixin, see Frozen_Model),
    mixins/strings.py (StrEqHashableMixin), mixins/enums.py and mixins/eqable.py. *)
From Coq Require Import List Bool Arith ZArith.
From Verif Require Import Prelude.
Import ListNotations.
Open Scope nat_scope.

(** Python's comparisons, and what each is called with when the operands are swapped. *)
Inductive cmpop := OpEq | OpLt | OpLe | OpGt | OpGe.
Definition swap (op : cmpop) : cmpop := match op with OpEq => OpEq | OpLt => OpGt | OpLe => OpGe | OpGt => OpLt | OpGe => OpLe end.

(** Integers. *)
Definition zcmp (op : cmpop) (a b : Z) : bool :=
  match op with OpEq => Z.eqb a b | OpLt => Z.ltb a b | OpLe => Z.leb a b | OpGt => Z.ltb b a | OpGe => Z.leb b a end.

(** Strings: lists of code points, compared point by point. *)
Definition str := list nat.
Fixpoint str_eqb (a b : str) : bool :=
  match a, b with [], [] => true | x :: a', y :: b' => Nat.eqb x y && str_eqb a' b' | _, _ => false end.
Fixpoint str_ltb (a b : str) : bool :=
  match a, b with
  | _, [] => false
  | [], _ :: _ => true
  | x :: a', y :: b' => if Nat.eqb x y then str_ltb a' b' else Nat.ltb x y
  end.
Definition scmp (op : cmpop) (a b : str) : bool :=
  match op with
  | OpEq => str_eqb a b
  | OpLt => str_ltb a b
  | OpLe => str_ltb a b || str_eqb a b
  | OpGt => str_ltb b a
  | OpGe => str_ltb b a || str_eqb a b
  end.

(** ** ComparableAndHashableBy, hashable.py 25-68 *)

Section By.
  (** Values of fields, their comparisons (that may raise) and their hashes. *)
  Variables (F : Type) (vcmp : cmpop -> F -> F -> res bool) (vhash : F -> res Z).

  (** An object: the name in its _COMPARABLE_BY (None if it has none, i.e. its class does not have the mix-in) and its attributes. *)
  Record byobj := { comparable_by : option nat; attr : nat -> option F }.

  (** getattr(o, o._COMPARABLE_BY). *)
  Definition field (o : byobj) : res F :=
    match comparable_by o with
    | None => Err AttributeError
    | Some n => match attr o n with Some v => Ok v | None => Err AttributeError end
    end.

  (** __hash__, hashable.py 52-53 *)
  Definition by_hash (self : byobj) : res Z := res_bind (field self) vhash.

  (** __eq__, __lt__, __le__, __gt__ and __ge__, hashable.py 55-68 *)
  Definition by_cmp (op : cmpop) (self other : byobj) : res bool :=
    res_bind (field self) (fun a => res_bind (field other) (fun b => vcmp op a b)).
End By.
Arguments comparable_by {F}. Arguments attr {F}. Arguments field {F}. Arguments by_hash {F}. Arguments by_cmp {F}.

(** ** The mix-ins that compare by int() and str(), among other values *)

(** Half z is the float z + 0.5, the other floats are not modelled; ByInt z an instance of a subclass of ComparableAndHashableByInt whose __int__ gives z, ByStr s one of
    ComparableAndHashableByStr whose __str__ gives s, StrEq s one of StrEqHashableMixin, IntEnum z a member of a ComparableIntEnum with the value z. *)
Inductive val := Int (z : Z) | Half (z : Z) | Str (s : str) | NoneV | ByInt (z : Z) | ByStr (s : str) | StrEq (s : str) | IntEnum (z : Z).

Section Vals.
  (** What int() makes of a string, str() of a value that is not a string, and the hashes of numbers and strings. *)
  Variables (parse : str -> option Z) (show : val -> str) (hash_int hash_half : Z -> Z) (hash_str : str -> Z) (hash_none : Z).

  (** int(v): floats are truncated. *)
  Definition py_int (v : val) : res Z :=
    match v with
    | Int z | ByInt z | IntEnum z => Ok z
    | Half z => Ok (if (z <? 0)%Z then (z + 1)%Z else z)
    | Str s => match parse s with Some z => Ok z | None => Err ValueError end
    | NoneV | ByStr _ | StrEq _ => Err TypeError
    end.

  Definition py_str (v : val) : str := match v with Str s | ByStr s | StrEq s => s | _ => show v end.

  (** type(self).__op__(self, other); None is NotImplemented. ByInt: hashable.py 85-98; ByStr: hashable.py 116-129; StrEq: strings.py 11-12; IntEnum: enums.py 65-88. *)
  Definition method (op : cmpop) (self other : val) : option (res bool) :=
    match self with
    | ByInt a => Some (res_bind (py_int other) (fun b => Ok (zcmp op a b)))
    | ByStr a => Some (Ok (scmp op a (py_str other)))
    | StrEq a => match op with OpEq => Some (Ok (str_eqb a (py_str other))) | _ => None end
    | IntEnum a =>
      Some (match other with
            | Int b | IntEnum b => Ok (zcmp op a b)
            | Half b => Ok (zcmp op (2 * a) (2 * b + 1))
            | _ => res_bind (py_int other) (fun b => Ok (zcmp op a b))
            end)
    | Int a => match other with
               | Int b | IntEnum b => Some (Ok (zcmp op a b))
               | Half b => Some (Ok (zcmp op (2 * a) (2 * b + 1)))
               | _ => None
               end
    | Half a => match other with
                | Int b | IntEnum b => Some (Ok (zcmp op (2 * a + 1) (2 * b)))
                | Half b => Some (Ok (zcmp op a b))
                | _ => None
                end
    | Str a => match other with Str b => Some (Ok (scmp op a b)) | _ => None end
    | NoneV => match op, other with OpEq, NoneV => Some (Ok true) | _, _ => None end
    end.

  (** a == b, a < b...: the left operand is asked first, then the right one. (Python asks a right operand of a subclass first; here this makes no difference.) *)
  Definition py_cmp (op : cmpop) (a b : val) : res bool :=
    match method op a b with
    | Some r => r
    | None => match method (swap op) b a with
              | Some r => r
              | None => match op with OpEq => Ok false | _ => Err TypeError end
              end
    end.

  (** hash(v); ByInt: hashable.py 82-83; ByStr: hashable.py 113-114; StrEq: strings.py 14-15; IntEnum: enums.py 62-63 *)
  Definition py_hash (v : val) : res Z :=
    match v with
    | Int z | ByInt z | IntEnum z => Ok (hash_int z)
    | Half z => Ok (hash_half z)
    | Str s | ByStr s | StrEq s => Ok (hash_str s)
    | NoneV => Ok hash_none
    end.
End Vals.

(** ** ComparableEnum, enums.py 4-41 *)

(** A value: an atom, or a member of an enumeration, numbered by the enumeration and its place there. *)
Inductive ev := Atom (n : nat) | Mem (c i : nat).
Definition ev_same (a b : ev) : bool :=
  match a, b with Atom n, Atom m => Nat.eqb n m | Mem c i, Mem d j => Nat.eqb c d && Nat.eqb i j | _, _ => false end.

Section Enums.
  (** Enumerations: whether one is a ComparableEnum (if not, it's an enum.Enum), and the values of its members; members with the same value are one member with two names. *)
  Variables (comparable : nat -> bool) (values : nat -> list ev).

  Definition value (m : ev) : ev := match m with Mem c i => nth i (values c) m | Atom _ => m end.

  (** ComparableEnum defines __eq__ and not __hash__, so its members have no hash. *)
  Definition hashable (v : ev) : bool := match v with Atom _ => true | Mem c _ => negb (comparable c) end.

  (** The first member of class c, from the i-th on, whose value compares equal to v: cls(v) of the standard library; ValueError if there is none.
      Values with a hash are looked up in a dictionary, that has just the values with a hash; others are compared with each value. *)
  Fixpoint enum_find (eq : ev -> ev -> res bool) (c : nat) (v : ev) (l : list ev) (i : nat) : res ev :=
    match l with
    | [] => Err ValueError
    | x :: t => res_bind (if hashable x || negb (hashable v) then eq x v else Ok false) (fun b => if b then Ok (Mem c i) else enum_find eq c v t (S i))
    end.

  (** __eq__ given how the values compare, enums.py 32-41: an enumeration has no subclasses if it has members, so isinstance asks for the same class;
      super().__eq__ (of object) tells whether they are the same object. *)
  Definition enum_eq (eq : ev -> ev -> res bool) (c i : nat) (other : ev) : res bool :=
    let other' := match other with Mem d _ => if Nat.eqb d c then other else value other | Atom _ => other end in
    match other' with
    | Mem d j => if Nat.eqb d c then Ok (Nat.eqb i j)
                 else match enum_find eq c other' (values c) 0 with
                      | Ok m => Ok (ev_same m (Mem c i)) | Err ValueError => Ok false | Err e => Err e end
    | Atom _ => match enum_find eq c other' (values c) 0 with
                | Ok m => Ok (ev_same m (Mem c i)) | Err ValueError => Ok false | Err e => Err e end
    end.

  (** a == b; members of an enum.Enum and atoms leave it to a right operand that is a member of a ComparableEnum. fuel bounds the nesting of enumerations as values. *)
  Fixpoint ev_eq (fuel : nat) (a b : ev) : res bool :=
    match fuel with
    | 0 => Err Diverges
    | S f =>
      match a, b with
      | Mem c i, _ => if comparable c then enum_eq (ev_eq f) c i b
                      else match b with
                           | Mem d j => if comparable d then enum_eq (ev_eq f) d j a else Ok (ev_same a b)
                           | Atom _ => Ok false
                           end
      | Atom _, Mem d j => if comparable d then enum_eq (ev_eq f) d j a else Ok false
      | Atom n, Atom m => Ok (Nat.eqb n m)
      end
    end.
End Enums.

(** ** DictionaryEQAble, eqable.py *)

Section DictEq.
  (** Values with their (in)equality; [class_attr c k] is what the class c gives for the name k, if anything. *)
  Variables (V : Type) (vne : V -> V -> bool) (class_attr : nat -> nat -> option V).

  Record dobj := { dcls : nat; ddict : list (nat * V) }.

  (** getattr(o, k, NOT_EQUAL_TO_ANYTHING): None is NOT_EQUAL_TO_ANYTHING. *)
  Definition dgetattr (o : dobj) (k : nat) : option V :=
    match dget Nat.eqb (ddict o) k with Some v => Some v | None => class_attr (dcls o) k end.

  (** getattr(...) != self.__dict__[key], eqable.py 16 and 24; NOT_EQUAL_TO_ANYTHING (immutable.py 48-64) differs from everything. *)
  Definition attr_ne (x : option V) (v : V) : bool := match x with Some u => vne u v | None => true end.

  (** The loop of __eq__ and of __ne__, eqable.py 15-18 and 23-26 *)
  Fixpoint dict_loop (other : dobj) (l : list (nat * V)) (found not_found : bool) : bool :=
    match l with
    | [] => not_found
    | (k, v) :: t => if attr_ne (dgetattr other k) v then found else dict_loop other t found not_found
    end.

  (** __eq__, eqable.py 12-18 *)
  Definition dict_eq (self other : dobj) : bool :=
    if negb (Nat.eqb (dcls self) (dcls other)) then false else dict_loop other (ddict self) false true.
  (** __ne__, eqable.py 20-26 *)
  Definition dict_ne (self other : dobj) : bool :=
    if negb (Nat.eqb (dcls self) (dcls other)) then true else dict_loop other (ddict self) true false.
End DictEq.
Arguments dcls {V}. Arguments ddict {V}. Arguments dict_eq {V}. Arguments dict_ne {V}. Arguments dict_loop {V}. Arguments dgetattr {V}. Arguments attr_ne {V}.
