(** Model of frozendict, Immutable (satella/coding/structures/immutable.py) and OmniHashableMixin
    (satella/coding/structures/mixins/hashable.py). *)
From Verif Require Import Prelude.
Set Implicit Arguments.

(** ** frozendict *)
Section Frozen.
  Variables K V : Type.
  Variable keqb : K -> K -> bool.
  (** what can be called on a dict, of which frozendict redefines __setitem__, update and __hash__ *)
  Inductive fop : Type :=
  | FSet (k : K) (v : V) | FUpdate (l : list (K * V)) | FGet (k : K) | FContains (k : K) | FLen | FItems | FCopy | FHash
  | FDel (k : K) | FPop (k : K) (default : option V) | FPopitem | FClear | FSetdefault (k : K) (v : V) | FIor (l : list (K * V)).
  Inductive fout : Type :=
  | OValue (v : V) | ONone | OBool (b : bool) | OLen (n : nat) | OItems (l : list (K * V)) | OInt (h : Z) | ORaised (e : exn).
  (** hash() of keys, and of values, None for those that are not hashable *)
  Variable hk : K -> Z.
  Variable hv : V -> option Z.
  (** immutable.py:79-83 __hash__ *)
  Fixpoint fhash_from (o : Z) (d : dict K V) : res Z :=
    match d with
    | [] => Ok o
    | (k, v) :: rest => match hv v with
                        | Some h => fhash_from (Z.lxor (Z.lxor o (hk k)) h) rest
                        | None => Err TypeError
                        end
    end.
  Definition fhash (d : dict K V) : res Z := fhash_from 0 d.
  Definition fdict_update (d : dict K V) (l : list (K * V)) : dict K V := fold_left (fun d kv => dset keqb d (fst kv) (snd kv)) l d.
  (** immutable.py:67-83 frozendict; the rest is what the built-in dict does *)
  Definition fstep (d : dict K V) (op : fop) : fout * dict K V :=
    match op with
    (* immutable.py:73-77 *)
    | FSet _ _ => (ORaised TypeError, d)
    | FUpdate _ => (ORaised TypeError, d)
    | FHash => (match fhash d with Ok h => OInt h | Err e => ORaised e end, d)
    | FGet k => (match dget keqb d k with Some v => OValue v | None => ORaised KeyError end, d)
    | FContains k => (OBool (dmem keqb d k), d)
    | FLen => (OLen (length d), d)
    | FItems | FCopy => (OItems d, d)
    (* inherited *)
    | FDel k => match dget keqb d k with Some _ => (ONone, ddel keqb d k) | None => (ORaised KeyError, d) end
    | FPop k default => match dget keqb d k with
                        | Some v => (OValue v, ddel keqb d k)
                        | None => (match default with Some v => OValue v | None => ORaised KeyError end, d)
                        end
    | FPopitem => match rev d with [] => (ORaised KeyError, d) | kv :: r => (OItems [kv], rev r) end
    | FClear => (ONone, [])
    | FSetdefault k v => match dget keqb d k with Some w => (OValue w, d) | None => (OValue v, dset keqb d k v) end
    | FIor l => (ONone, fdict_update d l)
    end.
  Fixpoint frun (d : dict K V) (ops : list fop) : list fout * dict K V :=
    match ops with
    | [] => ([], d)
    | op :: rest => let (o, d1) := fstep d op in let (os, d2) := frun d1 rest in (o :: os, d2)
    end.
End Frozen.
Arguments FGet {K V} k.
Arguments FContains {K V} k.
Arguments FLen {K V}.
Arguments FItems {K V}.
Arguments FCopy {K V}.
Arguments FHash {K V}.
Arguments FDel {K V} k.
Arguments FPopitem {K V}.
Arguments FClear {K V}.
Arguments ORaised {K V} e.
Arguments ONone {K V}.
Arguments OInt {K V} h.

(** ** Immutable *)
Section Immutable.
  Variables A V : Type.
  Variable aeqb : A -> A -> bool.
  (** an assignment or deletion of an attribute; of the attribute that holds the flag *)
  Inductive iop : Type := SetAttr (a : A) (v : V) | DelAttr (a : A) | SetFlag (b : bool) | DelFlag.
  Record iobj : Type := mk_iobj { locked : option bool; attrs : dict A V }.
  (** immutable.py:25-36 __setattr__; immutable.py:38-46 __delattr__. The flag not being there raises AttributeError, which is caught. *)
  Definition istep (o : iobj) (op : iop) : option exn * iobj :=
    let blocked := match locked o with Some b => b | None => false end in
    match op with
    | SetFlag b => (None, mk_iobj (Some b) (attrs o))
    | SetAttr a v => if blocked then (Some TypeError, o) else (None, mk_iobj (locked o) (dset aeqb (attrs o) a v))
    | DelAttr a => if blocked then (Some TypeError, o)
                   else if dmem aeqb (attrs o) a then (None, mk_iobj (locked o) (ddel aeqb (attrs o) a)) else (Some AttributeError, o)
    | DelFlag => if blocked then (Some TypeError, o) else match locked o with Some _ => (None, mk_iobj None (attrs o)) | None => (Some AttributeError, o) end
    end.
  Fixpoint irun (o : iobj) (ops : list iop) : list (option exn) * iobj :=
    match ops with
    | [] => ([], o)
    | op :: rest => let (e, o1) := istep o op in let (es, o2) := irun o1 rest in (e :: es, o2)
    end.
  (** immutable.py:5-8 __call__ of the metaclass: the constructor does what it does, then the flag is set. A constructor that raises
      gives no object: its assignments are taken as going on. *)
  Definition iconstruct (ops : list iop) : iobj := snd (istep (snd (irun (mk_iobj None []) ops)) (SetFlag true)).
End Immutable.
Arguments DelAttr {A V} a.
Arguments SetFlag {A V} b.
Arguments DelFlag {A V}.

(** ** OmniHashableMixin *)
Section Omni.
  Variables F V : Type.
  Variable veqb : V -> V -> bool.
  Variable hv : V -> Z.
  (** the classes, whether one is a subclass of another (or the same), and _HASH_FIELDS_TO_USE of each: a name or a sequence of names *)
  Variable subclass : nat -> nat -> bool.
  Variable fields : nat -> F + list F.
  (** an object: its class and its attributes *)
  Record obj : Type := mk_obj { cls : nat; attr : F -> option V }.
  (** hashable.py:170-178 __hash__. None: AttributeError *)
  Fixpoint xor_fields (x : obj) (acc : Z) (l : list F) : option Z :=
    match l with
    | [] => Some acc
    | f :: rest => match attr x f with Some v => xor_fields x (Z.lxor acc (hv v)) rest | None => None end
    end.
  Definition ohash (x : obj) : option Z :=
    match fields (cls x) with
    | inl f => option_map hv (attr x f)
    | inr l => xor_fields x 0 l
    end.
  (** hashable.py:199: any(getattr(self, f) != getattr(other, f) for f in fields), which stops at the first difference. None: AttributeError *)
  Fixpoint any_differs (x y : obj) (l : list F) : option bool :=
    match l with
    | [] => Some false
    | f :: rest => match attr x f, attr y f with
                   | Some v, Some w => if veqb v w then any_differs x y rest else Some true
                   | _, _ => None
                   end
    end.
  (** hashable.py:190-203 _generic_eq, with the comparator: eq (truth is False) or ne (truth is True) *)
  Definition generic_eq (x y : obj) (truth : bool) : bool :=
    if subclass (cls y) (cls x) then
      match fields (cls x) with
      | inl f => match attr x f, attr y f with
                 | Some v, Some w => if truth then negb (veqb v w) else veqb v w
                 | _, _ => truth
                 end
      | inr l => match any_differs x y l with
                 | Some true => truth
                 | Some false => negb truth
                 | None => truth
                 end
      end
    else truth.
  (** hashable.py:180-187 __eq__ and __ne__, reached by x == y and x != y: Python asks y first when its class is a subclass of x's *)
  Definition dispatch (x y : obj) (truth : bool) : bool :=
    if subclass (cls y) (cls x) && negb (cls y =? cls x) then generic_eq y x truth else generic_eq x y truth.
  Definition py_eq (x y : obj) : bool := dispatch x y false.
  Definition py_ne (x y : obj) : bool := dispatch x y true.
End Omni.
