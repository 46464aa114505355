(** What is expected of DictObject. *)
From Coq Require Import String.
From Verif Require Import Prelude AttrDict_Model.
Local Open Scope list_scope.

(** what was last put under the key and not deleted since, the latest call first; deleting what is not there changes nothing *)
Fixpoint held (past : list op) (k : key) : option val :=
  match past with
  | [] => None
  | SetItem k' v :: r => if key_eqb k' k then Some v else held r k
  | SetAttr s v :: r => if key_eqb (Name s) k then Some v else held r k
  | DelItem k' :: r => if key_eqb k' k then None else held r k
  | DelAttr s :: r => if key_eqb (Name s) k then None else held r k
  | _ :: r => held r k
  end.
(** the answer of a dictionary that remembers [past] and whose items are attributes too *)
Definition answer (past : list op) (o : op) (x : out) : Prop :=
  match o with
  | GetItem k => x = match held past k with Some v => Item v | None => Raises KeyError end
  | GetAttr s => x = match held past (Name s) with Some v => Item v | None => Raises AttributeError end
  | SetItem _ _ | SetAttr _ _ => x = Done
  | DelItem k => x = match held past k with Some _ => Done | None => Raises KeyError end
  | DelAttr s => x = match held past (Name s) with Some _ => Done | None => Raises AttributeError end
  | Contains k => x = Bool (match held past k with Some _ => true | None => false end)
  | Length => exists keys, NoDup keys /\ (forall k, In k keys <-> held past k <> None) /\ x = Number_ (List.length keys)
  end.

(** the items, with the keyword arguments over them, the last of equal ones counting *)
Definition overlaid (e : dict key val) (kwargs : list (string * val)) (k : key) : option val :=
  match find (fun kv => key_eqb (Name (fst kv)) k) (rev kwargs) with Some kv => Some (snd kv) | None => dget key_eqb e k end.

(** ** graphs of objects *)
Definition inside (o : obj) : list val := match o with ODict _ e => map snd e | OList l => l end.
(** every reference leads somewhere *)
Definition leads (h : heap) (v : val) : Prop := match v with At _ => True | Ref p => p < List.length h end.
Definition closed (h : heap) : Prop := forall p o v, nth_error h p = Some o -> In v (inside o) -> leads h v.
(** the objects one can get to *)
Inductive reach (h : heap) : val -> nat -> Prop :=
| reach_here p : reach h (Ref p) p
| reach_on p o v q : nth_error h p = Some o -> In v (inside o) -> reach h v q -> reach h (Ref p) q.
(** nothing contains itself: going inside ends after [n] levels *)
Fixpoint depth (n : nat) (h : heap) (v : val) : Prop :=
  match v with
  | At _ => True
  | Ref p => match n with O => False | S m => forall o x, nth_error h p = Some o -> In x (inside o) -> depth m h x end
  end.
(** the same with other objects in the places of the objects *)
Definition moved (f : nat -> nat) (v : val) : val := match v with At z => At z | Ref p => Ref (f p) end.
Definition moved_obj (f : nat -> nat) (o : obj) : obj :=
  match o with ODict w e => ODict w (map (fun kv => (fst kv, moved f (snd kv))) e) | OList l => OList (map (moved f) l) end.

(** ** the contents of a value, as a tree *)
Inductive tree : Type := TAt (z : Z) | TList (l : list tree) | TDict (wrapped : bool) (e : list (key * tree)).
Fixpoint is_tree (h : heap) (t : tree) (v : val) {struct t} : Prop :=
  match t with
  | TAt z => v = At z
  | TList ts => exists p l, v = Ref p /\ nth_error h p = Some (OList l) /\
      (fix all ts l := match ts, l with [], [] => True | t :: ts, x :: l => is_tree h t x /\ all ts l | _, _ => False end) ts l
  | TDict w ts => exists p e, v = Ref p /\ nth_error h p = Some (ODict w e) /\
      (fix all (ts : list (key * tree)) (e : dict key val) :=
         match ts, e with [], [] => True | (k, t) :: ts, (k', x) :: e => k = k' /\ is_tree h t x /\ all ts e | _, _ => False end) ts e
  end.
(** without the difference between dict and DictObject *)
Fixpoint plain (t : tree) : tree :=
  match t with TAt z => TAt z | TList l => TList (map plain l) | TDict _ e => TDict false (map (fun kt => (fst kt, plain (snd kt))) e) end.
(** every dictionary is a DictObject *)
Fixpoint objects (t : tree) : Prop :=
  match t with
  | TAt _ => True
  | TList l => (fix all l := match l with [] => True | t :: r => objects t /\ all r end) l
  | TDict w e => w = true /\ (fix all (e : list (key * tree)) := match e with [] => True | (_, t) :: r => objects t /\ all r end) e
  end.
(** what is inside of DictObjects is in order already *)
Fixpoint objects_done (t : tree) : Prop :=
  match t with
  | TAt _ => True
  | TList l => (fix all l := match l with [] => True | t :: r => objects_done t /\ all r end) l
  | TDict w e => if w then objects t else (fix all (e : list (key * tree)) := match e with [] => True | (_, t) :: r => objects_done t /\ all r end) e
  end.
Fixpoint height (t : tree) : nat :=
  match t with TAt _ => 0 | TList l => S (list_max (map height l)) | TDict _ e => S (list_max (map (fun kt => height (snd kt)) e)) end.
