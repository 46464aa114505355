(** IteratorListAdapter (satella/coding/sequences/iterators.py:646-699) and update_attr_if_none (satella/coding/misc.py:200-228). *)
From Coq Require Import ZArith.
From Verif Require Import Prelude PySeq_Model.
Set Implicit Arguments.

Section Adapter.
  Variable A : Type.
  Variable eqb : A -> A -> bool.
  (** sequences/iterators.py:661-666. The iterator is given by the elements it has left; it is not used by anyone else and does not raise.
      [list_]: None until unfolded *)
  Record adapter := { iterator : list A; list_ : option (list A); pointer : nat }.
  Definition make (l : list A) : adapter := {| iterator := l; list_ := None; pointer := 0 |}.
  (** sequences/iterators.py:682-687 *)
  Definition unfold_ (s : adapter) : adapter * list A :=
    match list_ s with
    | Some l => (s, l)
    | None => ({| iterator := []; list_ := Some (iterator s); pointer := 0 |}, iterator s)
    end.
  (** Loop: for x in adapter, to the end *)
  Inductive op := Next | Item (i : Z) | Contains (x : A) | Len | Loop.
  Inductive answer := Elem (a : A) | Exc (e : exn) | Is (b : bool) | Count (n : nat) | Elems (l : list A).
  Definition step (s : adapter) (o : op) : adapter * answer :=
    match o with
    | Next =>                                                             (* sequences/iterators.py:674-680 *)
      match list_ s with
      | Some l => ({| iterator := iterator s; list_ := Some l; pointer := S (pointer s) |},
                   match nth_error l (pointer s) with Some a => Elem a | None => Exc StopIteration end)
      | None => match iterator s with
                | a :: t => ({| iterator := t; list_ := None; pointer := pointer s |}, Elem a)
                | [] => (s, Exc StopIteration)
                end
      end
    | Item i => let (s', l) := unfold_ s in                               (* sequences/iterators.py:689-691 *)
                (s', match py_index l i with Some a => Elem a | None => Exc IndexError end)
    | Contains x => let (s', l) := unfold_ s in (s', Is (memb eqb x l))   (* sequences/iterators.py:693-695 *)
    | Len => let (s', l) := unfold_ s in (s', Count (length l))           (* sequences/iterators.py:697-699 *)
    | Loop =>                                                             (* sequences/iterators.py:668-672 *)
      match list_ s with
      | Some l => (s, Elems l)
      | None => ({| iterator := []; list_ := None; pointer := pointer s |}, Elems (iterator s))
      end
    end.
  Fixpoint run (s : adapter) (os : list op) : list answer :=
    match os with [] => [] | o :: t => let (s', a) := step s o in a :: run s' t end.
End Adapter.

Section UpdateAttr.
  Variable V : Type.
  (** What reading the attribute gives (None is Python's None), and what each setattr does: an attribute that is set normally, or a
      property whose setter (or the lack of one) raises. *)
  Record obj := { reads : res (option V); setter : option V -> nat -> option exn }.
  (** what was done to the object: the values given to setattr, whether it took them *)
  Definition log := list (option V * option exn).
  Definition set_attr (o : obj) (v : option V) (l : log) : log * res unit :=
    let e := setter o v (length l) in (l ++ [(v, e)], match e with None => Ok tt | Some e => Err e end).
  Definition is_attribute_error (e : exn) : bool := match e with AttributeError => true | _ => false end.
  (** coding/misc.py:216-228 *)
  Definition update_attr_if_none (o : obj) (v : option V) (on_attribute_error if_value_is_not_none : bool) : log * res unit :=
    if if_value_is_not_none then
      match v with Some _ => set_attr o v [] | None => ([], Ok tt) end
    else
      let '(l, r) := match reads o with
                     | Ok (Some _) => ([], Ok tt)
                     | Ok None => set_attr o v []
                     | Err e => ([], Err e)
                     end in
      match r with
      | Ok _ => (l, Ok tt)
      | Err e => if is_attribute_error e then
                   if on_attribute_error then set_attr o v l else (l, Err e)
                 else (l, Err e)
      end.
End UpdateAttr.
Arguments Next {A}. Arguments Item {A}. Arguments Len {A}. Arguments Loop {A}.
