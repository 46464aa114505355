(** /repo/satella/coding/structures/heaps/base.py: Heap and SetHeap. *)
From Verif Require Import Prelude Heapq_Model.

Set Implicit Arguments.

Section Heap.
  Context {A : Type}.
  Variable lt : A -> A -> bool.      (* Python's [<] *)
  Variable eqb : A -> A -> bool.     (* Python's [==] *)

  (** ** Heap: the state is [self.data] *)

  (** base.py 20-22, __init__ *)
  Definition heap_init (from_list : list A) : list A := heapify lt from_list.

  (** base.py 24-35, push_many *)
  Definition heap_push_many (data : list A) (items : list A) : list A :=
    heapify lt (data ++ items).

  (** base.py 37-45, pop_item: list.remove raises ValueError when absent *)
  Definition heap_pop_item (data : list A) (item : A) : list A * res A :=
    if memb eqb item data
    then (heapify lt (remove_first eqb item data), Ok item)
    else (data, Err ValueError).

  (** base.py 47-64, push (the deprecated multi-argument form builds a tuple
      first, so it is the same operation on tuples) *)
  Definition heap_push (data : list A) (item : A) : list A := heappush lt data item.

  (** base.py 75-81, pop *)
  Definition heap_pop (data : list A) : list A * res A :=
    match heappop lt data with
    | None => (data, Err IndexError)
    | Some (x, d) => (d, Ok x)
    end.

  (** base.py 83-94, filter_map; both functions are optional *)
  Definition heap_filter_map (data : list A) (f : option (A -> bool)) (g : option (A -> A))
    : list A :=
    let h := match f with None => data | Some p => filter p data end in
    let h := match g with None => h | Some m => map m h end in
    heapify lt h.

  (** base.py 96-100, __bool__ ; 123-124 __len__ ; 132-133 __contains__ ; 72-73 __iter__ *)
  Definition heap_bool (data : list A) : bool := 0 <? length data.
  Definition heap_len (data : list A) : nat := length data.
  Definition heap_contains (data : list A) (x : A) : bool := memb eqb x data.
  Definition heap_iter (data : list A) : list A := data.

  (** base.py 69-70, __copy__ (Heap and SetHeap): rebuild from a copy of the list *)
  Definition heap_copy (data : list A) : list A := heap_init data.

  (** base.py 102-109, iter_ascending: pop from a copy until it is empty.  The
      fuel is the initial length; running out of it stops early. *)
  Fixpoint heap_drain (fuel : nat) (heap : list A) : list A :=
    match fuel with
    | O => []
    | S f => match heappop lt heap with
             | None => []
             | Some (x, heap') => x :: heap_drain f heap'
             end
    end.
  Definition heap_iter_ascending (data : list A) : list A := heap_drain (length data) data.
  (** base.py 111-118 *)
  Definition heap_iter_descending (data : list A) : list A := rev (heap_iter_ascending data).

  (** One call on a Heap object. *)
  Inductive heap_op :=
  | HPush (x : A)
  | HPushMany (xs : list A)
  | HPop
  | HPopItem (x : A)
  | HFilterMap (f : option (A -> bool)) (g : option (A -> A))
  | HIterAscending
  | HIterDescending
  | HContains (x : A)
  | HLen
  | HBool
  | HIter
  | HCopy.   (* copy.copy(heap), continue working on the copy *)

  Inductive heap_out :=
  | ONone
  | OItem (x : A)
  | OItems (l : list A)
  | OBool (b : bool)
  | ONat (n : nat)
  | ORaise (e : exn).

  Definition out_of (r : res A) : heap_out :=
    match r with Ok x => OItem x | Err e => ORaise e end.

  Definition heap_step (data : list A) (o : heap_op) : list A * heap_out :=
    match o with
    | HPush x => (heap_push data x, ONone)
    | HPushMany xs => (heap_push_many data xs, ONone)
    | HPop => let (d, r) := heap_pop data in (d, out_of r)
    | HPopItem x => let (d, r) := heap_pop_item data x in (d, out_of r)
    | HFilterMap f g => (heap_filter_map data f g, ONone)
    | HIterAscending => (data, OItems (heap_iter_ascending data))
    | HIterDescending => (data, OItems (heap_iter_descending data))
    | HContains x => (data, OBool (heap_contains data x))
    | HLen => (data, ONat (heap_len data))
    | HBool => (data, OBool (heap_bool data))
    | HIter => (data, OItems (heap_iter data))
    | HCopy => (heap_copy data, ONone)
    end.

  (** A whole session: the outputs of the calls, and the final state. *)
  Fixpoint heap_run (data : list A) (ops : list heap_op) : list heap_out * list A :=
    match ops with
    | [] => ([], data)
    | o :: t => let (d, out) := heap_step data o in
                let (outs, d') := heap_run d t in (out :: outs, d')
    end.

  (** ** SetHeap (base.py 136-175): data plus the shadow [self.set] *)
  Record setheap := { sh_data : list A; sh_set : list A }.

  (** set(l) for a list; the order of a Python set is not observable here *)
  Definition mkset (l : list A) : list A :=
    fold_left (fun s x => if memb eqb x s then s else s ++ [x]) l [].

  (** base.py 155-157 *)
  Definition sh_init (from_list : list A) : setheap :=
    let d := heap_init from_list in {| sh_data := d; sh_set := mkset d |}.

  (** base.py 159-162 *)
  Definition sh_push (s : setheap) (x : A) : setheap :=
    if memb eqb x (sh_set s) then s
    else {| sh_data := heap_push (sh_data s) x; sh_set := sh_set s ++ [x] |}.

  (** base.py 148-153 *)
  Definition sh_push_many (s : setheap) (xs : list A) : setheap := fold_left sh_push xs s.

  (** base.py 164-167: the element leaves the heap first, then set.remove, which
      raises KeyError when the element is not in the set *)
  Definition sh_pop (s : setheap) : setheap * res A :=
    match heappop lt (sh_data s) with
    | None => (s, Err IndexError)
    | Some (x, d) =>
      if memb eqb x (sh_set s)
      then ({| sh_data := d; sh_set := remove_first eqb x (sh_set s) |}, Ok x)
      else ({| sh_data := d; sh_set := sh_set s |}, Err KeyError)
    end.

  (** inherited Heap.pop_item (base.py 37-45): does not touch the set *)
  Definition sh_pop_item (s : setheap) (x : A) : setheap * res A :=
    let (d, r) := heap_pop_item (sh_data s) x in
    ({| sh_data := d; sh_set := sh_set s |}, r).

  (** base.py 172-175 *)
  Definition sh_filter_map (s : setheap) (f : option (A -> bool)) (g : option (A -> A)) : setheap :=
    let d := heap_filter_map (sh_data s) f g in {| sh_data := d; sh_set := mkset d |}.

  (** base.py 169-170 *)
  Definition sh_contains (s : setheap) (x : A) : bool := memb eqb x (sh_set s).

  Definition sh_step (s : setheap) (o : heap_op) : setheap * heap_out :=
    match o with
    | HPush x => (sh_push s x, ONone)
    | HPushMany xs => (sh_push_many s xs, ONone)
    | HPop => let (d, r) := sh_pop s in (d, out_of r)
    | HPopItem x => let (d, r) := sh_pop_item s x in (d, out_of r)
    | HFilterMap f g => (sh_filter_map s f g, ONone)
    | HIterAscending => (s, OItems (heap_iter_ascending (sh_data s)))
    | HIterDescending => (s, OItems (heap_iter_descending (sh_data s)))
    | HContains x => (s, OBool (sh_contains s x))
    | HLen => (s, ONat (heap_len (sh_data s)))
    | HBool => (s, OBool (heap_bool (sh_data s)))
    | HIter => (s, OItems (heap_iter (sh_data s)))
    | HCopy => (sh_init (sh_data s), ONone)
    end.

  Fixpoint sh_run (s : setheap) (ops : list heap_op) : list heap_out * setheap :=
    match ops with
    | [] => ([], s)
    | o :: t => let (s1, out) := sh_step s o in
                let (outs, s') := sh_run s1 t in (out :: outs, s')
    end.
End Heap.
Arguments heap_op : clear implicits.
Arguments heap_out : clear implicits.
Arguments setheap : clear implicits.
