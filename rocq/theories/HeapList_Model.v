(** What a Heap inherits: it is a collections.UserList (satella/coding/structures/heaps/base.py:10), so the methods of a list are there, too. *)
From Coq Require Import List Bool Arith.
From Verif Require Import Prelude Heapq_Model Heap_Model.
Import ListNotations.

Section HeapList.
  Context {A : Type}.
  Variables (lt eqb : A -> A -> bool).

  (** list.sort is stable; this is a stable sort. *)
  Fixpoint insert_sorted (x : A) (l : list A) : list A := match l with [] => [x] | y :: t => if lt y x then y :: insert_sorted x t else x :: l end.
  Definition py_sort (l : list A) : list A := fold_right insert_sorted [] l.

  Inductive list_op :=
  | LHeap (o : heap_op A)                    (* a method of Heap itself *)
  | LAppend (x : A) | LInsert (i : nat) (x : A) | LExtend (xs : list A)       (* extend and += *)
  | LSetItem (i : nat) (x : A) | LDelItem (i : nat) | LRemove (x : A) | LReverse | LSort | LClear
  | LAdd (xs : list A) | LMul (n : nat) | LSlice (i j : nat)                 (* h + xs, h * n, h[i:j]: go on with the new Heap *)
  | LGetItem (i : nat) | LCount (x : A) | LEq (other : list A).              (* h[i], h.count(x), h == other: the data of another Heap *)

  Fixpoint data_eq (a b : list A) : bool := match a, b with [], [] => true | x :: a', y :: b' => eqb x y && data_eq a' b' | _, _ => false end.

  (** UserList's methods work on self.data; those that give a new list call self.__class__, hence Heap.__init__, base.py 20-22. Heap.__eq__: base.py 120-121.
      list.insert puts the element at the end if there is no such index. *)
  Definition list_step (data : list A) (o : list_op) : list A * heap_out A :=
    match o with
    | LHeap o => heap_step lt eqb data o
    | LAppend x => (data ++ [x], ONone)
    | LInsert i x => (firstn i data ++ x :: skipn i data, ONone)
    | LExtend xs => (data ++ xs, ONone)
    | LSetItem i x => if i <? length data then (upd data i x, ONone) else (data, ORaise IndexError)
    | LDelItem i => if i <? length data then (firstn i data ++ skipn (S i) data, ONone) else (data, ORaise IndexError)
    | LRemove x => if memb eqb x data then (remove_first eqb x data, ONone) else (data, ORaise ValueError)
    | LReverse => (rev data, ONone)
    | LSort => (py_sort data, ONone)
    | LClear => ([], ONone)
    | LAdd xs => (heap_init lt (data ++ xs), ONone)
    | LMul n => (heap_init lt (concat (repeat data n)), ONone)
    | LSlice i j => (heap_init lt (firstn (j - i) (skipn i data)), ONone)
    | LGetItem i => (data, match nth_error data i with Some x => OItem x | None => ORaise IndexError end)
    | LCount x => (data, ONat (length (filter (eqb x) data)))
    | LEq other => (data, OBool (data_eq data other))
    end.
  Fixpoint list_run (data : list A) (ops : list list_op) : list (heap_out A) * list A :=
    match ops with [] => ([], data) | o :: t => let (d, out) := list_step data o in let (outs, d') := list_run d t in (out :: outs, d') end.
End HeapList.
Arguments list_op : clear implicits.
