(** A bag with the methods of a list that make sense for it. *)
From Coq Require Import List Bool Arith Permutation.
From Verif Require Import Prelude Order_Spec Heap_Model Heap_Spec HeapList_Model.
Import ListNotations.

Section ListBag.
  Context {A : Type}.
  Variable lt : A -> A -> bool.
  Inductive list_bag_step (b : list A) : list_op A -> heap_out A -> list A -> Prop :=
  | lb_heap o out b' : bag_step lt b o out b' -> list_bag_step b (LHeap o) out b'
  | lb_append x b' : Permutation b' (x :: b) -> list_bag_step b (LAppend x) ONone b'
  | lb_insert i x b' : Permutation b' (x :: b) -> list_bag_step b (LInsert i x) ONone b'
  | lb_extend xs b' : Permutation b' (xs ++ b) -> list_bag_step b (LExtend xs) ONone b'
  | lb_set_item i x old b1 b' : Permutation b (old :: b1) -> Permutation b' (x :: b1) -> list_bag_step b (LSetItem i x) ONone b'
  | lb_set_item_fails i x b' : length b <= i -> Permutation b' b -> list_bag_step b (LSetItem i x) (ORaise IndexError) b'
  | lb_del_item i old b' : Permutation b (old :: b') -> list_bag_step b (LDelItem i) ONone b'
  | lb_del_item_fails i b' : length b <= i -> Permutation b' b -> list_bag_step b (LDelItem i) (ORaise IndexError) b'
  | lb_remove x b' : Permutation b (x :: b') -> list_bag_step b (LRemove x) ONone b'
  | lb_remove_fails x b' : ~ In x b -> Permutation b' b -> list_bag_step b (LRemove x) (ORaise ValueError) b'
  | lb_reverse b' : Permutation b' b -> list_bag_step b LReverse ONone b'
  | lb_sort b' : Permutation b' b -> list_bag_step b LSort ONone b'
  | lb_clear : list_bag_step b LClear ONone []
  | lb_add xs b' : Permutation b' (xs ++ b) -> list_bag_step b (LAdd xs) ONone b'
  | lb_mul n b' : Permutation b' (concat (repeat b n)) -> list_bag_step b (LMul n) ONone b'
  | lb_slice i j l b' : Permutation b' (firstn (j - i) (skipn i l)) -> Permutation l b -> list_bag_step b (LSlice i j) ONone b'
  | lb_get_item i x b' : In x b -> Permutation b' b -> list_bag_step b (LGetItem i) (OItem x) b'
  | lb_get_item_fails i b' : length b <= i -> Permutation b' b -> list_bag_step b (LGetItem i) (ORaise IndexError) b'
  | lb_count x n b1 b2 b' : Permutation b (b1 ++ b2) -> Forall (eq x) b1 -> ~ In x b2 -> n = length b1 -> Permutation b' b -> list_bag_step b (LCount x) (ONat n) b'
  | lb_eq other b' v : (v = true -> Permutation other b) -> Permutation b' b -> list_bag_step b (LEq other) (OBool v) b'.

  Inductive list_bag_session : list A -> list (list_op A) -> list (heap_out A) -> list A -> Prop :=
  | lbs_nil b : list_bag_session b [] [] b
  | lbs_cons b o out b1 ops outs b2 : list_bag_step b o out b1 -> list_bag_session b1 ops outs b2 -> list_bag_session b (o :: ops) (out :: outs) b2.

  (** methods that put an element where it is told to be, or take one out without closing the gap in order *)
  Definition misplaces (o : list_op A) : bool :=
    match o with LAppend _ | LInsert _ _ | LExtend _ | LSetItem _ _ | LDelItem _ | LRemove _ | LReverse => true | _ => false end.
  (** methods that rebuild the heap, or do not need one *)
  Definition rebuilds (o : list_op A) : bool :=
    match o with LHeap (HPushMany _) | LHeap (HFilterMap _ _) | LHeap HCopy | LSort | LClear | LAdd _ | LMul _ | LSlice _ _ => true | _ => false end.
End ListBag.
