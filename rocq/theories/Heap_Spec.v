(** Specification of a heap: a bag (multiset) of elements, written as a list of
    which only the contents up to permutation matter.  Shares with the model
    only the vocabulary of calls ([heap_op]) and answers ([heap_out]). *)
From Verif Require Import Prelude Order_Spec Heap_Model.

Section BagSpec.
  Context {A : Type}.
  Variable lt : A -> A -> bool.

  (** [bag_step b o out b']: on a bag with contents [b] the call [o] may answer
      [out] and leave contents [b']. *)
  Inductive bag_step (b : list A) : heap_op A -> heap_out A -> list A -> Prop :=
  | bag_push x b' : Permutation b' (x :: b) -> bag_step b (HPush x) ONone b'
  | bag_push_many xs b' : Permutation b' (xs ++ b) -> bag_step b (HPushMany xs) ONone b'
  | bag_pop_empty b' : b = [] -> b' = [] -> bag_step b HPop (ORaise IndexError) b'
  | bag_pop m b' : Permutation b (m :: b') -> minimum_of lt m b -> bag_step b HPop (OItem m) b'
  | bag_pop_item x b' : Permutation b (x :: b') -> bag_step b (HPopItem x) (OItem x) b'
  | bag_pop_item_absent x b' :
      ~ In x b -> Permutation b' b -> bag_step b (HPopItem x) (ORaise ValueError) b'
  | bag_filter_map f g b' :
      Permutation b' (map (match g with Some m => m | None => fun x => x end)
                          (filter (match f with Some p => p | None => fun _ => true end) b)) ->
      bag_step b (HFilterMap f g) ONone b'
  | bag_asc l b' : Permutation l b -> ascending lt l -> Permutation b' b ->
                bag_step b HIterAscending (OItems l) b'
  | bag_desc l b' : Permutation l b -> ascending lt (rev l) -> Permutation b' b ->
                 bag_step b HIterDescending (OItems l) b'
  | bag_contains x v b' : (v = true <-> In x b) -> Permutation b' b ->
                 bag_step b (HContains x) (OBool v) b'
  | bag_len b' : Permutation b' b -> bag_step b HLen (ONat (length b)) b'
  | bag_bool v b' : (v = true <-> b <> []) -> Permutation b' b -> bag_step b HBool (OBool v) b'
  | bag_iter l b' : Permutation l b -> Permutation b' b -> bag_step b HIter (OItems l) b'
  | bag_copy b' : Permutation b' b -> bag_step b HCopy ONone b'.

  (** a whole session of calls [ops] answered by [outs] *)
  Inductive bag_session : list A -> list (heap_op A) -> list (heap_out A) -> list A -> Prop :=
  | bs_nil b : bag_session b [] [] b
  | bs_cons b o out b1 ops outs b2 :
      bag_step b o out b1 -> bag_session b1 ops outs b2 ->
      bag_session b (o :: ops) (out :: outs) b2.

  (** [n] successive pops: the calls *)
  Fixpoint pops (n : nat) : list (heap_op A) :=
    match n with O => [] | S m => HPop :: pops m end.

  (** the same for a set of elements: pushing a member changes nothing *)
  Inductive set_step (b : list A) : heap_op A -> heap_out A -> list A -> Prop :=
  | set_push_new x b' : ~ In x b -> Permutation b' (x :: b) -> set_step b (HPush x) ONone b'
  | set_push_old x b' : In x b -> Permutation b' b -> set_step b (HPush x) ONone b'
  | set_push_many xs b' :
      NoDup b' -> (forall x, In x b' <-> In x xs \/ In x b) -> set_step b (HPushMany xs) ONone b'
  | set_pop_empty b' : b = [] -> b' = [] -> set_step b HPop (ORaise IndexError) b'
  | set_pop m b' : Permutation b (m :: b') -> minimum_of lt m b -> set_step b HPop (OItem m) b'
  | set_pop_item x b' : Permutation b (x :: b') -> set_step b (HPopItem x) (OItem x) b'
  | set_pop_item_absent x b' :
      ~ In x b -> Permutation b' b -> set_step b (HPopItem x) (ORaise ValueError) b'
  | set_filter_map f g b' :
      NoDup b' ->
      (forall y, In y b' <->
         exists x, In x b /\ (match f with Some p => p x = true | None => True end) /\
                   y = match g with Some m => m x | None => x end) ->
      set_step b (HFilterMap f g) ONone b'
  | set_asc l b' : Permutation l b -> ascending lt l -> Permutation b' b ->
                set_step b HIterAscending (OItems l) b'
  | set_desc l b' : Permutation l b -> ascending lt (rev l) -> Permutation b' b ->
                 set_step b HIterDescending (OItems l) b'
  | set_contains x v b' : (v = true <-> In x b) -> Permutation b' b ->
                 set_step b (HContains x) (OBool v) b'
  | set_len b' : Permutation b' b -> set_step b HLen (ONat (length b)) b'
  | set_bool v b' : (v = true <-> b <> []) -> Permutation b' b -> set_step b HBool (OBool v) b'
  | set_iter l b' : Permutation l b -> Permutation b' b -> set_step b HIter (OItems l) b'
  | set_copy b' : Permutation b' b -> set_step b HCopy ONone b'.

  Inductive set_session : list A -> list (heap_op A) -> list (heap_out A) -> list A -> Prop :=
  | ss_nil b : set_session b [] [] b
  | ss_cons b o out b1 ops outs b2 :
      NoDup b1 -> set_step b o out b1 -> set_session b1 ops outs b2 ->
      set_session b (o :: ops) (out :: outs) b2.

  (** calls for which SetHeap keeps its promise: everything except pop_item
      (inherited, forgets the set) and filter_map with a mapping function *)
  Definition set_safe_op (o : heap_op A) : bool :=
    match o with
    | HPopItem _ => false
    | HFilterMap _ (Some _) => false
    | _ => true
    end.
End BagSpec.
