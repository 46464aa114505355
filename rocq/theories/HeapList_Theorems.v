(** C95: a Heap used as the list it also is. *)
From Coq Require Import List Bool Arith Permutation Lia.
From Verif Require Import Prelude Order_Spec Heap_Model Heap_Spec Heap_Theorems HeapList_Model HeapList_Spec HeapList_Proofs.
Import ListNotations.

(** Calls of Heap's own methods, and of all methods of lists but those that put or take elements at places they choose, are answered as a bag answers. *)
Theorem C95_list_partial : forall (A : Type) (lt eqb : A -> A -> bool), total_preorder lt -> eqb_ok eqb ->
  forall xs ops, forallb (fun o => negb (misplaces o)) ops = true ->
  exists final, list_bag_session lt xs ops (fst (list_run lt eqb (heap_init lt xs) ops)) final /\
                Permutation final (snd (list_run lt eqb (heap_init lt xs) ops)).
Proof. intros A lt eqb H1 H2 xs ops H. now apply session_ok. Qed.
Print Assumptions C95_list_partial.
(** The others leave the right elements, not necessarily in a right order. *)
Theorem C95_misplacing : forall (A : Type) (lt eqb : A -> A -> bool), eqb_ok eqb ->
  forall data o, misplaces o = true -> let '(data', out) := list_step lt eqb data o in list_bag_step lt data o out data'.
Proof. intros A lt eqb H data o M. apply (misplaced_ok lt eqb H data data o (Permutation_refl _) M). Qed.
Print Assumptions C95_misplacing.
(** From any state whatever, sorting, copying, push_many, filter_map, +, * and slices give a heap that is right again. *)
Theorem C95_rebuilt : forall (A : Type) (lt eqb : A -> A -> bool), total_preorder lt -> eqb_ok eqb ->
  forall data o ops, rebuilds o = true -> forallb (fun o => negb (misplaces o)) ops = true ->
  exists final, list_bag_session lt data (o :: ops) (fst (list_run lt eqb data (o :: ops))) final /\
                Permutation final (snd (list_run lt eqb data (o :: ops))).
Proof. intros A lt eqb H1 H2 data o ops R S. now apply rebuilt_ok. Qed.
Print Assumptions C95_rebuilt.

(** Sorting is what it should be. *)
Theorem C95_sort : forall (A : Type) (lt eqb : A -> A -> bool), total_preorder lt -> eqb_ok eqb ->
  forall data, ascending lt (fst (list_step lt eqb data LSort)) /\ Permutation (fst (list_step lt eqb data LSort)) data.
Proof. intros A lt eqb H1 H2 data. split; [now apply sort_asc|apply sort_perm]. Qed.
Print Assumptions C95_sort.

(** The full statement is false: every misplacing method, called once on a heap that is right, can make the next pop return something that is not the smallest element. *)
Definition C95_full_statement : Prop := forall (A : Type) (lt eqb : A -> A -> bool), total_preorder lt -> eqb_ok eqb ->
  forall xs ops, exists final, list_bag_session lt xs ops (fst (list_run lt eqb (heap_init lt xs) ops)) final.
Theorem C95_each_refuted :
  let pops_after o xs := fst (list_run Nat.ltb Nat.eqb (heap_init Nat.ltb xs) [o; LHeap HPop]) in
  pops_after (LAppend 1) [5; 6] = [ONone; OItem 5] /\
  pops_after (LInsert 0 9) [5; 6] = [ONone; OItem 9] /\
  pops_after (LExtend [1]) [5; 6] = [ONone; OItem 5] /\
  pops_after (LSetItem 0 9) [5; 6] = [ONone; OItem 9] /\
  pops_after (LDelItem 0) [1; 6; 2] = [ONone; OItem 6] /\
  pops_after (LRemove 1) [1; 6; 2] = [ONone; OItem 6] /\
  pops_after LReverse [5; 6] = [ONone; OItem 6].
Proof. vm_compute. repeat split. Qed.
Print Assumptions C95_each_refuted.
Theorem C95_full_statement_refuted : ~ C95_full_statement.
Proof.
  intro H. destruct (H nat Nat.ltb Nat.eqb nat_lt_total_preorder nat_eqb_ok [5; 6] [LAppend 1; LHeap HPop]) as (final & S). vm_compute in S.
  inversion S as [|? ? ? b1 ? ? ? S1 S2]; subst. inversion S2 as [|? ? ? b2 ? ? ? S3 S4]; subst.
  assert (P : Permutation b1 [1; 5; 6]) by (inversion S1; subst; assumption).
  assert (B : bag_step Nat.ltb b1 HPop (OItem 5) b2) by (inversion S3; subst; assumption).
  assert (M : minimum_of Nat.ltb 5 b1) by (inversion B; subst; assumption).
  assert (I : In 1 b1) by (rewrite P; left; reflexivity). specialize (M 1 I). discriminate.
Qed.
Print Assumptions C95_full_statement_refuted.

(** Equality is that of the lists of data: equal heaps hold the same elements ... *)
Theorem C95_eq_partial : forall (A : Type) (eqb : A -> A -> bool), eqb_ok eqb -> forall a b : list A, data_eq eqb a b = true -> Permutation a b.
Proof. intros A eqb H a b E. apply data_eq_iff in E; auto. now subst. Qed.
Print Assumptions C95_eq_partial.
Theorem C95_eq_exact : forall (A : Type) (lt eqb : A -> A -> bool), eqb_ok eqb -> forall a b : list A,
  snd (list_step lt eqb a (LEq b)) = OBool true <-> a = b.
Proof.
  intros A lt eqb H a b. cbn. rewrite <- (data_eq_iff eqb H a b). destruct (data_eq eqb a b); split; congruence.
Qed.
Print Assumptions C95_eq_exact.
(** ... but heaps with the same elements, and the same answers to all pops, need not be equal. *)
Definition C95_eq_full_statement : Prop := forall (ops1 ops2 : list (heap_op nat)),
  Permutation (snd (heap_run Nat.ltb Nat.eqb [] ops1)) (snd (heap_run Nat.ltb Nat.eqb [] ops2)) ->
  data_eq Nat.eqb (snd (heap_run Nat.ltb Nat.eqb [] ops1)) (snd (heap_run Nat.ltb Nat.eqb [] ops2)) = true.
Theorem C95_eq_full_statement_refuted : ~ C95_eq_full_statement.
Proof.
  intro H. specialize (H [HPush 1; HPush 2; HPush 3] [HPush 1; HPush 3; HPush 2]). vm_compute in H.
  discriminate (H (perm_skip 1 (perm_swap 3 2 []))).
Qed.
Print Assumptions C95_eq_full_statement_refuted.

Example C95_case : forallb (fun o => negb (misplaces o)) [LAdd [1; 9]; LHeap HPop; LSort; LMul 2; LGetItem 0; LSlice 0 3; LHeap HPop; LCount 3] = true /\
  fst (list_run Nat.ltb Nat.eqb (heap_init Nat.ltb [4; 3]) [LAdd [1; 9]; LHeap HPop; LSort; LMul 2; LGetItem 0; LSlice 0 3; LHeap HPop; LCount 3])
  = [ONone; OItem 1; ONone; ONone; OItem 3; ONone; OItem 3; ONat 1].
Proof. vm_compute. split; reflexivity. Qed.
