(** C01, C02: theorems about Heap and SetHeap. *)
From Verif Require Import Prelude Order_Spec Heap_Model Heap_Spec Heap_Proofs.

(** C01. Every session on a Heap built from any iterable [xs] answers exactly as
    a bag of elements does, and the heap finally holds exactly the bag. *)
Theorem C01_heap_is_a_bag :
  forall (A : Type) (lt eqb : A -> A -> bool),
    total_preorder lt -> eqb_ok eqb ->
    forall (xs : list A) (ops : list (heap_op A)),
    exists final,
      bag_session lt xs ops (fst (heap_run lt eqb (heap_init lt xs) ops)) final /\
      Permutation final (snd (heap_run lt eqb (heap_init lt xs) ops)).
Proof. exact @heap_session_refines. Qed.
Print Assumptions C01_heap_is_a_bag.

(** C01. Popping everything sorts: [length xs] pops return a sorted permutation
    of the input and leave the heap empty. *)
Theorem C01_heap_sorts :
  forall (A : Type) (lt eqb : A -> A -> bool),
    total_preorder lt -> eqb_ok eqb ->
    forall xs : list A,
    exists l,
      fst (heap_run lt eqb (heap_init lt xs) (pops (length xs))) = map (fun x => OItem x) l /\
      Permutation l xs /\ ascending lt l /\
      snd (heap_run lt eqb (heap_init lt xs) (pops (length xs))) = [].
Proof. exact @heap_sorts. Qed.
Print Assumptions C01_heap_sorts.

(** C02, full statement (false, see below): for every constructor input and all
    calls, a SetHeap session answers as the set of the input's elements does. *)
Definition C02_full_statement : Prop :=
  forall (A : Type) (lt eqb : A -> A -> bool),
    total_preorder lt -> eqb_ok eqb ->
    forall (xs : list A) (ops : list (heap_op A)),
    exists start final,
      NoDup start /\ (forall x, In x start <-> In x xs) /\
      set_session lt start ops (fst (sh_run lt eqb (sh_init lt eqb xs) ops)) final /\
      Permutation final (sh_data (snd (sh_run lt eqb (sh_init lt eqb xs) ops))).

(** C02, proved part: missing are constructor inputs with duplicates, pop_item
    and filter_map with a mapping function. *)
Theorem C02_setheap_is_a_set_partial :
  forall (A : Type) (lt eqb : A -> A -> bool),
    total_preorder lt -> eqb_ok eqb ->
    forall (xs : list A) (ops : list (heap_op A)),
      NoDup xs -> forallb set_safe_op ops = true ->
    exists final,
      set_session lt xs ops (fst (sh_run lt eqb (sh_init lt eqb xs) ops)) final /\
      Permutation final (sh_data (snd (sh_run lt eqb (sh_init lt eqb xs) ops))).
Proof. exact @setheap_session_refines. Qed.
Print Assumptions C02_setheap_is_a_set_partial.

(** ** Hypotheses are met, and the models run *)
Example nat_lt_total_preorder : total_preorder Nat.ltb.
Proof.
  split.
  - intros a b H. apply Nat.ltb_lt in H. apply Nat.ltb_ge. lia.
  - intros a b c H1 H2. apply Nat.ltb_ge in H1. apply Nat.ltb_ge in H2. apply Nat.ltb_ge. lia.
Qed.
Example nat_eqb_ok : eqb_ok Nat.eqb.
Proof. intros x y. apply Nat.eqb_eq. Qed.

Example C01_example :
  fst (heap_run Nat.ltb Nat.eqb (heap_init Nat.ltb [5;3;9;3])
         [HPush 4; HPop; HPop; HContains 3; HPopItem 9; HIterAscending; HPop; HPop; HPop])
  = [ONone; OItem 3; OItem 3; OBool false; OItem 9; OItems [4;5]; OItem 4; OItem 5; ORaise IndexError].
Proof. vm_compute. reflexivity. Qed.

Example C02_example :
  NoDup [5;3;9] /\
  forallb set_safe_op [HPush 3; HPush 4; HPop; HContains 3; HPush 3; HLen] = true /\
  fst (sh_run Nat.ltb Nat.eqb (sh_init Nat.ltb Nat.eqb [5;3;9])
         [HPush 3; HPush 4; HPop; HContains 3; HPush 3; HLen])
  = [ONone; ONone; OItem 3; OBool false; ONone; ONat 4].
Proof.
  split; [|split; vm_compute; reflexivity].
  repeat constructor; simpl; intuition discriminate.
Qed.

(** ** C02 is false of the code *)

(** A duplicate in the constructor input makes a later pop raise KeyError. *)
Theorem C02_setheap_duplicates_refuted :
  exists (xs : list nat) (ops : list (heap_op nat)),
    fst (sh_run Nat.ltb Nat.eqb (sh_init Nat.ltb Nat.eqb xs) ops) = [ONat 2; OItem 1; ORaise KeyError].
Proof. exists [1;1], [HLen; HPop; HPop]. vm_compute. reflexivity. Qed.
Print Assumptions C02_setheap_duplicates_refuted.

(** After pop_item the element is still reported as present and can never be
    pushed again. *)
Theorem C02_setheap_pop_item_refuted :
  exists (xs : list nat) (ops : list (heap_op nat)),
    NoDup xs /\ ops = [HPopItem 1; HContains 1; HPush 1; HIterAscending] /\
    fst (sh_run Nat.ltb Nat.eqb (sh_init Nat.ltb Nat.eqb xs) ops)
      = [OItem 1; OBool true; ONone; OItems [2]].
Proof.
  exists [1;2], [HPopItem 1; HContains 1; HPush 1; HIterAscending].
  split; [repeat constructor; simpl; intuition discriminate|].
  split; auto.
Qed.
Print Assumptions C02_setheap_pop_item_refuted.

(** A mapping filter_map can merge two elements; the heap then holds both. *)
Theorem C02_setheap_filter_map_refuted :
  exists (xs : list nat) (ops : list (heap_op nat)),
    NoDup xs /\ ops = [HFilterMap None (Some (fun _ => 7)); HIterAscending; HPop; HPop] /\
    fst (sh_run Nat.ltb Nat.eqb (sh_init Nat.ltb Nat.eqb xs) ops)
      = [ONone; OItems [7;7]; OItem 7; ORaise KeyError].
Proof.
  exists [1;2], [HFilterMap None (Some (fun _ => 7)); HIterAscending; HPop; HPop].
  split; [repeat constructor; simpl; intuition discriminate|].
  split; auto.
Qed.
Print Assumptions C02_setheap_filter_map_refuted.

Theorem C02_full_statement_refuted : ~ C02_full_statement.
Proof.
  intros H.
  destruct (H nat Nat.ltb Nat.eqb nat_lt_total_preorder nat_eqb_ok [1;1] [HLen; HPop; HPop])
    as (start & final & ND & Hin & Hs & _).
  vm_compute in Hs.
  inversion Hs as [|? ? ? b1 ? ? ? ND1 St1 Hs1]; subst.
  inversion Hs1 as [|? ? ? b2 ? ? ? ND2 St2 Hs2]; subst.
  inversion Hs2 as [|? ? ? b3 ? ? ? ND3 St3 Hs3]; subst.
  inversion St3.
Qed.
Print Assumptions C02_full_statement_refuted.
