(** C05, C06: theorems about SortedList and Ranking. *)
From Verif Require Import Prelude Order_Spec SortedList_Model SortedList_Spec SortedList_Proofs.

(** C05. For every key function, initial content and call sequence, a
    SortedList answers as one list of elements that starts as a permutation of
    the input, is in key order before and after every call, and changes only as
    the calls say. *)
Theorem C05_sorted_list_is_sorted_and_complete :
  forall (A : Type) (ltA eqA : A -> A -> bool) (key : A -> Z),
    total_preorder ltA -> eqb_ok eqA ->
    forall (xs : list A) (ops : list (sl_op A)),
    exists start,
      Permutation xs start /\
      sl_session key start ops (fst (sl_run eqA key (sl_init ltA eqA key xs) ops))
        (sl_items (snd (sl_run eqA key (sl_init ltA eqA key xs) ops))).
Proof. exact @sorted_list_ok. Qed.
Print Assumptions C05_sorted_list_is_sorted_and_complete.

(** C06, full statement (false, see below): in every session the Ranking answers
    as the list of its objects in key order: the position reported for an
    object is one at which it sits, objects not held are reported as absent. *)
Definition C06_full_statement : Prop :=
  forall (A : Type) (ltA eqA : A -> A -> bool) (key : A -> Z),
    total_preorder ltA -> eqb_ok eqA ->
    forall (xs : list A) (ops : list (rk_op A)),
    exists start,
      Permutation xs start /\
      rk_session key start ops (fst (rk_run eqA key (rk_init ltA eqA key xs) ops))
        (sl_items (rk_list (snd (rk_run eqA key (rk_init ltA eqA key xs) ops)))).

(** C06, proved part: sessions in which calculate_ranking_for is only asked
    about objects held at that moment. *)
Theorem C06_ranking_positions_partial :
  forall (A : Type) (ltA eqA : A -> A -> bool) (key : A -> Z),
    total_preorder ltA -> eqb_ok eqA ->
    forall (xs : list A) (ops : list (rk_op A)),
      asks_only_ranked eqA xs ops = true ->
    exists start,
      Permutation xs start /\
      rk_session key start ops (fst (rk_run eqA key (rk_init ltA eqA key xs) ops))
        (sl_items (rk_list (snd (rk_run eqA key (rk_init ltA eqA key xs) ops)))).
Proof. exact @ranking_ok. Qed.
Print Assumptions C06_ranking_positions_partial.

(** ** Hypotheses are met, and the models run.  Keys: distance from 10. *)
Local Definition key10 (n : nat) : Z := Z.abs (Z.of_nat n - 10).
Example C05_example :
  total_preorder Nat.ltb /\ eqb_ok Nat.eqb /\
  fst (sl_run Nat.eqb key10 (sl_init Nat.ltb Nat.eqb key10 [1;9;30;11])
        [SLIter; SLAdd 12; SLExtend [10;8]; SLIter; SLIndex 12; SLRemove 9; SLGet (-1); SLPopLeft; SLPop; SLIter;
         SLSlice (Some 1%Z) (Some (-1)%Z); SLIndex 99])
  = [SOItems [9;11;1;30]; SOIndex 2; SONone; SOItems [10;9;11;8;12;1;30]; SOIndex 4; SONone;
     SOItem 30; SOItem 10; SOItem 30; SOItems [11;8;12;1]; SOItems [8;12]; SORaise ValueError].
Proof.
  split; [|split; [|vm_compute; reflexivity]].
  - split.
    + intros a b H. apply Nat.ltb_lt in H. apply Nat.ltb_ge. lia.
    + intros a b c H1 H2. apply Nat.ltb_ge in H1. apply Nat.ltb_ge in H2. apply Nat.ltb_ge. lia.
  - intros x y. apply Nat.eqb_eq.
Qed.

Example C06_example :
  asks_only_ranked Nat.eqb [1;9;30] [RKAdd 11; RKCalc 1; RKRemove 9; RKCalc 30; RKPosition 1; RKSorted] = true /\
  fst (rk_run Nat.eqb key10 (rk_init Nat.ltb Nat.eqb key10 [1;9;30])
        [RKAdd 11; RKCalc 1; RKRemove 9; RKCalc 30; RKPosition 1; RKSorted])
  = [SONone; SOIndex 2; SONone; SOIndex 2; SOIndex 1; SOItems [11;1;30]].
Proof. split; vm_compute; reflexivity. Qed.

(** ** C06 is false of the code: a removed object keeps its old position *)
Theorem C06_stale_position_refuted :
  fst (rk_run Nat.eqb key10 (rk_init Nat.ltb Nat.eqb key10 [1;9;30])
        [RKRemove 9; RKCalc 9; RKPosition 9; RKGet 0])
  = [SONone; SOIndex 0; SORaise ValueError; SOItem 1].
Proof. vm_compute. reflexivity. Qed.
Print Assumptions C06_stale_position_refuted.

Theorem C06_full_statement_refuted : ~ C06_full_statement.
Proof.
  intros H. destruct C05_example as (Ho & He & _).
  destruct (H nat Nat.ltb Nat.eqb key10 Ho He [9] [RKRemove 9; RKCalc 9]) as (start & P & Hs).
  apply Permutation_length_1_inv in P. subst start.
  vm_compute in Hs.
  inversion Hs as [|? ? ? l1 ? ? ? _ St1 Hs1]; subst.
  inversion Hs1 as [|? ? ? l2 ? ? ? _ St2 Hs2]; subst.
  inversion St2; subst. inversion St1; subst.
  match goal with E : [9] = ?a ++ 9 :: ?b |- _ => destruct a as [|? [|? ?]]; simpl in E; inversion E; subst end.
  simpl in *. discriminate.
Qed.
Print Assumptions C06_full_statement_refuted.
