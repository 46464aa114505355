From Coq Require Import List Bool Arith Permutation Lia.
From Verif Require Import Prelude PreludeFacts Order_Spec Heapq_Model Heapq_Proofs Heap_Model Heap_Spec Heap_Proofs HeapList_Model HeapList_Spec.
Import ListNotations.

Section Proofs.
  Context {A : Type}.
  Variables (lt eqb : A -> A -> bool).
  Hypothesis Hord : total_preorder lt.
  Hypothesis Heqb : eqb_ok eqb.
  Local Notation heapFrom := (heapFrom lt).

  Lemma insert_perm x l : Permutation (insert_sorted lt x l) (x :: l).
  Proof. induction l as [|y t IH]; cbn; auto. destruct (lt y x); auto. rewrite IH. apply perm_swap. Qed.
  Lemma sort_perm l : Permutation (py_sort lt l) l.
  Proof. induction l as [|x t IH]; cbn; auto. rewrite insert_perm. auto. Qed.
  Lemma insert_asc x l : ascending lt l -> ascending lt (insert_sorted lt x l).
  Proof.
    induction l as [|y t IH]; intro H; cbn.
    - apply ascending_cons; auto. split; auto. intros z [].
    - pose proof H as H'. apply ascending_cons in H; auto. destruct H as [M S]. destruct (lt y x) eqn:E.
      + apply ascending_cons; auto. split; auto. intros z I. rewrite insert_perm in I. destruct I as [<-|I]; [now apply (proj1 Hord)|auto].
      + apply ascending_cons; auto. split; auto. intros z [<-|I]; auto. apply (proj2 Hord x y z); auto.
  Qed.
  Lemma sort_asc l : ascending lt (py_sort lt l).
  Proof. induction l as [|x t IH]; cbn; [apply ascending_nil|]. now apply insert_asc. Qed.

  Lemma ascending_heap l : ascending lt l -> heapFrom 0 l.
  Proof.
    intros H i Hi _ a b Ea Eb. apply (H (par i) i); auto. now apply par_lt.
  Qed.
  Lemma data_eq_iff a b : data_eq eqb a b = true <-> a = b.
  Proof.
    revert b. induction a as [|x a IH]; intros [|y b]; cbn; try (split; congruence). rewrite andb_true_iff, IH. split.
    - intros [E ->]. apply Heqb in E. congruence.
    - intros [= -> ->]. split; auto. now apply Heqb.
  Qed.
  Lemma count_split x (l : list A) : exists l1 l2, Permutation l (l1 ++ l2) /\ Forall (eq x) l1 /\ ~ In x l2 /\ length (filter (eqb x) l) = length l1.
  Proof.
    exists (filter (eqb x) l), (filter (fun y => negb (eqb x y)) l). split; [|split; [|split; auto]].
    - induction l as [|y t IH]; cbn; auto. destruct (eqb x y); cbn; auto. rewrite IH at 1. apply Permutation_middle.
    - apply Forall_forall. intros y I. apply filter_In in I. destruct I as [_ E]. now apply Heqb in E.
    - intro I. apply filter_In in I. destruct I as [_ E]. rewrite (proj2 (Heqb x x) eq_refl) in E. discriminate.
  Qed.
  Lemma repeat_perm (a b : list A) n : Permutation a b -> Permutation (concat (repeat a n)) (concat (repeat b n)).
  Proof. intro P. induction n as [|n IH]; cbn; auto. now apply Permutation_app. Qed.

  (** every step that is not misplacing *)
  Lemma step_ok b h o : Permutation b h -> (heapFrom 0 h /\ misplaces o = false \/ rebuilds o = true) ->
    let '(h', out) := list_step lt eqb h o in list_bag_step lt b o out h' /\ heapFrom 0 h'.
  Proof.
    intros P S. destruct o as [o|x|i x|xs|i x|i|x| | | |xs|n|i j|i|x|other]; cbn [list_step];
      try (destruct S as [[_ S]|S]; discriminate).
    - destruct S as [[HF _]|R].
      + pose proof (heap_step_ok Hord Heqb o P HF) as Q. destruct (heap_step lt eqb h o). destruct Q. split; auto. now constructor.
      + destruct o as [x|xs| |x|f g| | |x| | | | ]; try discriminate; cbn [heap_step].
        * destruct (heapify_spec Hord (h ++ xs)) as [P1 HF1]. split; auto. constructor. constructor.
          unfold heap_push_many. rewrite P1, P. apply Permutation_app_comm.
        * unfold heap_filter_map. match goal with |- context [heapify lt ?l] => destruct (heapify_spec Hord l) as [P1 HF1] end.
          split; auto. constructor. constructor. rewrite P1. rewrite filter_map_eq. apply Permutation_map. apply Permutation_filter. symmetry; auto.
        * unfold heap_copy, heap_init. destruct (heapify_spec Hord h) as [P1 HF1]. split; auto. constructor. constructor. rewrite P1. symmetry; auto.
    - split; [constructor; rewrite sort_perm; symmetry; auto|]. apply ascending_heap, sort_asc.
    - split; [constructor|]. apply ascending_heap, ascending_nil.
    - unfold heap_init. destruct (heapify_spec Hord (h ++ xs)) as [P1 HF1]. split; auto. constructor. rewrite P1, P. apply Permutation_app_comm.
    - unfold heap_init. destruct (heapify_spec Hord (concat (repeat h n))) as [P1 HF1]. split; auto. constructor. rewrite P1. apply repeat_perm. symmetry; auto.
    - unfold heap_init. destruct (heapify_spec Hord (firstn (j - i) (skipn i h))) as [P1 HF1]. split; auto. apply (lb_slice _ _ _ _ h); auto. symmetry; auto.
    - destruct S as [[HF _]|S]; [|discriminate]. split; auto. destruct (nth_error h i) as [x|] eqn:E.
      + constructor; [|symmetry; auto]. rewrite P. eapply nth_error_In; eauto.
      + apply nth_error_None in E. constructor; [|symmetry; auto]. rewrite (Permutation_length P). exact E.
    - destruct S as [[HF _]|S]; [|discriminate]. split; auto. destruct (count_split x h) as (l1 & l2 & Q & F & N & L).
      rewrite L. econstructor; eauto; [rewrite P; exact Q|symmetry; auto].
    - destruct S as [[HF _]|S]; [|discriminate]. split; auto. constructor; [|symmetry; auto]. intro E. apply data_eq_iff in E. subst. symmetry; auto.
  Qed.

  Lemma run_ok ops : forall b h, Permutation b h -> heapFrom 0 h -> forallb (fun o => negb (misplaces o)) ops = true ->
    exists b', list_bag_session lt b ops (fst (list_run lt eqb h ops)) b' /\ Permutation b' (snd (list_run lt eqb h ops)).
  Proof.
    induction ops as [|o t IH]; intros b h P HF S; cbn [list_run].
    - exists b. split; auto. constructor.
    - cbn in S. apply andb_true_iff in S. destruct S as [S1 S2]. apply negb_true_iff in S1.
      pose proof (step_ok b h o P (or_introl (conj HF S1))) as Q. destruct (list_step lt eqb h o) as [h1 out]. destruct Q as [Q HF1].
      destruct (IH h1 h1 (Permutation_refl _) HF1 S2) as (b' & R & PR). destruct (list_run lt eqb h1 t) as [outs h2]. cbn [fst snd] in *.
      exists b'. split; auto. econstructor; eauto.
  Qed.
  Lemma session_ok xs ops : forallb (fun o => negb (misplaces o)) ops = true ->
    exists b', list_bag_session lt xs ops (fst (list_run lt eqb (heap_init lt xs) ops)) b' /\ Permutation b' (snd (list_run lt eqb (heap_init lt xs) ops)).
  Proof. intro S. destruct (heapify_spec Hord xs) as [P HF]. apply run_ok; auto. unfold heap_init. symmetry; auto. Qed.

  Lemma rebuilt_ok data o ops : rebuilds o = true -> forallb (fun o => negb (misplaces o)) ops = true ->
    exists b', list_bag_session lt data (o :: ops) (fst (list_run lt eqb data (o :: ops))) b' /\ Permutation b' (snd (list_run lt eqb data (o :: ops))).
  Proof.
    intros R S. cbn [list_run]. pose proof (step_ok data data o (Permutation_refl _) (or_intror R)) as Q.
    destruct (list_step lt eqb data o) as [h1 out]. destruct Q as [Q HF1].
    destruct (run_ok ops h1 h1 (Permutation_refl _) HF1 S) as (b' & T & PR). destruct (list_run lt eqb h1 ops) as [outs h2]. cbn [fst snd] in *.
    exists b'. split; auto. econstructor; eauto.
  Qed.

  (** what misplacing methods leave: the right contents *)
  Lemma upd_perm (l : list A) i x : i < length l -> exists old l', Permutation l (old :: l') /\ Permutation (upd l i x) (x :: l').
  Proof.
    revert i. induction l as [|y t IH]; intros i L; [cbn in L; lia|]. destruct i as [|i]; cbn.
    - exists y, t. auto.
    - destruct (IH i) as (old & l' & P1 & P2); [cbn in L; lia|]. exists old, (y :: l'). split.
      + rewrite P1 at 1. apply perm_swap.
      + rewrite P2. apply perm_swap.
  Qed.
  Lemma misplaced_ok b h o : Permutation b h -> misplaces o = true ->
    let '(h', out) := list_step lt eqb h o in list_bag_step lt b o out h'.
  Proof.
    intros P M. destruct o as [o|x|i x|xs|i x|i|x| | | |xs|n|i j|i|x|other]; try discriminate; cbn [list_step].
    - constructor. rewrite P. rewrite <- Permutation_cons_append. reflexivity.
    - constructor. rewrite <- Permutation_middle, firstn_skipn. constructor. symmetry; auto.
    - constructor. rewrite P. apply Permutation_app_comm.
    - destruct (Nat.ltb_spec i (length h)).
      + destruct (upd_perm h i x) as (old & l' & P1 & P2); auto. econstructor; [rewrite P|]; eauto.
      + constructor; [|symmetry; auto]. now rewrite (Permutation_length P).
    - destruct (Nat.ltb_spec i (length h)).
      + destruct (nth_error h i) as [old|] eqn:E; [|apply nth_error_None in E; lia]. apply (lb_del_item _ _ _ old). rewrite P.
        apply nth_error_split in E. destruct E as (l1 & l2 & -> & <-). rewrite firstn_app, firstn_all, Nat.sub_diag. cbn [firstn]. rewrite app_nil_r.
        replace (S (length l1)) with (length l1 + 1) by lia. rewrite skipn_app. rewrite skipn_all2 by lia. cbn [app].
        replace (length l1 + 1 - length l1) with 1 by lia. cbn [skipn]. symmetry. apply Permutation_middle.
      + constructor; [|symmetry; auto]. now rewrite (Permutation_length P).
    - destruct (memb eqb x h) eqn:E.
      + apply (memb_In Heqb) in E. constructor. rewrite P. symmetry. now apply (remove_first_perm Heqb).
      + apply (memb_false Heqb) in E. constructor; [|symmetry; auto]. intro I. apply E. rewrite <- P. exact I.
    - constructor. rewrite <- Permutation_rev. symmetry; auto.
  Qed.
End Proofs.
