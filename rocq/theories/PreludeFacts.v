(** Facts about the shared vocabulary. *)
From Verif Require Import Prelude.

Set Implicit Arguments.

Section ListFacts.
  Context {A : Type}.
  Implicit Types (l : list A) (i j : nat) (x y : A).

  Lemma upd_length l i x : length (upd l i x) = length l.
  Proof. revert i; induction l as [|h t IH]; intros [|i]; simpl; auto. Qed.

  Lemma nth_error_upd_eq l i x : i < length l -> nth_error (upd l i x) i = Some x.
  Proof.
    revert i; induction l as [|h t IH]; intros [|i]; simpl; intros H; try lia; auto.
    apply IH; lia.
  Qed.

  Lemma nth_error_upd_neq l i j x : i <> j -> nth_error (upd l i x) j = nth_error l j.
  Proof.
    revert i j; induction l as [|h t IH]; intros [|i] [|j]; simpl; intros H; auto; try lia.
  Qed.

  Lemma upd_upd l i x y : upd (upd l i x) i y = upd l i y.
  Proof. revert i; induction l as [|h t IH]; intros [|i]; simpl; f_equal; auto. Qed.

  Lemma upd_same l i x : nth_error l i = Some x -> upd l i x = l.
  Proof.
    revert i; induction l as [|h t IH]; intros [|i]; simpl; intros H; try discriminate.
    - congruence.
    - f_equal; auto.
  Qed.

  Lemma upd_comm l i j x y : i <> j -> upd (upd l i x) j y = upd (upd l j y) i x.
  Proof.
    revert i j; induction l as [|h t IH]; intros [|i] [|j]; simpl; intros H; try lia; f_equal; auto.
  Qed.

  Lemma upd_app_l l1 l2 i x : i < length l1 -> upd (l1 ++ l2) i x = upd l1 i x ++ l2.
  Proof.
    revert i; induction l1 as [|h t IH]; intros [|i]; simpl; intros H; try lia; auto.
    f_equal; apply IH; lia.
  Qed.

  (** replacing position i by x exchanges the old element for x, as multisets *)
  Lemma upd_perm l i x y :
    nth_error l i = Some y -> Permutation (y :: upd l i x) (x :: l).
  Proof.
    revert i; induction l as [|h t IH]; intros [|i]; simpl; intros H; try discriminate.
    - injection H as ->. apply perm_swap.
    - rewrite perm_swap. rewrite (IH i H). apply perm_swap.
  Qed.

  Lemma del_nth_perm l i x : nth_error l i = Some x -> Permutation (x :: del_nth i l) l.
  Proof.
    revert i; induction l as [|h t IH]; intros [|i]; simpl; intros H; try discriminate.
    - injection H as ->. reflexivity.
    - rewrite perm_swap. constructor. auto.
  Qed.

  Lemma del_nth_split i l : del_nth i l = firstn i l ++ skipn (S i) l.
  Proof. revert i; induction l as [|h t IH]; intros [|i]; simpl; auto. f_equal. apply IH. Qed.

  Lemma del_nth_length i l : i < length l -> length (del_nth i l) = length l - 1.
  Proof.
    revert i; induction l as [|h t IH]; intros [|i]; simpl; intros H; try lia.
    rewrite IH by lia. destruct t; simpl in *; lia.
  Qed.

  Lemma insert_at_perm i x l : Permutation (insert_at i x l) (x :: l).
  Proof.
    revert l; induction i as [|i IH]; intros [|h t]; simpl; auto.
    rewrite IH. apply perm_swap.
  Qed.

  Lemma insert_at_split i x l : insert_at i x l = firstn i l ++ x :: skipn i l.
  Proof. revert l; induction i as [|i IH]; intros [|h t]; simpl; auto. f_equal; auto. Qed.

  Lemma insert_at_length i x l : length (insert_at i x l) = S (length l).
  Proof. apply (Permutation_length (insert_at_perm i x l)). Qed.

  Lemma nth_error_insert_at i x l : i <= length l -> nth_error (insert_at i x l) i = Some x.
  Proof.
    revert l; induction i as [|i IH]; intros [|h t]; simpl; intros H; auto; try lia.
    apply IH; lia.
  Qed.

  Lemma find_index_Some p l i :
    find_index p l = Some i ->
    exists x, nth_error l i = Some x /\ p x = true /\
              forall j y, j < i -> nth_error l j = Some y -> p y = false.
  Proof.
    revert i; induction l as [|h t IH]; simpl; intros i H; try discriminate.
    destruct (p h) eqn:E.
    - injection H as <-. exists h. repeat split; auto. intros; lia.
    - destruct (find_index p t) as [k|] eqn:E2; simpl in H; try discriminate.
      injection H as <-. destruct (IH k eq_refl) as (x & H1 & H2 & H3).
      exists x. repeat split; auto. intros [|j] y Hj Hy; simpl in Hy.
      + congruence.
      + apply (H3 j y); auto; lia.
  Qed.

  Lemma find_index_None p l : find_index p l = None <-> forall x, In x l -> p x = false.
  Proof.
    induction l as [|h t IH]; simpl; split; auto.
    - intros _ x [].
    - destruct (p h) eqn:E; [discriminate|].
      destruct (find_index p t) eqn:E2; simpl; [discriminate|].
      intros _ x [<-|Hx]; auto. apply IH; auto.
    - intros H. rewrite (H h) by auto.
      destruct IH as [_ IH]. rewrite IH; auto.
  Qed.

  Lemma find_index_lt p l i : find_index p l = Some i -> i < length l.
  Proof.
    intros H. destruct (find_index_Some _ _ H) as (x & Hx & _).
    apply nth_error_Some. congruence.
  Qed.

  Section Eqb.
    Variable eqb : A -> A -> bool.
    Hypothesis Heqb : eqb_ok eqb.

    Lemma eqb_refl' x : eqb x x = true.
    Proof. apply Heqb; auto. Qed.

    Lemma eqb_false_iff x y : eqb x y = false <-> x <> y.
    Proof.
      split.
      - intros H E. subst. rewrite eqb_refl' in H. discriminate.
      - intros H. destruct (eqb x y) eqn:E; auto. apply Heqb in E. contradiction.
    Qed.

    Lemma memb_In x l : memb eqb x l = true <-> In x l.
    Proof.
      induction l as [|h t IH]; simpl.
      - split; [discriminate|tauto].
      - destruct (eqb h x) eqn:E.
        + apply Heqb in E. tauto.
        + apply eqb_false_iff in E. tauto.
    Qed.

    Lemma memb_false x l : memb eqb x l = false <-> ~ In x l.
    Proof.
      rewrite <- memb_In. destruct (memb eqb x l); split; congruence.
    Qed.

    Lemma remove_first_perm x l : In x l -> Permutation (x :: remove_first eqb x l) l.
    Proof.
      induction l as [|h t IH]; simpl; [tauto|].
      destruct (eqb h x) eqn:E.
      - apply Heqb in E. subst. reflexivity.
      - apply eqb_false_iff in E. intros [H|H]; [congruence|].
        rewrite perm_swap. constructor. auto.
    Qed.

    Lemma remove_first_notin x l : ~ In x l -> remove_first eqb x l = l.
    Proof.
      induction l as [|h t IH]; simpl; auto.
      intros H. destruct (eqb h x) eqn:E.
      - apply Heqb in E. tauto.
      - f_equal. apply IH. tauto.
    Qed.

    Lemma eqb_dec : forall x y : A, {x = y} + {x <> y}.
    Proof.
      intros x y. destruct (eqb x y) eqn:E.
      - left. apply Heqb; auto.
      - right. apply eqb_false_iff; auto.
    Qed.
  End Eqb.
End ListFacts.

Section DictFacts.
  Context {K V : Type}.
  Variable eqb : K -> K -> bool.
  Hypothesis Heqb : eqb_ok eqb.
  Implicit Types (d : dict K V) (k : K) (v : V).

  Lemma dget_dset_eq d k v : dget eqb (dset eqb d k v) k = Some v.
  Proof.
    induction d as [|[k' v'] t IH]; simpl.
    - rewrite (eqb_refl' Heqb). reflexivity.
    - destruct (eqb k' k) eqn:E; simpl; rewrite E; auto.
  Qed.

  Lemma dget_dset_neq d k k2 v : k2 <> k -> dget eqb (dset eqb d k v) k2 = dget eqb d k2.
  Proof.
    intros H. induction d as [|[k' v'] t IH]; simpl.
    - rewrite (proj2 (eqb_false_iff Heqb k k2)); auto.
    - destruct (eqb k' k) eqn:E; simpl; auto.
      + apply Heqb in E. subst k'. rewrite (proj2 (eqb_false_iff Heqb k k2)); auto.
      + rewrite IH. reflexivity.
  Qed.

  Lemma dget_In d k v : dget eqb d k = Some v -> In (k, v) d.
  Proof.
    induction d as [|[k' v'] t IH]; simpl; [discriminate|].
    destruct (eqb k' k) eqn:E.
    - apply Heqb in E. intros H. left. congruence.
    - auto.
  Qed.

  Lemma dget_None d k : dget eqb d k = None <-> ~ In k (dkeys d).
  Proof.
    induction d as [|[k' v'] t IH]; simpl.
    - tauto.
    - destruct (eqb k' k) eqn:E.
      + apply Heqb in E. split; [discriminate|tauto].
      + apply (eqb_false_iff Heqb) in E. tauto.
  Qed.

  Lemma dget_Some_key d k v : dget eqb d k = Some v -> In k (dkeys d).
  Proof. intros H. apply dget_In in H. apply (in_map fst) in H. exact H. Qed.

  Lemma dget_key_Some d k : In k (dkeys d) -> exists v, dget eqb d k = Some v.
  Proof.
    intros H. destruct (dget eqb d k) as [v|] eqn:E; eauto.
    apply dget_None in E. contradiction.
  Qed.

  Lemma dmem_In d k : dmem eqb d k = true <-> In k (dkeys d).
  Proof.
    unfold dmem. destruct (dget eqb d k) as [v|] eqn:E.
    - split; auto. intros _. eapply dget_Some_key; eauto.
    - split; [discriminate|]. apply dget_None in E. tauto.
  Qed.

  Lemma In_dget d k v : dwf d -> In (k, v) d -> dget eqb d k = Some v.
  Proof.
    unfold dwf. induction d as [|[k' v'] t IH]; simpl; intros Hnd; [tauto|].
    inversion Hnd; subst. intros [H|H].
    - injection H as -> ->. rewrite (eqb_refl' Heqb). reflexivity.
    - destruct (eqb k' k) eqn:E; auto.
      apply Heqb in E. subst. exfalso. apply H1. apply (in_map fst) in H. exact H.
  Qed.

  Lemma dkeys_dset d k v :
    dkeys (dset eqb d k v) = if dmem eqb d k then dkeys d else dkeys d ++ [k].
  Proof.
    unfold dmem. induction d as [|[k' v'] t IH]; simpl; auto.
    destruct (eqb k' k) eqn:E; simpl; auto.
    rewrite IH. destruct (dget eqb t k); auto.
  Qed.

  Lemma dset_In_keys d k v k2 : In k2 (dkeys (dset eqb d k v)) <-> k2 = k \/ In k2 (dkeys d).
  Proof.
    rewrite dkeys_dset. destruct (dmem eqb d k) eqn:E.
    - apply dmem_In in E. split; [tauto|]. intros [->|H]; auto.
    - rewrite in_app_iff. simpl. split.
      + intros [H|[H|[]]]; auto.
      + intros [->|H]; auto.
  Qed.

  Lemma dset_wf d k v : dwf d -> dwf (dset eqb d k v).
  Proof.
    unfold dwf. rewrite dkeys_dset. intros H.
    destruct (dmem eqb d k) eqn:E; auto.
    apply NoDup_Add with (a := k) (l := dkeys d).
    - rewrite <- (app_nil_r (dkeys d)) at 1. apply Add_app.
    - split; auto. intros Hin. apply dmem_In in Hin. congruence.
  Qed.

  Lemma dget_ddel_neq d k k2 : k2 <> k -> dget eqb (ddel eqb d k) k2 = dget eqb d k2.
  Proof.
    intros H. induction d as [|[k' v'] t IH]; simpl; auto.
    destruct (eqb k' k) eqn:E; simpl.
    - apply Heqb in E. subst. rewrite (proj2 (eqb_false_iff Heqb k k2)); auto.
    - rewrite IH; auto.
  Qed.

  Lemma dkeys_ddel d k : dkeys (ddel eqb d k) = remove_first eqb k (dkeys d).
  Proof.
    induction d as [|[k' v'] t IH]; simpl; auto.
    destruct (eqb k' k); simpl; auto. f_equal; auto.
  Qed.

  Lemma NoDup_remove_first (l : list K) k : NoDup l -> NoDup (remove_first eqb k l).
  Proof.
    induction l as [|h t IH]; simpl; intros H; auto.
    inversion H; subst. destruct (eqb h k) eqn:E; auto.
    constructor; auto. intros Hin. apply H2.
    clear - Hin Heqb. induction t as [|x t IH]; simpl in *; auto.
    destruct (eqb x k); auto. destruct Hin; auto.
  Qed.

  Lemma In_remove_first (l : list K) k x :
    NoDup l -> In x (remove_first eqb k l) <-> In x l /\ x <> k.
  Proof.
    induction l as [|h t IH]; simpl; intros H; [tauto|].
    inversion H; subst. destruct (eqb h k) eqn:E.
    - apply Heqb in E. subst. split.
      + intros Hx. split; auto. intros ->. contradiction.
      + intros [[->|Hx] Hn]; [congruence|auto].
    - apply (eqb_false_iff Heqb) in E. simpl. rewrite (IH H3). split.
      + intros [->|[Hx Hn]]; auto.
      + tauto.
  Qed.

  Lemma ddel_wf d k : dwf d -> dwf (ddel eqb d k).
  Proof. unfold dwf. rewrite dkeys_ddel. apply NoDup_remove_first. Qed.

  Lemma dget_ddel_eq d k : dwf d -> dget eqb (ddel eqb d k) k = None.
  Proof.
    intros H. apply dget_None. rewrite dkeys_ddel.
    rewrite (In_remove_first _ _ H). tauto.
  Qed.

  Lemma ddel_In_keys d k k2 : dwf d -> In k2 (dkeys (ddel eqb d k)) <-> In k2 (dkeys d) /\ k2 <> k.
  Proof. intros H. rewrite dkeys_ddel. apply In_remove_first; auto. Qed.

  Lemma ddel_notin d k : ~ In k (dkeys d) -> ddel eqb d k = d.
  Proof.
    induction d as [|[k' v'] t IH]; simpl; auto. intros H.
    destruct (eqb k' k) eqn:E.
    - apply Heqb in E. tauto.
    - f_equal. apply IH. tauto.
  Qed.

  Lemma ddel_length d k : In k (dkeys d) -> length (ddel eqb d k) = length d - 1.
  Proof.
    induction d as [|[k' v'] t IH]; simpl; [tauto|].
    destruct (eqb k' k) eqn:E; simpl; [lia|].
    apply (eqb_false_iff Heqb) in E. intros [H|H]; [congruence|].
    rewrite IH by auto. destruct t; simpl in *; [tauto|lia].
  Qed.

  Lemma dset_length d k v :
    length (dset eqb d k v) = if dmem eqb d k then length d else S (length d).
  Proof.
    unfold dmem. induction d as [|[k' v'] t IH]; simpl; auto.
    destruct (eqb k' k); simpl; auto. rewrite IH. destruct (dget eqb t k); auto.
  Qed.

  Lemma dget_filter (p : K * V -> bool) d k : dwf d ->
    dget eqb (filter p d) k =
    match dget eqb d k with Some v => if p (k, v) then Some v else None | None => None end.
  Proof.
    unfold dwf. induction d as [|[k' v'] t IH]; simpl; auto. intros H. inversion H; subst.
    destruct (eqb k' k) eqn:E.
    - apply Heqb in E. subst k'. destruct (p (k, v')) eqn:Ep; simpl.
      + rewrite (eqb_refl' Heqb). auto.
      + rewrite IH by auto. assert (Hn : dget eqb t k = None) by (apply dget_None; auto). rewrite Hn. auto.
    - destruct (p (k', v')); simpl; [rewrite E|]; auto.
  Qed.

  Lemma filter_wf (p : K * V -> bool) (d : dict K V) : dwf d -> dwf (filter p d).
  Proof.
    unfold dwf, dkeys. induction d as [|[k' v'] t IH]; simpl; auto. intros H. inversion H; subst.
    destruct (p (k', v')); simpl; auto. constructor; auto.
    intros Hin. apply in_map_iff in Hin. destruct Hin as (x & E & Hx). apply filter_In in Hx.
    apply H2. apply in_map_iff. exists x. tauto.
  Qed.
End DictFacts.
