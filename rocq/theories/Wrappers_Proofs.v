From Verif Require Import Prelude PreludeFacts MoreFacts PySeq_Model Wrappers_Model Wrappers_Spec.

Section LW.
  Variable T : Type.
  Variable eqb : T -> T -> bool.
  Variable src : list T.
  Notation n_ := (length src).
  Definition shows (s : lw T) (v : view) : Prop :=
    loaded s = firstn (taken v) src /\ rest s = skipn (taken v) src /\ pointer s = position v /\ exhausted s = end_met v /\
    taken v <= n_ /\ position v <= taken v /\ (end_met v = true -> taken v = n_).

  Lemma load_ok : forall r l p i, l ++ r = src -> let s := lw_load r l p i in
    shows s (mk_view (Nat.max (length l) (Nat.min (Z.to_nat i) n_)) p (Z.of_nat n_ <? i)%Z) \/ length l < p.
  Proof.
    intros r l p i E. destruct (Nat.lt_ge_cases (length l) p) as [|P]; auto. left. revert l E P. induction r as [|x r IH]; intros l E P; simpl.
    - rewrite app_nil_r in E; subst l. destruct (Z.of_nat n_ <? i)%Z eqn:D.
      + apply Z.ltb_lt in D. replace (Nat.max n_ (Nat.min (Z.to_nat i) n_)) with n_ by lia. red; simpl. rewrite firstn_all, skipn_all. repeat split; auto.
      + apply Z.ltb_ge in D. replace (Nat.max n_ (Nat.min (Z.to_nat i) n_)) with n_ by lia. red; simpl. rewrite firstn_all, skipn_all. repeat split; auto.
    - destruct (Z.of_nat (length l) <? i)%Z eqn:D.
      + apply Z.ltb_lt in D. assert (E' : (l ++ [x]) ++ r = src) by (rewrite <- app_assoc; exact E).
        specialize (IH (l ++ [x]) E'). rewrite app_length in IH; simpl in IH. assert (length l < n_) by (rewrite <- E, app_length; simpl; lia).
        replace (Nat.max (length l) (Nat.min (Z.to_nat i) n_)) with (Nat.max (length l + 1) (Nat.min (Z.to_nat i) n_)) by lia. apply IH. lia.
      + apply Z.ltb_ge in D. assert (length l < n_) by (rewrite <- E, app_length; simpl; lia).
        replace (Nat.max (length l) (Nat.min (Z.to_nat i) n_)) with (length l) by lia. red; simpl.
        replace (Z.of_nat n_ <? i)%Z with false by (symmetry; apply Z.ltb_ge; lia).
        rewrite <- E. rewrite firstn_app, firstn_all, Nat.sub_diag, skipn_app, skipn_all, Nat.sub_diag. simpl. rewrite app_nil_r, app_length.
        repeat split; auto; try discriminate; simpl; lia.
  Qed.
  Lemma shows_split : forall s v, shows s v -> loaded s ++ rest s = src /\ length (loaded s) = taken v.
  Proof. intros s v (L & R & _ & _ & B & _). rewrite L, R, firstn_skipn, firstn_length. split; auto. lia. Qed.
  Lemma advance_ok : forall s v i, shows s v -> shows (lw_advance s i) (need src v i).
  Proof.
    intros s v i Sh. destruct (shows_split s v Sh) as [E Ln]. pose proof Sh as (L & R & P & X & B & Q & M). unfold lw_advance, need. rewrite X. destruct (end_met v) eqn:D.
    - specialize (M eq_refl). replace (Nat.max (taken v) (Nat.min (Z.to_nat i) n_)) with (taken v) by lia. simpl. rewrite <- D. destruct v; exact Sh.
    - simpl. rewrite <- P, <- Ln. destruct (load_ok (rest s) (loaded s) (pointer s) i E) as [H|H]; auto. lia.
  Qed.
  Lemma exhaust_ok : forall s v, shows s v -> shows (lw_exhaust s) (mk_view n_ (position v) true).
  Proof.
    intros s v Sh. destruct (shows_split s v Sh) as [E Ln]. pose proof Sh as (L & R & P & X & B & Q & M). unfold lw_exhaust. destruct (exhausted s) eqn:D.
    - symmetry in X. specialize (M X). red. rewrite L, R, P, D, M. simpl. repeat split; auto; lia.
    - red; simpl. rewrite E, firstn_all, skipn_all. repeat split; auto. lia.
  Qed.
  Lemma nth_error_firstn_lt : forall (l : list T) k i, i < k -> nth_error (firstn k l) i = nth_error l i.
  Proof. induction l as [|x l IH]; intros [|k] [|i] H; simpl; auto; try lia. apply IH; lia. Qed.
  Definition next_view (v : view) : option T * view :=
    match nth_error src (position v) with
    | Some x => (Some x, mk_view (Nat.max (taken v) (S (position v))) (S (position v)) (end_met v))
    | None => (None, mk_view (taken v) (position v) true)
    end.
  Lemma next_ok : forall s v, shows s v -> fst (lw_next s) = fst (next_view v) /\ shows (snd (lw_next s)) (snd (next_view v)).
  Proof.
    intros s v Sh. destruct (shows_split s v Sh) as [E Ln]. pose proof Sh as (L & R & P & X & B & Q & M). unfold lw_next, next_view. rewrite P, Ln.
    destruct (Nat.eq_dec (position v) (taken v)) as [Ep|Ep].
    - rewrite Ep, Nat.eqb_refl. simpl. rewrite X. destruct (end_met v) eqn:D.
      + specialize (M eq_refl). rewrite M. replace (nth_error src n_) with (@None T) by (symmetry; apply nth_error_None; lia). simpl. split; auto.
        replace (mk_view n_ n_ true) with v by (destruct v; simpl in *; congruence). exact Sh.
      + replace (nth_error (loaded s) (taken v)) with (@None T) by (symmetry; apply nth_error_None; lia).
        destruct (Nat.eq_dec (taken v) n_) as [Et|Et].
        * rewrite Et. replace (nth_error src n_) with (@None T) by (symmetry; apply nth_error_None; lia). rewrite R, Et, skipn_all. simpl. split; auto.
          red; simpl. rewrite L, Et, firstn_all, skipn_all. repeat split; auto; congruence.
        * destruct (nth_error src (taken v)) as [x|] eqn:Nx. 2: { apply nth_error_None in Nx. lia. }
          pose proof (nth_error_split _ _ Nx) as (l1 & l2 & Es & El). assert (Ez : skipn (taken v) src = x :: l2).
          { rewrite Es, <- El, skipn_app, skipn_all, Nat.sub_diag. reflexivity. }
          rewrite R, Ez. simpl. split; auto. red; simpl. rewrite L. replace (Nat.max (taken v) (S (taken v))) with (S (taken v)) by lia.
          assert (F : firstn (S (taken v)) src = firstn (taken v) src ++ [x]).
          { rewrite Es, <- El. rewrite !firstn_app. rewrite firstn_all2 by lia. rewrite firstn_all. replace (S (length l1) - length l1) with 1 by lia. rewrite Nat.sub_diag. simpl. now rewrite app_nil_r. }
          assert (G : skipn (S (taken v)) src = l2).
          { rewrite Es, <- El. rewrite skipn_app. rewrite skipn_all2 by lia. replace (S (length l1) - length l1) with 1 by lia. reflexivity. }
          rewrite F, G. repeat split; auto; try lia; congruence.
    - replace (position v =? taken v) with false by (symmetry; apply Nat.eqb_neq; lia). simpl. rewrite L, nth_error_firstn_lt by lia.
      destruct (nth_error src (position v)) as [x|] eqn:Nx. 2: { apply nth_error_None in Nx. lia. }
      simpl. split; auto. red; simpl. replace (Nat.max (taken v) (S (position v))) with (taken v) by lia. repeat split; auto; try lia.
  Qed.
  Lemma find_ok : forall fuel x s v, shows s v -> n_ - position v < fuel -> 
    let r := lw_find eqb fuel x s in
    match find_index (fun y => eqb y x) (skipn (position v) src) with
    | Some j => fst r = true /\ shows (snd r) (mk_view (Nat.max (taken v) (S (position v + j))) (S (position v + j)) (end_met v))
    | None => fst r = false /\ shows (snd r) (mk_view n_ n_ true)
    end.
  Proof.
    induction fuel as [|fuel IH]; intros x s v Sh F; [lia|]. cbv zeta. cbn [lw_find]. pose proof (next_ok s v Sh) as [N1 N2]. destruct (lw_next s) as [o s'].
    pose proof Sh as (_ & _ & _ & _ & B & Q & M). unfold next_view in *. destruct (nth_error src (position v)) as [y|] eqn:Ny; cbn [fst snd] in *; subst o.
    - assert (Sk : skipn (position v) src = y :: skipn (S (position v)) src) by (rewrite skipn_nth, Ny; reflexivity). rewrite Sk. cbn [find_index]. destruct (eqb y x) eqn:Q1.
      + rewrite Nat.add_0_r. split; auto.
      + assert (position v < n_) by (apply nth_error_Some; congruence).
        specialize (IH x s' _ N2). cbn [position taken end_met] in IH. specialize (IH ltac:(lia)). destruct (find_index _ (skipn (S (position v)) src)) as [j|]; cbn [option_map]; auto.
        destruct IH as [A A']. split; auto. replace (S (position v + S j)) with (S (S (position v) + j)) by lia.
        replace (Nat.max (taken v) (S (S (position v) + j))) with (Nat.max (Nat.max (taken v) (S (position v))) (S (S (position v) + j))) by lia. exact A'.
    - apply nth_error_None in Ny. rewrite skipn_all2 by lia. cbn [find_index]. split; auto. replace n_ with (taken v) at 1 by lia. replace n_ with (position v) by lia. exact N2.
  Qed.
  Lemma memb_find : forall l x, memb eqb x l = match find_index (fun y => eqb y x) l with Some _ => true | None => false end.
  Proof. induction l as [|y l IH]; simpl; intros x; auto. destruct (eqb y x); auto. rewrite IH. destruct (find_index _ l); auto. Qed.
  Lemma memb_app' : forall l m x, memb eqb x (l ++ m) = memb eqb x l || memb eqb x m.
  Proof. induction l as [|y l IH]; simpl; intros; auto. destruct (eqb y x); auto. Qed.
  Lemma memb_skipn : forall k p x, p <= k -> memb eqb x (firstn k src) = false -> memb eqb x (skipn p src) = memb eqb x src.
  Proof.
    intros k p x L H. assert (H' : memb eqb x (firstn p src) = false).
    { rewrite <- (firstn_skipn p (firstn k src)), memb_app', firstn_firstn, Nat.min_l in H by lia. destruct (memb eqb x (firstn p src)); auto. }
    rewrite <- (firstn_skipn p src) at 2. rewrite memb_app', H'. reflexivity.
  Qed.
  Lemma index_ok : forall k i, (Z.of_nat k <= Z.of_nat n_)%Z -> (0 <= i)%Z -> (i < Z.of_nat k)%Z \/ k = n_ -> py_index (firstn k src) i = py_index src i.
  Proof.
    intros k i K I H. destruct H as [H|H].
    - unfold py_index. replace (i <? 0)%Z with false by (symmetry; apply Z.ltb_ge; lia). replace (i <? 0)%Z with false by (symmetry; apply Z.ltb_ge; lia). apply nth_error_firstn_lt. lia.
    - subst. now rewrite firstn_all.
  Qed.
  Lemma slice_ok : forall k a b, k <= n_ -> from_the_start a -> (0 <= b)%Z -> (b <= Z.of_nat k)%Z \/ k = n_ -> py_slice (firstn k src) a (Some b) = py_slice src a (Some b).
  Proof.
    intros k a b K A B H. destruct H as [H|H].
    - unfold py_slice, slice_stop, slice_bound. rewrite firstn_length, Nat.min_l by lia. replace (b <? 0)%Z with false by (symmetry; apply Z.ltb_ge; lia).
      replace (Nat.min (Z.to_nat b) k) with (Z.to_nat b) by lia. replace (Nat.min (Z.to_nat b) n_) with (Z.to_nat b) by lia.
      destruct a as [a|]; simpl in *.
      + unfold slice_bound. replace (a <? 0)%Z with false by (symmetry; apply Z.ltb_ge; lia).
        destruct (Nat.le_gt_cases (Z.to_nat b) (Z.to_nat a)).
        * replace (Z.to_nat b - Nat.min (Z.to_nat a) k) with 0 by lia. replace (Z.to_nat b - Nat.min (Z.to_nat a) n_) with 0 by lia. reflexivity.
        * replace (Nat.min (Z.to_nat a) k) with (Z.to_nat a) by lia. replace (Nat.min (Z.to_nat a) n_) with (Z.to_nat a) by lia.
          rewrite skipn_firstn_comm, firstn_firstn. f_equal. lia.
      + rewrite Nat.sub_0_r. rewrite firstn_firstn. f_equal. lia.
    - subst. now rewrite firstn_all.
  Qed.
  Lemma step_ok : forall s v op, shows s v -> fine v op -> fst (lw_step eqb s op) = fst (lw_expected eqb src v op) /\ shows (snd (lw_step eqb s op)) (snd (lw_expected eqb src v op)).
  Proof.
    intros s v op Sh Fi. destruct (shows_split s v Sh) as [E Ln]. pose proof Sh as (L & R & P & X & B & Q & M). destruct op as [| |i|a b|x| |i]; simpl.
    - pose proof (next_ok s v Sh) as [N1 N2]. destruct (lw_next s) as [o s']. unfold next_view in *. destruct (nth_error src (position v)); simpl in *; subst; auto.
    - split. + destruct (shows_split _ _ (exhaust_ok s v Sh)) as [_ H]. rewrite H. reflexivity. + apply exhaust_ok; auto.
    - pose proof (advance_ok s v (i + 1) Sh) as A.
      set (s' := if (Z.of_nat (length (loaded s)) <? i + 1)%Z then lw_advance s (i + 1) else s).
      assert (A' : shows s' (need src v (i + 1))).
      { unfold s'. destruct (Z.of_nat (length (loaded s)) <? i + 1)%Z eqn:D; auto. apply Z.ltb_ge in D. rewrite Ln in D. unfold need.
        replace (Nat.max (taken v) (Nat.min (Z.to_nat (i + 1)) n_)) with (taken v) by lia.
        replace (Z.of_nat n_ <? i + 1)%Z with false by (symmetry; apply Z.ltb_ge; lia). rewrite orb_false_r. destruct v; exact Sh. }
      split; auto. destruct A' as (L' & _ & _ & _ & B' & _ & M'). rewrite L'. destruct Fi as [Fi|Fi].
      + rewrite index_ok; auto; try lia. unfold need in *; simpl in *. destruct (Z.lt_ge_cases i (Z.of_nat n_)); lia.
      + unfold need in *; simpl in *. rewrite Fi in M'. rewrite M', firstn_all by auto. reflexivity.
    - destruct Fi as [(Fa & Fb & Fn)|Fe].
      + destruct b as [b|]; [|congruence]. simpl in Fb. pose proof (advance_ok s v b Sh) as A. split; auto. simpl. destruct A as (L' & _ & _ & _ & B' & _ & M'). rewrite L'. rewrite slice_ok; auto.
        unfold need; simpl. destruct (Z.le_gt_cases b (Z.of_nat n_)); lia.
      + specialize (M Fe). rewrite Fe in X. destruct b as [b|].
        * pose proof (advance_ok s v b Sh) as A. split; auto. simpl. destruct A as (L' & _ & _ & _ & B' & _ & M'). rewrite L'. unfold need in *; simpl in *. rewrite Fe in M'. rewrite M', firstn_all by auto. reflexivity.
        * rewrite X. simpl. split. -- rewrite L, M, firstn_all. reflexivity.
          -- unfold need. replace (Nat.max (taken v) (Nat.min (Z.to_nat 0) n_)) with (taken v) by lia. rewrite Fe. simpl. rewrite <- Fe. destruct v; exact Sh.
    - unfold lw_contains. rewrite L. destruct (memb eqb x (firstn (taken v) src)) eqn:D1.
      + simpl. split; auto. f_equal. symmetry. rewrite <- (firstn_skipn (taken v) src), memb_app', D1. reflexivity.
      + rewrite X. destruct (end_met v) eqn:D2; simpl.
        * split; auto. rewrite M, firstn_all in D1 by auto. now rewrite D1.
        * pose proof (find_ok (S (length (firstn (taken v) src) + length (rest s))) x s v Sh) as F. cbv zeta in F.
          assert (FL : n_ - position v < S (length (firstn (taken v) src) + length (rest s))). { rewrite <- L. rewrite <- app_length, E. lia. }
          specialize (F FL). rewrite <- (memb_skipn (taken v) (position v) x Q D1), memb_find. rewrite D2 in F.
          remember (lw_find eqb (S (length (firstn (taken v) src) + length (rest s))) x s) as r.
          destruct r as [r s']. simpl in *. destruct (find_index _ (skipn (position v) src)) as [j|]; destruct F as [F1 F2]; subst r; rewrite <- Heqr; auto.
    - split; auto. apply exhaust_ok; auto.
    - split; auto. apply advance_ok; auto.
  Qed.
  Lemma run_ok : forall ops s v, shows s v -> all_fine eqb src v ops ->
    fst (lw_run eqb s ops) = fst (lw_session eqb src v ops) /\ shows (snd (lw_run eqb s ops)) (snd (lw_session eqb src v ops)).
  Proof.
    induction ops as [|op ops IH]; simpl; intros s v Sh F; auto. destruct F as [F1 F2]. destruct (step_ok s v op Sh F1) as [A B].
    destruct (lw_step eqb s op) as [o s1], (lw_expected eqb src v op) as [o' v1]; simpl in *. subst o'. destruct (IH s1 v1 B F2) as [C D].
    destruct (lw_run eqb s1 ops), (lw_session eqb src v1 ops); simpl in *. subst; auto.
  Qed.
  Lemma lw_ok : forall ops, all_fine eqb src fresh ops ->
    fst (lw_run eqb (lw_new src) ops) = fst (lw_session eqb src fresh ops) /\ length (loaded (snd (lw_run eqb (lw_new src) ops))) = taken (snd (lw_session eqb src fresh ops)).
  Proof.
    intros ops F. destruct (run_ok ops (lw_new src) fresh) as [A B]; auto.
    - red; simpl. repeat split; auto; try lia; discriminate.
    - split; auto. apply (proj2 (shows_split _ _ B)).
  Qed.
  Lemma answers_ok : forall ops v, Forall (fun op => match op with LContains _ => False | _ => True end) ops ->
    fst (lw_session eqb src v ops) = as_a_list eqb src (position v) ops.
  Proof.
    induction ops as [|op ops IH]; intros v F; auto. inversion F; subst. destruct op; cbn [lw_session lw_expected as_a_list]; try contradiction;
      try (match goal with |- context [lw_session eqb src ?w ops] => specialize (IH w); destruct (lw_session eqb src w ops); simpl in *; f_equal; auto end).
    destruct (nth_error src (position v));
      match goal with |- context [lw_session eqb src ?w ops] => specialize (IH w); destruct (lw_session eqb src w ops); simpl in *; f_equal; auto end.
  Qed.
End LW.

Lemma push_ok : forall T ops (s : push T) pushed, pushed = rev (collection s) -> push_run s ops = push_expected pushed (iterable s) ops.
Proof.
  induction ops as [|[|x|x] ops IH]; simpl; intros s pushed E; auto.
  - destruct s as [it co]; simpl in *. destruct co as [|c co].
    + simpl in E; subst. destruct it; simpl; f_equal; apply (IH (mk_push _ _)); reflexivity.
    + rewrite <- E. destruct pushed as [|y p]. { apply (f_equal (@length _)) in E. rewrite rev_length in E. discriminate. }
      f_equal. apply (IH (mk_push it (rev p))). simpl. now rewrite rev_involutive.
  - f_equal. apply (IH (mk_push _ _)). simpl. rewrite rev_app_distr. simpl. now subst.
  - f_equal. apply (IH (mk_push _ _)). simpl. now subst.
Qed.

Section SQ.
  Variables N T : Type.
  Variable neqb : N -> N -> bool.
  Hypothesis nok : eqb_ok neqb.
  Notation left := (@left_of N T neqb).
  Lemma left_set : forall s n l m, left m (dset neqb s n l) = if neqb n m then l else left m s.
  Proof.
    intros s n l m. unfold left_of. destruct (neqb n m) eqn:E. - apply nok in E; subst. now rewrite (dget_dset_eq nok). - rewrite dget_dset_neq; auto. intros ->. rewrite (eqb_refl' nok) in E. discriminate.
  Qed.
  Lemma left_assert : forall s n m, left m (assert_queue neqb s n) = left m s.
  Proof.
    intros s n m. unfold assert_queue. destruct (dmem neqb s n) eqn:D; auto. rewrite left_set. destruct (neqb n m) eqn:E; auto. apply nok in E; subst.
    unfold left_of. unfold dmem in D. destruct (dget neqb s m); [discriminate|auto].
  Qed.
  Lemma keys_assert : forall (s : subq N T) n, dkeys (assert_queue neqb s n) = mention neqb (dkeys s) n.
  Proof.
    intros s n. unfold assert_queue, mention. destruct (dmem neqb s n) eqn:D.
    - apply (dmem_In nok) in D. apply (memb_In nok) in D. now rewrite D.
    - assert (~ In n (dkeys s)) as I. { intros I. apply (dmem_In nok) in I. congruence. } rewrite (proj2 (memb_false nok n (dkeys s)) I).
      clear D. induction s as [|[k v] s IH]; simpl in *; auto. replace (neqb k n) with false. + simpl. now rewrite IH by tauto. + symmetry. apply (eqb_false_iff nok). auto.
  Qed.
  Lemma keys_set_in : forall (s : subq N T) n l, In n (dkeys s) -> dkeys (dset neqb s n l) = dkeys s.
  Proof.
    induction s as [|[k v] s IH]; simpl; intros n l I; [contradiction|]. destruct (neqb k n) eqn:E; simpl; auto. f_equal. apply IH. destruct I as [->|I]; auto. rewrite (eqb_refl' nok) in E; discriminate.
  Qed.
  Lemma mention_in : forall l n, In n (mention neqb l n).
  Proof. intros l n. unfold mention. destruct (memb neqb n l) eqn:E. - now apply (memb_In nok). - apply in_or_app; right; now left. Qed.
  Lemma assert_wf : forall (s : subq N T) n, dwf s -> dwf (assert_queue neqb s n).
  Proof. intros s n W. unfold assert_queue. destruct (dmem neqb s n); auto. now apply (dset_wf nok). Qed.
  Lemma first_ok : forall (s : subq N T) q, dwf s -> (forall n, q n = left n s) -> first_nonempty s = first_with q (dkeys s).
  Proof.
    intros s q W H. assert (G : forall n l, In (n, l) s -> q n = l). { intros n l I. rewrite H. unfold left_of. now rewrite (In_dget nok n l W I). }
    clear H W. induction s as [|[k l] s IH]; simpl; auto. rewrite (G k l) by (now left). destruct l; auto. apply IH. intros; apply G; now right.
  Qed.
  Lemma size_ok : forall (s : subq N T) q, dwf s -> (forall n, q n = left n s) -> forall a, fold_left (fun acc nq => acc + length (snd nq)) s a = a + list_sum (map (fun n => length (q n)) (dkeys s)).
  Proof.
    intros s q W H. assert (G : forall n l, In (n, l) s -> q n = l). { intros n l I. rewrite H. unfold left_of. now rewrite (In_dget nok n l W I). }
    clear H W. induction s as [|[k l] s IH]; simpl; intros a; auto. rewrite IH by (intros; apply G; now right). rewrite (G k l) by (now left). lia.
  Qed.
  Lemma first_nonempty_in : forall (s : subq N T) n x l, first_nonempty s = Some (n, x, l) -> In (n, x :: l) s.
  Proof. induction s as [|[k [|y q]] s IH]; simpl; intros n x l E; try discriminate. - right; auto. - inversion E; subst. now left. Qed.
  Lemma sq_ok : forall ops s q, dwf s -> (forall n, q n = left n s) -> fst (sq_run neqb s ops) = sq_expected neqb q (dkeys s) ops.
  Proof.
    induction ops as [|op ops IH]; intros s q W H; simpl; auto. destruct op as [n x|n| |]; simpl.
    - set (s' := dset neqb (assert_queue neqb s n) n _).
      assert (K : dkeys s' = mention neqb (dkeys s) n). { unfold s'. rewrite keys_set_in; rewrite keys_assert; auto. apply mention_in. }
      destruct (sq_run neqb s' ops) as [os s2] eqn:E. simpl. f_equal. change os with (fst (os, s2)). rewrite <- E, <- K. apply IH.
      + apply (dset_wf nok). now apply assert_wf.
      + intros m. unfold s', change. rewrite left_set. destruct (neqb n m) eqn:D. * rewrite H. rewrite <- (left_assert s n n). unfold left_of. destruct (dget neqb (assert_queue neqb s n) n); auto. * now rewrite left_assert.
    - assert (G : match dget neqb (assert_queue neqb s n) n with Some (x :: l) => q n = x :: l | _ => q n = [] end).
      { rewrite H, <- (left_assert s n n). unfold left_of. destruct (dget neqb (assert_queue neqb s n) n) as [[|]|]; auto. }
      destruct (dget neqb (assert_queue neqb s n) n) as [[|x l]|] eqn:D; rewrite G.
      + destruct (sq_run neqb (assert_queue neqb s n) ops) as [os s2] eqn:E. simpl. f_equal. change os with (fst (os, s2)). rewrite <- E, <- keys_assert. apply IH. * now apply assert_wf. * intros m. now rewrite left_assert.
      + set (s' := dset neqb (assert_queue neqb s n) n l). assert (K : dkeys s' = mention neqb (dkeys s) n). { unfold s'. rewrite keys_set_in; rewrite keys_assert; auto. apply mention_in. }
        destruct (sq_run neqb s' ops) as [os s2] eqn:E. simpl. f_equal. change os with (fst (os, s2)). rewrite <- E, <- K. apply IH. * apply (dset_wf nok). now apply assert_wf.
        * intros m. unfold s', change. rewrite left_set. destruct (neqb n m); auto. now rewrite left_assert.
      + destruct (sq_run neqb (assert_queue neqb s n) ops) as [os s2] eqn:E. simpl. f_equal. change os with (fst (os, s2)). rewrite <- E, <- keys_assert. apply IH. * now apply assert_wf. * intros m. now rewrite left_assert.
    - rewrite <- (first_ok s q W H). destruct (first_nonempty s) as [[[n x] l]|] eqn:F.
      + destruct (sq_run neqb (dset neqb s n l) ops) as [os s2] eqn:E. simpl. f_equal. change os with (fst (os, s2)). rewrite <- E. apply first_nonempty_in in F.
        rewrite <- (keys_set_in s n l). 2: { apply (in_map fst) in F. exact F. } apply IH. * now apply (dset_wf nok). * intros m. unfold change. rewrite left_set. destruct (neqb n m); auto.
      + destruct (sq_run neqb s ops) as [os s2] eqn:E. simpl. f_equal. change os with (fst (os, s2)). rewrite <- E. apply IH; auto.
    - rewrite (size_ok s q W H). destruct (sq_run neqb s ops) as [os s2] eqn:E. simpl. f_equal. change os with (fst (os, s2)). rewrite <- E. apply IH; auto.
  Qed.
  Lemma fifo_ok : forall ops s n, dwf s -> let r := sq_run neqb s ops in left n s ++ puts_of neqb n ops = gets_of neqb n (fst r) ++ left n (snd r).
  Proof.
    induction ops as [|op ops IH]; intros s n W; cbv zeta; simpl; auto. - now rewrite app_nil_r.
    - destruct op as [m x|m| |]; simpl.
      + set (s' := dset neqb (assert_queue neqb s m) m _). assert (W' : dwf s') by (apply (dset_wf nok); now apply assert_wf). specialize (IH s' n W').
        destruct (sq_run neqb s' ops) as [os s2]. simpl in *. rewrite <- IH. rewrite app_assoc. f_equal. unfold s'. rewrite left_set. destruct (neqb m n) eqn:D.
        * apply nok in D; subst. rewrite (eqb_refl' nok). rewrite <- (left_assert s n n). unfold left_of. destruct (dget neqb (assert_queue neqb s n) n); auto.
        * replace (neqb n m) with false. -- now rewrite app_nil_r, left_assert. -- symmetry. apply (eqb_false_iff nok). intros ->. rewrite (eqb_refl' nok) in D; discriminate.
      + pose proof (left_assert s m m) as LA. unfold left_of in LA at 1. destruct (dget neqb (assert_queue neqb s m) m) as [[|x l]|] eqn:D.
        * specialize (IH (assert_queue neqb s m) n (assert_wf s m W)). destruct (sq_run neqb (assert_queue neqb s m) ops). simpl in *. rewrite left_assert in IH. exact IH.
        * set (s' := dset neqb (assert_queue neqb s m) m l). assert (W' : dwf s') by (apply (dset_wf nok); now apply assert_wf). specialize (IH s' n W').
          destruct (sq_run neqb s' ops) as [os s2]. simpl in *. rewrite <- app_assoc, <- IH. unfold s'. rewrite left_set. destruct (neqb m n) eqn:D2.
          -- apply nok in D2; subst. rewrite (eqb_refl' nok), <- LA. reflexivity.
          -- replace (neqb n m) with false. ++ now rewrite left_assert. ++ symmetry. apply (eqb_false_iff nok). intros ->. rewrite (eqb_refl' nok) in D2; discriminate.
        * specialize (IH (assert_queue neqb s m) n (assert_wf s m W)). destruct (sq_run neqb (assert_queue neqb s m) ops). simpl in *. rewrite left_assert in IH. exact IH.
      + destruct (first_nonempty s) as [[[m x] l]|] eqn:F.
        * set (s' := dset neqb s m l). assert (W' : dwf s') by (now apply (dset_wf nok)). specialize (IH s' n W').
          destruct (sq_run neqb s' ops) as [os s2]. simpl in *. rewrite <- app_assoc, <- IH. unfold s'. rewrite left_set. apply first_nonempty_in in F. pose proof (In_dget nok m (x :: l) W F) as G.
          destruct (neqb m n) eqn:D2.
          -- apply nok in D2; subst. rewrite (eqb_refl' nok). unfold left_of. rewrite G. reflexivity.
          -- replace (neqb n m) with false; auto. symmetry. apply (eqb_false_iff nok). intros ->. rewrite (eqb_refl' nok) in D2; discriminate.
        * specialize (IH s n W). destruct (sq_run neqb s ops). exact IH.
      + specialize (IH s n W). destruct (sq_run neqb s ops). exact IH.
  Qed.
End SQ.

Lemma total_app : forall l m, total (l ++ m) = (total l + total m)%Z.
Proof. unfold total; induction l; simpl; intros; auto. rewrite IHl. lia. Qed.
Lemma rolling_ok : forall n, 1 <= n -> forall ops s vs, queue s = last_n n vs -> tot_sum s = total (last_n n vs) -> rolling_run (Z.of_nat n) s ops = rolling_expected n vs ops.
Proof.
  intros n Hn. induction ops as [|op ops IH]; simpl; intros s vs Q Su; auto. destruct op as [x| |]; simpl.
  - assert (Lq : length (queue s) = Nat.min n (length vs)) by (rewrite Q; unfold last_n; rewrite skipn_length; lia).
    destruct (Z.of_nat n <=? Z.of_nat (length (queue s)))%Z eqn:D.
    + apply Z.leb_le in D. assert (Lv : n <= length vs) by lia. destruct (queue s) as [|p q] eqn:Eq; [simpl in Lq; lia|].
      assert (E : last_n n (vs ++ [x]) = q ++ [x]).
      { unfold last_n in *. rewrite app_length; simpl. replace (length vs + 1 - n) with (S (length vs - n)) by lia. rewrite skipn_app.
        replace (S (length vs - n) - length vs) with 0 by lia. simpl. f_equal. rewrite skipn_nth in Q. destruct (nth_error vs (length vs - n)); [|discriminate]. now inversion Q. }
      f_equal. apply IH; simpl; auto. rewrite E, total_app. simpl. rewrite Su, <- Q. simpl. lia.
    + apply Z.leb_gt in D. assert (Lv : length vs < n) by lia. assert (E : last_n n (vs ++ [x]) = queue s ++ [x]).
      { rewrite Q. unfold last_n. rewrite app_length; simpl. replace (length vs + 1 - n) with 0 by lia. replace (length vs - n) with 0 by lia. reflexivity. }
      f_equal. apply IH; simpl; auto. rewrite E, total_app, Su, <- Q. simpl. lia.
  - f_equal; [|apply IH; auto]. destruct vs as [|v vs].
    + unfold last_n in Q. simpl in Q. rewrite Q. reflexivity.
    + rewrite <- Su, <- Q. destruct (queue s) eqn:E; auto. exfalso. apply (f_equal (@length Z)) in Q. unfold last_n in Q. rewrite skipn_length in Q. cbn [length] in Q. lia.
  - f_equal. apply IH; auto.
Qed.

Section SeenP.
  Variable T : Type.
  Variable eqb : T -> T -> bool.
  Hypothesis eok : eqb_ok eqb.
  Variable hashable : T -> bool.
  Definition knows (b : bool) (s : seen T) (before : list T) : Prop :=
    match s with
    | Nothing _ => before = []
    | ASet l => b = true /\ forall x, In x l <-> In x before
    | AList l => b = false /\ forall x, In x l <-> In x before
    end.
  Lemma memb_ext : forall l m x, (forall y, In y l <-> In y m) -> memb eqb x l = memb eqb x m.
  Proof. intros l m x H. destruct (memb eqb x m) eqn:E. - apply (memb_In eok). apply H. now apply (memb_In eok). - apply (memb_false eok). rewrite H. now apply (memb_false eok). Qed.
  Lemma seen_ok : forall b l s before, Forall (fun x => hashable x = b) l -> knows b s before -> seen_run eqb hashable s l = firsts eqb before l.
  Proof.
    intros b l. induction l as [|x l IH]; simpl; intros s before F K; auto. inversion F; subst.
    assert (A : forall (m : list T), (forall y, In y m <-> In y before) -> forall y, In y (m ++ [x]) <-> In y (before ++ [x])).
    { intros m H y. rewrite !in_app_iff, H. tauto. }
    assert (A' : forall (m : list T), (forall y, In y m <-> In y before) -> memb eqb x m = true -> forall y, In y m <-> In y (before ++ [x])).
    { intros m H M y. apply (memb_In eok) in M. rewrite in_app_iff, <- H. simpl. split; auto. intros [I|[->|[]]]; auto. }
    unfold is_unique. destruct (hashable x) eqn:Hx, s as [|m|m]; simpl in K; try (match type of K with _ /\ _ => destruct K as [K1 K2]; try discriminate end).
    - subst before. simpl. f_equal. apply IH; auto. simpl. split; auto. tauto.
    - rewrite <- (memb_ext m before x K2). destruct (memb eqb x m) eqn:M; simpl; f_equal; apply IH; auto; simpl; auto.
    - subst before. simpl. f_equal. apply IH; auto. simpl. split; auto. tauto.
    - rewrite <- (memb_ext m before x K2). destruct (memb eqb x m) eqn:M; simpl; f_equal; apply IH; auto; simpl; auto.
  Qed.
End SeenP.
