From Verif Require Import Prelude PreludeFacts Order_Spec PySeq_Model SortedList_Model SortedList_Spec.

Set Implicit Arguments.

Section PySeqFacts.
  Context {A : Type}.
  Variable lt : A -> A -> bool.

  Lemma py_insert_perm x l : Permutation (py_insert lt x l) (x :: l).
  Proof.
    induction l as [|y t IH]; simpl; auto. destruct (lt y x); auto.
    rewrite IH. apply perm_swap.
  Qed.
  Lemma py_sorted_perm l : Permutation (py_sorted lt l) l.
  Proof. induction l as [|x t IH]; simpl; auto. rewrite py_insert_perm. constructor; auto. Qed.

  Inductive sortedby : list A -> Prop :=
  | sb_nil : sortedby []
  | sb_cons x l : (forall y, In y l -> lt y x = false) -> sortedby l -> sortedby (x :: l).

  Hypothesis Hord : total_preorder lt.
  Lemma py_insert_sorted x l : sortedby l -> sortedby (py_insert lt x l).
  Proof.
    induction 1 as [|y l Hy Hs IH]; simpl.
    - constructor; [intros ? []|constructor].
    - destruct (lt y x) eqn:E.
      + constructor; auto. intros z Hz. rewrite py_insert_perm in Hz. destruct Hz as [<-|Hz]; auto.
        apply (proj1 Hord); auto.
      + constructor; [|constructor; auto]. intros z [<-|Hz]; auto.
        apply (proj2 Hord x y z); auto.
  Qed.
  Lemma py_sorted_sorted l : sortedby (py_sorted lt l).
  Proof. induction l as [|x t IH]; simpl; [constructor|]. apply py_insert_sorted; auto. Qed.
End PySeqFacts.

Section Facts2.
  Context {A : Type}.
  Lemma py_index_Some (l : list A) i x : py_index l i = Some x <-> at_index l i x.
  Proof.
    unfold py_index, at_index. destruct (Z.ltb_spec i 0) as [H|H].
    - destruct (Z.ltb_spec (i + Z.of_nat (length l)) 0) as [H2|H2].
      + split; [discriminate|]. intros [[H3 _]|[_ [H3 _]]]; lia.
      + replace (Z.of_nat (length l) + i)%Z with (i + Z.of_nat (length l))%Z by lia.
        split; [intros E; right; auto|]. intros [[H3 _]|[_ [_ E]]]; [lia|auto].
    - destruct (Z.ltb_spec i 0) as [H2|H2]; [lia|].
      split; [auto|]. intros [[_ E]|[H3 _]]; [auto|lia].
  Qed.
  Lemma py_index_None (l : list A) i : py_index l i = None -> forall x, ~ at_index l i x.
  Proof. intros E x H. apply py_index_Some in H. congruence. Qed.

  Lemma slice_bound_pos n i : Z.of_nat (slice_bound n i) = bound_pos n 0 (Some i).
  Proof. unfold slice_bound, bound_pos. destruct (Z.ltb_spec i 0); lia. Qed.

  Lemma nth_error_skipn (l : list A) n k : nth_error (skipn n l) k = nth_error l (n + k).
  Proof. revert l; induction n as [|n IH]; intros [|x l]; simpl; auto. destruct k; auto. Qed.
  Lemma nth_error_firstn (l : list A) n k :
    nth_error (firstn n l) k = if k <? n then nth_error l k else None.
  Proof.
    revert l k; induction n as [|n IH]; intros [|x l] [|k]; simpl; auto.
    - destruct (S k <? S n); auto.
    - rewrite IH. change (S k <? S n) with (k <? n). auto.
  Qed.

  Lemma py_slice_ok (l : list A) a b : slice_denotes l a b (py_slice l a b).
  Proof.
    intros k. unfold py_slice. rewrite nth_error_firstn, nth_error_skipn. cbv zeta.
    assert (Ha : bound_pos (length l) 0 a = Z.of_nat (slice_start (length l) a)).
    { destruct a; unfold slice_start; [symmetry; apply slice_bound_pos|reflexivity]. }
    assert (Hb : bound_pos (length l) (length l) b = Z.of_nat (slice_stop (length l) b)).
    { destruct b; unfold slice_stop; [symmetry; apply slice_bound_pos|reflexivity]. }
    rewrite Ha, Hb.
    destruct (Nat.ltb_spec k (slice_stop (length l) b - slice_start (length l) a));
      destruct (Z.ltb_spec (Z.of_nat (slice_start (length l) a) + Z.of_nat k) (Z.of_nat (slice_stop (length l) b)));
      try lia; auto.
    f_equal. lia.
  Qed.
End Facts2.

Section SortedListProofs.
  Context {A : Type}.
  Variable ltA eqA : A -> A -> bool.
  Variable key : A -> Z.
  Hypothesis Hord : total_preorder ltA.
  Hypothesis Heqb : eqb_ok eqA.
  Local Notation ltP := (lt_pair ltA eqA).

  Lemma ltP_ord : total_preorder ltP.
  Proof.
    assert (Hself : forall a, ltA a a = false).
    { intros a. destruct (ltA a a) eqn:E; auto. pose proof (proj1 Hord _ _ E). congruence. }
    assert (HE : forall p q, ltP p q = if Z.eqb (fst p) (fst q) then ltA (snd p) (snd q)
                                     else Z.ltb (fst p) (fst q)).
    { intros p q. unfold lt_pair. destruct (Z.eqb (fst p) (fst q)); auto.
      destruct (eqA (snd p) (snd q)) eqn:E; auto. apply Heqb in E. rewrite E. auto. }
    split.
    - intros a b. rewrite !HE. destruct (Z.eqb_spec (fst a) (fst b)) as [e|e];
        destruct (Z.eqb_spec (fst b) (fst a)) as [e'|e']; try congruence.
      + apply Hord.
      + rewrite Z.ltb_lt, Z.ltb_ge. lia.
    - intros a b c. rewrite !HE.
      destruct (Z.eqb_spec (fst b) (fst a)) as [e1|e1];
      destruct (Z.eqb_spec (fst c) (fst b)) as [e2|e2];
      destruct (Z.eqb_spec (fst c) (fst a)) as [e3|e3]; try lia; rewrite ?Z.ltb_ge; try lia.
      apply Hord.
  Qed.

  (** sortedness, inductively *)
  Inductive ksorted : list A -> Prop :=
  | ks_nil : ksorted []
  | ks_cons x l : (forall y, In y l -> (key x <= key y)%Z) -> ksorted l -> ksorted (x :: l).

  Lemma ksorted_app l1 l2 : ksorted (l1 ++ l2) <->
    ksorted l1 /\ ksorted l2 /\ (forall a b, In a l1 -> In b l2 -> (key a <= key b)%Z).
  Proof.
    induction l1 as [|x l1 IH]; simpl.
    - split; [intros H; repeat split; auto; [constructor|intros ? ? []]|tauto].
    - split.
      + intros H. inversion H as [|? ? Hx Hl]; subst. apply IH in Hl. destruct Hl as (H1 & H2 & H3).
        repeat split; auto.
        * constructor; auto. intros y Hy. apply Hx. apply in_app_iff; auto.
        * intros a b [<-|Ha] Hb; auto. apply Hx. apply in_app_iff; auto.
      + intros (H1 & H2 & H3). inversion H1; subst. constructor.
        * intros y Hy. apply in_app_iff in Hy. destruct Hy; auto.
        * apply IH. auto.
  Qed.

  Lemma ksorted_by_key l : ksorted l <-> by_key key l.
  Proof.
    induction l as [|x l IH].
    - split; [|constructor]. intros _ i j a b _ Ha. destruct i; discriminate.
    - split.
      + intros H. inversion H as [|? ? Hx Hl]; subst. apply IH in Hl.
        intros [|i] [|j] a b Hij Ha Hb; simpl in *.
        * injection Ha as ->. injection Hb as ->. lia.
        * injection Ha as ->. apply Hx. eapply nth_error_In; eauto.
        * lia.
        * apply (Hl i j); auto. lia.
      + intros H. constructor.
        * intros y Hy. apply In_nth_error in Hy. destruct Hy as [n Hn].
          apply (H 0 (S n)); auto. lia.
        * apply IH. intros i j a b Hij Ha Hb. apply (H (S i) (S j)); auto. lia.
  Qed.

  Definition slInv (s : slist A) : Prop :=
    sl_keys s = map key (sl_items s) /\ ksorted (sl_items s).

  Lemma lt_pair_key x y : ltP (key y, y) (key x, x) = false -> (key x <= key y)%Z.
  Proof.
    unfold lt_pair. simpl. destruct (Z.eqb_spec (key y) (key x)); [lia|].
    rewrite Z.ltb_ge. lia.
  Qed.

  Lemma sl_init_inv xs : slInv (sl_init ltA eqA key xs) /\
                         Permutation xs (sl_items (sl_init ltA eqA key xs)).
  Proof.
    unfold sl_init, slInv. simpl.
    pose proof (py_sorted_perm ltP (map (fun x => (key x, x)) xs)) as P.
    pose proof (py_sorted_sorted ltP_ord (map (fun x => (key x, x)) xs)) as S.
    remember (py_sorted ltP (map (fun x => (key x, x)) xs)) as l eqn:El. clear El.
    assert (Hk : forall p, In p l -> fst p = key (snd p)).
    { intros p Hp. rewrite P in Hp. apply in_map_iff in Hp. destruct Hp as (x & <- & _). auto. }
    split; [split|].
    - rewrite map_map. apply map_ext_in. auto.
    - clear P. induction S as [|[k x] l Hx Hs IH]; simpl; constructor.
      + intros y Hy. apply in_map_iff in Hy. destruct Hy as ([k' y'] & <- & Hin).
        simpl. apply lt_pair_key. specialize (Hx _ Hin).
        pose proof (Hk (k, x)) as E1. pose proof (Hk (k', y')) as E2. simpl in E1, E2.
        rewrite <- E1, <- E2 by auto. auto.
      + apply IH. intros; apply Hk; simpl; auto.
    - apply Permutation_sym. apply (Permutation_map snd) in P. rewrite map_map in P. simpl in P.
      rewrite map_id in P. auto.
  Qed.

  Lemma find_key_ge l kv : ksorted l ->
    exists l1 l2, l = l1 ++ l2 /\ (forall y, In y l1 -> (key y < kv)%Z) /\
                  (forall y, In y l2 -> (kv <= key y)%Z) /\
                  match find_index (fun k => Z.leb kv k) (map key l) with
                  | Some i => i | None => length (map key l) end = length l1.
  Proof.
    induction 1 as [|x l Hx Hl IH].
    - exists [], []. simpl. repeat split; auto; intros ? [].
    - simpl. destruct (Z.leb_spec kv (key x)) as [H|H].
      + exists [], (x :: l). simpl. repeat split; auto; [intros ? []|].
        intros y [<-|Hy]; auto. specialize (Hx _ Hy). lia.
      + destruct IH as (l1 & l2 & -> & H1 & H2 & H3). exists (x :: l1), l2. simpl.
        repeat split; auto.
        * intros y [<-|Hy]; auto.
        * destruct (find_index (fun k => Z.leb kv k) (map key (l1 ++ l2))); simpl; f_equal; auto.
  Qed.

  Lemma insert_at_app (x : A) l1 l2 : insert_at (length l1) x (l1 ++ l2) = l1 ++ x :: l2.
  Proof. induction l1 as [|y l1 IH]; simpl; [destruct l2; auto|]. f_equal; auto. Qed.
  Lemma insert_at_map (f : A -> Z) i x l : insert_at i (f x) (map f l) = map f (insert_at i x l).
  Proof.
    revert l; induction i as [|i IH]; intros [|y l]; simpl; auto. f_equal; auto.
  Qed.
  Lemma del_nth_map (f : A -> Z) i l : del_nth i (map f l) = map f (del_nth i l).
  Proof. revert l; induction i as [|i IH]; intros [|y l]; simpl; auto. f_equal; auto. Qed.

  Lemma sl_add_ok s x : slInv s ->
    exists l1 l2, sl_items s = l1 ++ l2 /\ (forall y, In y l1 -> (key y < key x)%Z) /\
                  (forall y, In y l2 -> (key x <= key y)%Z) /\
                  snd (sl_add key s x) = length l1 /\
                  sl_items (fst (sl_add key s x)) = l1 ++ x :: l2 /\ slInv (fst (sl_add key s x)).
  Proof.
    intros [Hk Hs]. destruct (find_key_ge (key x) Hs) as (l1 & l2 & E & H1 & H2 & H3).
    exists l1, l2. unfold sl_add. rewrite Hk. cbv zeta. simpl. rewrite H3.
    assert (Ei : insert_at (length l1) x (sl_items s) = l1 ++ x :: l2) by (rewrite E; apply insert_at_app).
    repeat split; auto; simpl.
    - rewrite insert_at_map. reflexivity.
    - rewrite Ei. rewrite E in Hs. apply ksorted_app in Hs. destruct Hs as (S1 & S2 & S3).
      apply ksorted_app. repeat split; auto.
      + constructor; auto.
      + intros a b Ha [<-|Hb]; auto. specialize (H1 _ Ha). lia.
  Qed.

  Lemma sl_extend_ok xs : forall s, slInv s ->
    slInv (sl_extend key s xs) /\ Permutation (sl_items (sl_extend key s xs)) (xs ++ sl_items s).
  Proof.
    unfold sl_extend. induction xs as [|x xs IH]; simpl; intros s I; auto.
    destruct (sl_add_ok x I) as (l1 & l2 & E & _ & _ & _ & E2 & I2).
    destruct (IH _ I2) as [I3 P]. split; auto. rewrite P, E2, E.
    rewrite <- Permutation_middle. rewrite <- Permutation_middle. reflexivity.
  Qed.

  Lemma find_eq_Some l x i : find_index (fun y => eqA y x) l = Some i -> first_at l x i.
  Proof.
    intros H. destruct (find_index_Some _ _ H) as (y & H1 & H2 & H3). apply Heqb in H2. subst y.
    split; auto. intros j Hj E. specialize (H3 j x Hj E). rewrite (eqb_refl' Heqb) in H3. discriminate.
  Qed.
  Lemma find_eq_None l x : find_index (fun y => eqA y x) l = None -> ~ In x l.
  Proof.
    intros H Hin. pose proof (proj1 (find_index_None _ _) H x Hin) as E. simpl in E.
    rewrite (eqb_refl' Heqb) in E. discriminate.
  Qed.
  Lemma first_at_split l (x : A) i : first_at l x i ->
    exists l1 l2, l = l1 ++ x :: l2 /\ length l1 = i /\ ~ In x l1 /\ del_nth i l = l1 ++ l2.
  Proof.
    intros [H1 H2]. destruct (nth_error_split l i H1) as (l1 & l2 & -> & <-).
    exists l1, l2. repeat split; auto.
    - intros Hin. apply In_nth_error in Hin. destruct Hin as [j Hj].
      assert (Hlt : j < length l1) by (apply nth_error_Some; congruence).
      apply (H2 j Hlt). rewrite nth_error_app1; auto.
    - clear. induction l1 as [|y l1 IH]; simpl; auto. f_equal; auto.
  Qed.

  Lemma ksorted_remove l1 x l2 : ksorted (l1 ++ x :: l2) -> ksorted (l1 ++ l2).
  Proof.
    rewrite !ksorted_app. intros (H1 & H2 & H3). inversion H2; subst. repeat split; auto.
    intros a b Ha Hb. apply H3; auto. right; auto.
  Qed.

  Lemma sl_remove_ok s x : slInv s ->
    (exists i l1 l2, sl_remove eqA s x = ({| sl_items := l1 ++ l2; sl_keys := map key (l1 ++ l2) |}, Ok i) /\
        find_index (fun y => eqA y x) (sl_items s) = Some i /\
        sl_items s = l1 ++ x :: l2 /\ length l1 = i /\ ~ In x l1 /\
        slInv {| sl_items := l1 ++ l2; sl_keys := map key (l1 ++ l2) |}) \/
    (sl_remove eqA s x = (s, Err ValueError) /\
     find_index (fun y => eqA y x) (sl_items s) = None /\ ~ In x (sl_items s)).
  Proof.
    intros [Hk Hs]. unfold sl_remove.
    destruct (find_index (fun y => eqA y x) (sl_items s)) as [i|] eqn:E.
    - left. destruct (first_at_split (find_eq_Some _ _ E)) as (l1 & l2 & E1 & E2 & E3 & E4).
      exists i, l1, l2. rewrite Hk, del_nth_map, E4. repeat split; auto.
      rewrite E1 in Hs. eapply ksorted_remove; eauto.
    - right. repeat split; auto. apply find_eq_None; auto.
  Qed.

  Lemma sl_step_ok s o : slInv s ->
    let '(s', out) := sl_step eqA key s o in
    sl_spec key (sl_items s) o out (sl_items s') /\ slInv s'.
  Proof.
    intros I. pose proof I as [Hk Hs]. destruct o as [x|xs|x| | |x|x| | | |i|a b]; cbn beta iota delta [sl_step].
    - destruct (sl_add_ok x I) as (l1 & l2 & E & H1 & H2 & H3 & E2 & I2).
      destruct (sl_add key s x) as [s' i]. simpl in *. subst i. split; auto. rewrite E2.
      constructor; auto.
    - destruct (sl_extend_ok xs I) as [I2 P]. split; auto. constructor; auto.
      apply ksorted_by_key. apply I2.
    - destruct (sl_remove_ok x I) as [(i & l1 & l2 & -> & _ & E & _ & Hn & I2)|(-> & _ & Hn)].
      + split; auto. simpl. constructor; auto.
      + split; auto. constructor; auto.
    - unfold sl_pop. rewrite Hk. rewrite <- map_rev.
      destruct (rev (sl_items s)) as [|x r] eqn:E; simpl.
      + split; auto. constructor. rewrite <- (rev_involutive (sl_items s)), E. auto.
      + assert (Es : sl_items s = rev r ++ [x]).
        { rewrite <- (rev_involutive (sl_items s)), E. auto. }
        split; [constructor; auto|]. split; simpl; [rewrite map_rev; auto|].
        rewrite Es in Hs. apply ksorted_app in Hs. apply Hs.
    - unfold sl_popleft. rewrite Hk. destruct (sl_items s) as [|x r] eqn:E; simpl.
      + rewrite E. split; auto. constructor; auto.
      + split; [constructor; auto|]. split; simpl; auto. inversion Hs; auto.
    - unfold sl_index. destruct (find_index (fun y => eqA y x) (sl_items s)) as [i|] eqn:E.
      + split; auto. constructor. apply find_eq_Some; auto.
      + split; auto. constructor. apply find_eq_None; auto.
    - split; auto. constructor. apply memb_In; auto.
    - split; auto. constructor.
    - split; auto. constructor. destruct (sl_items s); split; intros; congruence.
    - split; auto. constructor.
    - split; auto. destruct (py_index (sl_items s) i) as [x|] eqn:E; constructor.
      + apply py_index_Some; auto.
      + apply py_index_None; auto.
    - split; auto. constructor. apply py_slice_ok.
  Qed.

  Lemma sl_run_ok ops : forall s, slInv s ->
    sl_session key (sl_items s) ops (fst (sl_run eqA key s ops)) (sl_items (snd (sl_run eqA key s ops))).
  Proof.
    induction ops as [|o t IH]; intros s I; simpl.
    - constructor. apply ksorted_by_key. apply I.
    - pose proof (sl_step_ok o I) as Hs. destruct (sl_step eqA key s o) as [s1 out].
      destruct Hs as [Hs I1]. specialize (IH s1 I1).
      destruct (sl_run eqA key s1 t) as [outs s2]. simpl in *. econstructor; eauto.
      apply ksorted_by_key. apply I.
  Qed.

  Lemma sorted_list_ok xs ops :
    exists start, Permutation xs start /\
      sl_session key start ops (fst (sl_run eqA key (sl_init ltA eqA key xs) ops))
        (sl_items (snd (sl_run eqA key (sl_init ltA eqA key xs) ops))).
  Proof.
    destruct (sl_init_inv xs) as [I P]. exists (sl_items (sl_init ltA eqA key xs)).
    split; auto. apply sl_run_ok; auto.
  Qed.

  (** ** Ranking *)
  Definition last_at (l : list A) (x : A) (p : nat) : Prop :=
    nth_error l p = Some x /\ forall j, p < j -> nth_error l j <> Some x.

  Lemma rk_record_ok l : forall start d x,
    (forall p, last_at l x p -> dget eqA (rk_record eqA start l d) x = Some (start + p)) /\
    (~ In x l -> dget eqA (rk_record eqA start l d) x = dget eqA d x).
  Proof.
    unfold rk_record. induction l as [|y l IH]; simpl; intros start d x.
    - split; auto. intros p [H _]. destruct p; discriminate.
    - destruct (IH (S start) (dset eqA d y start) x) as [H1 H2]. split.
      + intros [|p] [Hp Hq].
        * simpl in Hp. injection Hp as ->. rewrite H2.
          -- rewrite (dget_dset_eq Heqb). f_equal. lia.
          -- intros Hin. apply In_nth_error in Hin. destruct Hin as [j Hj].
             apply (Hq (S j)); [lia|auto].
        * rewrite (H1 p). { f_equal. lia. } split; auto. intros j Hj. apply (Hq (S j)). lia.
      + intros Hn. rewrite H2 by tauto. apply dget_dset_neq; auto.
  Qed.

  Lemma last_at_exists (l : list A) x : In x l -> exists p, last_at l x p.
  Proof.
    induction l as [|y l IH]; simpl; [tauto|]. intros H.
    destruct (in_dec (eqb_dec Heqb) x l) as [Hin|Hn].
    - destruct (IH Hin) as (p & H1 & H2). exists (S p). split; auto.
      intros [|j] Hj; [lia|]. simpl. apply H2. lia.
    - destruct H as [->|H]; [|tauto]. exists 0. split; auto. intros [|j] Hj; [lia|].
      simpl. intros E. apply Hn. eapply nth_error_In; eauto.
  Qed.

  Definition rkInv (r : ranking A) : Prop :=
    slInv (rk_list r) /\
    forall x p, last_at (sl_items (rk_list r)) x p -> dget eqA (rk_pos r) x = Some p.

  Lemma rk_record_update l l' l1 d :
    (* positions below [length l1] agree, later ones are re-recorded, and no
       element is known only from a later position of the old list *)
    (forall x p, last_at l x p -> dget eqA d x = Some p) ->
    firstn (length l1) l = l1 -> firstn (length l1) l' = l1 ->
    (forall x, In x (skipn (length l1) l) -> ~ In x (skipn (length l1) l') -> ~ In x l') ->
    forall x p, last_at l' x p ->
    dget eqA (rk_record eqA (length l1) (skipn (length l1) l') d) x = Some p.
  Proof.
    intros Hd F1 F2 Hk x p [Hp Hq].
    destruct (rk_record_ok (skipn (length l1) l') (length l1) d x) as [R1 R2].
    destruct (Nat.lt_ge_cases p (length l1)) as [Hlt|Hge].
    - assert (Hns : ~ In x (skipn (length l1) l')).
      { intros Hin. apply In_nth_error in Hin. destruct Hin as [j Hj].
        rewrite nth_error_skipn in Hj. apply (Hq (length l1 + j)); auto. lia. }
      rewrite R2 by auto. apply Hd.
      assert (Hpre : forall q, q < length l1 -> nth_error l q = nth_error l' q).
      { intros q Hq'. transitivity (nth_error l1 q).
        - rewrite <- F1 at 1. rewrite nth_error_firstn.
          destruct (Nat.ltb_spec q (length l1)); auto; lia.
        - rewrite <- F2 at 1. rewrite nth_error_firstn.
          destruct (Nat.ltb_spec q (length l1)); auto; lia. }
      split.
      + rewrite Hpre; auto.
      + intros j Hj Ej. destruct (Nat.lt_ge_cases j (length l1)) as [Hl|Hg].
        * apply (Hq j Hj). rewrite <- Hpre; auto.
        * assert (Hin : In x (skipn (length l1) l)).
          { apply nth_error_In with (n := j - length l1). rewrite nth_error_skipn.
            replace (length l1 + (j - length l1)) with j by lia. auto. }
          apply (Hk x Hin Hns). eapply nth_error_In; eauto.
    - rewrite (R1 (p - length l1)).
      + f_equal. lia.
      + split.
        * rewrite nth_error_skipn. replace (length l1 + (p - length l1)) with p by lia. auto.
        * intros j Hj. rewrite nth_error_skipn. apply Hq. lia.
  Qed.

  Lemma firstn_app_exact (l1 l2 : list A) : firstn (length l1) (l1 ++ l2) = l1.
  Proof. induction l1 as [|x l1 IH]; simpl; [destruct l2; auto|f_equal; auto]. Qed.
  Lemma skipn_app_exact (l1 l2 : list A) : skipn (length l1) (l1 ++ l2) = l2.
  Proof. induction l1 as [|x l1 IH]; simpl; auto. Qed.

  Lemma rk_init_inv xs : rkInv (rk_init ltA eqA key xs) /\
    Permutation xs (sl_items (rk_list (rk_init ltA eqA key xs))).
  Proof.
    destruct (sl_init_inv xs) as [I P]. split; auto. split; auto.
    intros x p Hp. apply (rk_record_ok _ 0 [] x). exact Hp.
  Qed.

  Lemma rk_add_ok r x : rkInv r ->
    rkInv (rk_add eqA key r x) /\
    exists l1 l2, sl_items (rk_list r) = l1 ++ l2 /\ sl_items (rk_list (rk_add eqA key r x)) = l1 ++ x :: l2.
  Proof.
    intros [I Hd]. destruct (sl_add_ok x I) as (l1 & l2 & E & H1 & H2 & H3 & E2 & I2).
    unfold rk_add. destruct (sl_add key (rk_list r) x) as [s' i]. simpl in *. subst i.
    split; eauto. split; auto. simpl. rewrite E2.
    apply rk_record_update with (l := l1 ++ l2).
    - rewrite <- E. exact Hd.
    - apply firstn_app_exact.
    - apply firstn_app_exact.
    - intros y. rewrite !skipn_app_exact. simpl. tauto.
  Qed.

  Lemma rk_remove_ok r x : rkInv r ->
    (exists r' i l1 l2, rk_remove eqA r x = (r', Ok i) /\ rkInv r' /\ ~ In x l1 /\
        sl_items (rk_list r) = l1 ++ x :: l2 /\ sl_items (rk_list r') = l1 ++ l2) \/
    (rk_remove eqA r x = (r, Err ValueError) /\ ~ In x (sl_items (rk_list r))).
  Proof.
    intros [I Hd]. unfold rk_remove, sl_index.
    destruct (sl_remove_ok x I) as [(i & l1 & l2 & -> & -> & E & Hl & Hn & I2)|(-> & -> & Hn)].
    - left. eexists _, i, l1, l2. split; [reflexivity|]. split; [|auto]. split; auto. cbn [rk_list rk_pos sl_items].
      subst i. apply rk_record_update with (l := l1 ++ x :: l2).
      + rewrite <- E. exact Hd.
      + apply firstn_app_exact.
      + apply firstn_app_exact.
      + intros y. rewrite !skipn_app_exact. simpl. rewrite in_app_iff.
        intros [<-|Hy] Hn2; tauto.
    - right. auto.
  Qed.

  Lemma rk_run_ok ops : forall r held, rkInv r -> Permutation held (sl_items (rk_list r)) ->
    asks_only_ranked eqA held ops = true ->
    rk_session key (sl_items (rk_list r)) ops (fst (rk_run eqA key r ops))
      (sl_items (rk_list (snd (rk_run eqA key r ops)))).
  Proof.
    induction ops as [|o t IH]; intros r held I P Hok; simpl.
    - constructor. apply ksorted_by_key. apply I.
    - assert (Hs : by_key key (sl_items (rk_list r))) by (apply ksorted_by_key; apply I).
      assert (Hstep : forall r1 out h1, rk_step eqA key r o = (r1, out) ->
        rk_spec key (sl_items (rk_list r)) o out (sl_items (rk_list r1)) -> rkInv r1 ->
        Permutation h1 (sl_items (rk_list r1)) -> asks_only_ranked eqA h1 t = true ->
        let (r2, out2) := rk_step eqA key r o in
        rk_session key (sl_items (rk_list r)) (o :: t)
          (fst (let (outs, r') := rk_run eqA key r2 t in (out2 :: outs, r')))
          (sl_items (rk_list (snd (let (outs, r') := rk_run eqA key r2 t in (out2 :: outs, r')))))).
      { intros r1 out h1 E Hsp I1 P1 Hok1. rewrite E. specialize (IH r1 h1 I1 P1 Hok1).
        destruct (rk_run eqA key r1 t) as [outs r2]. simpl in *. econstructor; eauto. }
      assert (Hgoal : let (r2, out2) := rk_step eqA key r o in
        rk_session key (sl_items (rk_list r)) (o :: t)
          (fst (let (outs, r') := rk_run eqA key r2 t in (out2 :: outs, r')))
          (sl_items (rk_list (snd (let (outs, r') := rk_run eqA key r2 t in (out2 :: outs, r')))))).
      2: { destruct (rk_step eqA key r o); exact Hgoal. }
      destruct o as [x|x|x|x|i| ]; simpl in Hok.
      + destruct (rk_add_ok x I) as (I1 & l1 & l2 & E1 & E2).
        apply (Hstep (rk_add eqA key r x) SONone (x :: held)); auto.
        * rewrite E1, E2. constructor; auto.
        * rewrite E2, P, E1. apply Permutation_middle.
      + destruct (rk_remove_ok x I) as [(r' & i & l1 & l2 & E & I1 & Hn & E1 & E2)|[E Hn]].
        * apply (Hstep r' SONone (remove_first eqA x held)); auto.
          -- simpl. rewrite E. auto.
          -- rewrite E1, E2. constructor; auto.
          -- rewrite E2. apply Permutation_cons_inv with x.
             rewrite (remove_first_perm Heqb).
             ++ rewrite P, E1. symmetry. apply Permutation_middle.
             ++ rewrite P, E1. apply in_app_iff. right; left; auto.
        * apply (Hstep r (SORaise ValueError) (remove_first eqA x held)); auto.
          -- simpl. rewrite E. auto.
          -- constructor; auto.
          -- rewrite (remove_first_notin Heqb); auto. rewrite P; auto.
      + apply andb_true_iff in Hok. destruct Hok as [Hm Hok].
        apply (memb_In Heqb) in Hm. rewrite P in Hm. destruct (last_at_exists _ _ Hm) as [p Hp].
        apply (Hstep r (SOIndex p) held); auto.
        * simpl. rewrite (proj2 I x p Hp). auto.
        * constructor. apply Hp.
      + apply (Hstep r (match sl_index eqA (rk_list r) x with Ok i => SOIndex i | Err e => SORaise e end) held); auto.
        unfold sl_index. destruct (find_index (fun y => eqA y x) (sl_items (rk_list r))) as [i|] eqn:E.
        * constructor. apply find_eq_Some; auto.
        * constructor. apply find_eq_None; auto.
      + apply (Hstep r (match py_index (sl_items (rk_list r)) i with
                        | Some x => SOItem x | None => SORaise IndexError end) held); auto.
        destruct (py_index (sl_items (rk_list r)) i) as [x|] eqn:E; constructor.
        * apply py_index_Some; auto.
        * apply py_index_None; auto.
      + apply (Hstep r (SOItems (sl_items (rk_list r))) held); auto. constructor.
  Qed.

  Lemma ranking_ok xs ops :
    asks_only_ranked eqA xs ops = true ->
    exists start, Permutation xs start /\
      rk_session key start ops (fst (rk_run eqA key (rk_init ltA eqA key xs) ops))
        (sl_items (rk_list (snd (rk_run eqA key (rk_init ltA eqA key xs) ops)))).
  Proof.
    intros H. destruct (rk_init_inv xs) as [I P].
    exists (sl_items (rk_list (rk_init ltA eqA key xs))). split; auto.
    eapply rk_run_ok; eauto.
  Qed.
End SortedListProofs.
