From Verif Require Import Prelude PreludeFacts MoreFacts Order_Spec Heapq_Model Heapq_Proofs Heap_Model Heap_Proofs Merge_Model Merge_Spec.
Set Implicit Arguments.

Section List.
  Context {K V : Type}.
  Variables (ltK eqK : K -> K -> bool) (ltV eqV : V -> V -> bool).
  Variable f : V -> V -> V.
  Hypothesis HK : linear_order ltK eqK.
  Hypothesis HV : linear_order ltV eqV.

  Lemma lin_irrefl {A} (lt eqb : A -> A -> bool) a : linear_order lt eqb -> lt a a = false.
  Proof. intros (_ & (H & _) & _). destruct (lt a a) eqn:E; auto. rewrite (H _ _ E) in E. discriminate. Qed.
  Lemma lin_tri {A} (lt eqb : A -> A -> bool) a b : linear_order lt eqb -> lt a b = true \/ a = b \/ lt b a = true.
  Proof. intros (_ & _ & H). destruct (lt a b) eqn:E1; auto. destruct (lt b a) eqn:E2; auto. Qed.
  Lemma lin_trans {A} (lt eqb : A -> A -> bool) a b c :
    linear_order lt eqb -> lt a b = true -> lt b c = true -> lt a c = true.
  Proof.
    intros H H1 H2. destruct (lin_tri a c H) as [E|[E|E]]; auto.
    - subst. destruct H as (_ & (Ha & _) & _). rewrite (Ha _ _ H1) in H2. discriminate.
    - destruct H as (_ & (Ha & Ht) & _). pose proof (Ha _ _ H1) as X1. pose proof (Ha _ _ H2) as X2.
      pose proof (Ha _ _ E) as X3. pose proof (Ht b c a X2 X3). congruence.
  Qed.
  Lemma lin_le_lt {A} (lt eqb : A -> A -> bool) a b c :
    linear_order lt eqb -> lt b a = false -> lt b c = true -> lt a c = true.
  Proof.
    intros H H1 H2. destruct (lin_tri a b H) as [E|[E|E]]; [|subst; auto|congruence].
    eapply lin_trans; eauto.
  Qed.

  Notation elt := (entry_lt ltK eqK ltV eqV).
  Lemma entry_linear_asym a b : elt a b = true -> elt b a = false.
  Proof.
    destruct a as [[k1 v1] i1], b as [[k2 v2] i2]. simpl.
    destruct HK as (EK & (AK & _) & _), HV as (EV & (AV & _) & _).
    destruct (eqK k1 k2) eqn:E1.
    - apply EK in E1. subst. rewrite (eqb_refl' EK).
      destruct (eqV v1 v2) eqn:E2.
      + apply EV in E2. subst. rewrite (eqb_refl' EV). rewrite Nat.ltb_lt, Nat.ltb_ge. lia.
      + apply (eqb_false_iff EV) in E2. replace (eqV v2 v1) with false by (symmetry; apply (eqb_false_iff EV); auto). apply AV.
    - apply (eqb_false_iff EK) in E1. replace (eqK k2 k1) with false by (symmetry; apply (eqb_false_iff EK); auto). apply AK.
  Qed.
  (** "not greater": what [elt b a = false] means *)
  Lemma entry_le a b : elt b a = false <->
    let '(k1, v1, i1) := a in let '(k2, v2, i2) := b in
    ltK k1 k2 = true \/ (k1 = k2 /\ (ltV v1 v2 = true \/ (v1 = v2 /\ i1 <= i2))).
  Proof.
    destruct a as [[k1 v1] i1], b as [[k2 v2] i2]. simpl.
    pose proof HK as (EK & (AK & _) & _). pose proof HV as (EV & (AV & _) & _).
    destruct (eqK k2 k1) eqn:E1.
    - apply EK in E1. subst. destruct (eqV v2 v1) eqn:E2.
      + apply EV in E2. subst. rewrite Nat.ltb_ge. split; intros H.
        * right. split; auto.
        * destruct H as [H|[_ [H|[_ H]]]]; auto.
          all: exfalso; try (rewrite (lin_irrefl _ HK) in H; discriminate); rewrite (lin_irrefl _ HV) in H; discriminate.
      + apply (eqb_false_iff EV) in E2. split; intros H.
        * right. split; auto. destruct (lin_tri v1 v2 HV) as [|[|]]; auto; try congruence.
        * destruct H as [H|[_ [H|[H _]]]]; auto.
          all: exfalso; try congruence; rewrite (lin_irrefl _ HK) in H; discriminate.
    - apply (eqb_false_iff EK) in E1. split; intros H.
      + left. destruct (lin_tri k1 k2 HK) as [|[|]]; auto; congruence.
      + destruct H as [H|[H _]]; auto; congruence.
  Qed.
  Lemma entry_preorder : total_preorder elt.
  Proof.
    split; [exact entry_linear_asym|]. intros a b c H1 H2. apply entry_le in H1. apply entry_le in H2. apply entry_le.
    destruct a as [[k1 v1] i1], b as [[k2 v2] i2], c as [[k3 v3] i3].
    destruct H1 as [H1|[-> H1]], H2 as [H2|[-> H2]]; auto.
    - left. eapply lin_trans; eauto.
    - right. split; auto. destruct H1 as [H1|[-> H1]], H2 as [H2|[-> H2]]; auto.
      + left. eapply lin_trans; eauto.
      + right. split; auto. lia.
  Qed.

  Definition bag (s : merge K V) : list (K * V) := map fst (m_heap s) ++ concat (its s).
  Definition mInv (s : merge K V) : Prop :=
    heapFrom elt 0 (m_heap s) /\
    forall i l, nth_error (its s) i = Some l ->
      by_key ltK l /\ (l <> [] -> In i (available s) /\ exists k v, In (k, v, i) (m_heap s) /\ forall x, In x l -> ltK (fst x) k = false).

  Lemma by_key_cons (x : K * V) l : by_key ltK (x :: l) <-> (forall y, In y l -> ltK (fst y) (fst x) = false) /\ by_key ltK l.
  Proof.
    unfold by_key. simpl. rewrite ascending_cons. apply and_iff_compat_r. unfold minimum_of. split; intros H y Hy.
    - apply H. apply in_map. auto.
    - apply in_map_iff in Hy. destruct Hy as (e & <- & He). auto.
  Qed.

  Lemma concat_upd_perm {A} (ls : list (list A)) i x l :
    nth_error ls i = Some (x :: l) -> Permutation (concat ls) (x :: concat (upd ls i l)).
  Proof.
    revert i. induction ls as [|h t IH]; intros [|i] H; simpl in *; try discriminate.
    - inversion H; subst. reflexivity.
    - rewrite (IH _ H). symmetry. apply Permutation_middle.
  Qed.

  (** everything not yet popped has a key not below the least in the heap *)
  Lemma bag_above s k : mInv s -> (forall e, In e (m_heap s) -> ltK (fst (fst e)) k = false) ->
    forall e, In e (bag s) -> ltK (fst e) k = false.
  Proof.
    intros [_ HI] Hmin e He. unfold bag in He. apply in_app_or in He. destruct He as [He|He].
    - apply in_map_iff in He. destruct He as (x & <- & Hx). auto.
    - apply in_concat in He. destruct He as (l & Hl & Hel). apply In_nth_error in Hl. destruct Hl as [i Hi].
      destruct (HI _ _ Hi) as [_ H]. assert (l <> []) as Hn by (destruct l; [contradiction|discriminate]).
      destruct (H Hn) as (_ & k' & v' & Hin & Hle). pose proof HK as (_ & (_ & T) & _).
      apply T with k'; [exact (Hmin _ Hin)|apply Hle; auto].
  Qed.

  Lemma m_pop_None s : mInv s -> snd (m_pop ltK eqK ltV eqV s) = None -> m_pop ltK eqK ltV eqV s = (s, None) /\ bag s = [].
  Proof.
    intros HI. unfold m_pop. destruct (heappop elt (m_heap s)) as [[[[k v] i] h]|] eqn:E.
    - destruct (memb Nat.eqb i (available s)); [destruct (nth_error (its s) i) as [[|[k2 v2] r]|]|]; simpl; discriminate.
    - intros _. split; auto. apply heappop_None in E. unfold bag. rewrite E. simpl.
      destruct (concat (its s)) as [|x t] eqn:Ec; auto. exfalso.
      assert (In x (concat (its s))) as Hx by (rewrite Ec; left; auto).
      apply in_concat in Hx. destruct Hx as (l & Hl & Hel). apply In_nth_error in Hl. destruct Hl as [i Hi].
      destruct HI as [_ HI]. destruct (HI _ _ Hi) as [_ H]. assert (l <> []) as Hn by (destruct l; [contradiction|discriminate]).
      destruct (H Hn) as (_ & k' & v' & Hin & _). rewrite E in Hin. contradiction.
  Qed.

  Lemma m_pop_Some s s' k v i : mInv s -> m_pop ltK eqK ltV eqV s = (s', Some (k, v, i)) ->
    mInv s' /\ Permutation (bag s) ((k, v) :: bag s') /\ (forall e, In e (bag s) -> ltK (fst e) k = false) /\
    m_cur s' = m_cur s /\ m_closed s' = m_closed s.
  Proof.
    intros HI. unfold m_pop. destruct (heappop elt (m_heap s)) as [[[[k0 v0] i0] h]|] eqn:E; [|discriminate].
    destruct (heappop_spec entry_preorder (proj1 HI) E) as (HP & HF & Hmin & _).
    assert (forall e, In e (bag s) -> ltK (fst e) k0 = false) as Habove.
    { apply bag_above; auto. intros e He. pose proof (Hmin _ He) as Hle. apply entry_le in Hle.
      destruct e as [[ke ve] ie]. simpl. pose proof HK as (_ & (AK & _) & _).
      destruct Hle as [Hle|[-> _]]; [apply AK; auto|apply (lin_irrefl _ HK)]. }
    assert (forall j l, nth_error (its s) j = Some l -> l <> [] -> j <> i0 ->
      exists k1 v1, In (k1, v1, j) h /\ forall x, In x l -> ltK (fst x) k1 = false) as Hother.
    { intros j l Hj Hn Hji. destruct HI as [_ HI]. destruct (HI _ _ Hj) as [_ H]. destruct (H Hn) as (_ & k1 & v1 & Hin & Hle).
      exists k1, v1. split; auto. apply (Permutation_in _ HP) in Hin. destruct Hin as [Hin|Hin]; auto. congruence. }
    pose proof HI as [HH HS].
    destruct (memb Nat.eqb i0 (available s)) eqn:Em.
    - destruct (nth_error (its s) i0) as [[|[k2 v2] r]|] eqn:En; intros X; inversion X; subst; clear X; simpl.
      + split; [|split; [|split; [|split]]]; auto.
        * split; auto. simpl. intros j l Hj. split; [apply (HS _ _ Hj)|]. intros Hn.
          assert (j <> i) as Hji by congruence. destruct (HS _ _ Hj) as [_ H]. destruct (H Hn) as (Hav & _). split; eauto.
          apply (memb_In nateqb_ok) in Em. pose proof (remove_first_perm nateqb_ok _ _ Em) as RP.
          apply (Permutation_in _ (Permutation_sym RP)) in Hav. destruct Hav; auto. congruence.
        * unfold bag. simpl. rewrite (Permutation_map fst HP). reflexivity.
      + destruct (heappush_spec entry_preorder (k2, v2, i) HF) as [PP PF].
        destruct (HS _ _ En) as [HB _]. apply by_key_cons in HB. destruct HB as [HB1 HB2].
        assert (i < length (its s)) as Hi by (apply nth_error_Some; congruence).
        split; [|split; [|split; [|split]]]; auto.
        * split; auto. simpl. intros j l Hj. destruct (Nat.eq_dec j i) as [->|Hji].
          -- rewrite nth_error_upd_eq in Hj by auto. inversion Hj; subst. split; auto. intros Hn.
             split; [apply (memb_In nateqb_ok); auto|]. exists k2, v2. split; auto.
             apply (Permutation_in _ (Permutation_sym PP)). left. auto.
          -- rewrite nth_error_upd_neq in Hj by auto. split; [apply (HS _ _ Hj)|]. intros Hn.
             destruct (HS _ _ Hj) as [_ H]. destruct (H Hn) as (Hav & _). split; auto.
             destruct (Hother _ _ Hj Hn Hji) as (k1 & v1 & Hin & Hle). exists k1, v1. split; auto.
             apply (Permutation_in _ (Permutation_sym PP)). right. auto.
        * unfold bag. simpl. rewrite (Permutation_map fst HP), (Permutation_map fst PP). simpl.
          rewrite (concat_upd_perm _ _ En). constructor. symmetry. apply Permutation_middle.
      + split; [|split; [|split; [|split]]]; auto.
        * split; auto. simpl. intros j l Hj. split; [apply (HS _ _ Hj)|]. intros Hn.
          assert (j <> i) as Hji by congruence. destruct (HS _ _ Hj) as [_ H]. destruct (H Hn) as (Hav & _). split; eauto.
          apply (memb_In nateqb_ok) in Em. pose proof (remove_first_perm nateqb_ok _ _ Em) as RP.
          apply (Permutation_in _ (Permutation_sym RP)) in Hav. destruct Hav; auto. congruence.
        * unfold bag. simpl. rewrite (Permutation_map fst HP). reflexivity.
    - intros X; inversion X; subst; clear X. split; [|split; [|split; [|split]]]; auto.
      + split; auto. simpl. intros j l Hj. split; [apply (HS _ _ Hj)|]. intros Hn.
        destruct (HS _ _ Hj) as [_ H]. destruct (H Hn) as (Hav & _). split; auto.
        apply (Hother j l); auto. intros ->. apply (memb_false nateqb_ok) in Em. contradiction.
      + unfold bag. simpl. rewrite (Permutation_map fst HP). reflexivity.
  Qed.

  (** the elements not yet accounted for in the output *)
  Definition pending (s : merge K V) : list (K * V) :=
    match m_cur s with Some (k, v, _) => if m_closed s then [] else (k, v) :: bag s | None => [] end.
  Definition ready (s : merge K V) : Prop :=
    mInv s /\ (m_closed s = false -> exists k v i, m_cur s = Some (k, v, i) /\ forall e, In e (bag s) -> ltK (fst e) k = false).

  Lemma mInv_cur s e : mInv s -> mInv (set_cur s e).
  Proof. auto. Qed.

  Lemma m_next_ok fuel : forall s k v i,
    length (bag s) < fuel -> mInv s -> m_closed s = false -> m_cur s = Some (k, v, i) ->
    (forall e, In e (bag s) -> ltK (fst e) k = false) ->
    exists vs s', m_next ltK eqK ltV eqV f fuel s = (s', Ok (k, fold_left f vs v)) /\ ready s' /\
      Permutation (bag s) (map (fun x => (k, x)) vs ++ pending s') /\ forall e, In e (pending s') -> ltK k (fst e) = true.
  Proof.
    induction fuel as [|fuel IH]; intros s k v i Hlen HI Hc Hcur Hab; [lia|]. simpl. rewrite Hc, Hcur.
    destruct (m_pop ltK eqK ltV eqV s) as [s' [[[k2 v2] i2]|]] eqn:E.
    - destruct (m_pop_Some HI E) as (HI' & HP & Hmin & Hcur' & Hc').
      pose proof HK as (EK & (AK & TK) & _).
      assert (ltK k2 k = false) as Hkk2 by (apply (Hab (k2, v2)); rewrite HP; left; auto).
      destruct (eqK k2 k) eqn:Ek.
      + apply EK in Ek. subst k2.
        destruct (IH (set_cur s' (k, f v v2, i)) k (f v v2) i) as (vs & s'' & E' & HR & HP' & Hgt); auto.
        * change (length (bag s') < fuel). apply Permutation_length in HP. simpl in HP. lia.
        * simpl. congruence.
        * intros e He. apply Hmin. rewrite HP. right. auto.
        * exists (v2 :: vs), s''. rewrite E'. split; [reflexivity|]. split; auto. split; auto.
          rewrite HP. simpl. constructor. exact HP'.
      + exists [], (set_cur s' (k2, v2, i2)). split; [reflexivity|]. split; [|split].
        * split; auto. intros _. exists k2, v2, i2. split; auto. intros e He. apply Hmin. rewrite HP. right. auto.
        * unfold pending. simpl. rewrite Hc', Hc. exact HP.
        * unfold pending. simpl. rewrite Hc', Hc. intros e [<-|He]; simpl.
          -- apply (eqb_false_iff EK) in Ek. destruct (lin_tri k k2 HK) as [|[|]]; auto; congruence.
          -- assert (ltK (fst e) k2 = false) as He2 by (apply Hmin; rewrite HP; right; auto).
             apply (eqb_false_iff EK) in Ek. destruct (lin_tri k k2 HK) as [X|[X|X]]; try congruence.
             destruct (lin_tri k2 (fst e) HK) as [Y|[Y|Y]]; try congruence. eapply lin_trans; eauto.
    - destruct (m_pop_None HI) as [E' Hb]; [rewrite E; auto|]. rewrite E in E'. inversion E'; subst s'.
      exists [], (set_closed s). split; [reflexivity|]. split; [|split].
      + split; auto. simpl. discriminate.
      + unfold pending. simpl. rewrite Hcur, Hb. reflexivity.
      + unfold pending. simpl. rewrite Hcur. simpl. contradiction.
  Qed.

  (** merging step by step: the least key, with all its values, then the rest *)
  Inductive merged : list (K * V) -> list (K * V) -> Prop :=
  | merged_nil : merged [] []
  | merged_cons k v vs M M' out :
      Permutation M (map (fun x => (k, x)) (v :: vs) ++ M') -> (forall e, In e M' -> ltK k (fst e) = true) ->
      merged M' out -> merged M ((k, fold_left f vs v) :: out).

  Lemma m_collect_ok fuel : forall s out,
    length (pending s) < fuel -> ready s -> (m_closed s = true -> pending s = []) ->
    exists o, m_collect ltK eqK ltV eqV f fuel s out = Ok (out ++ o) /\ merged (pending s) o.
  Proof.
    induction fuel as [|fuel IH]; intros s out Hlen [HI HC] Hcl; [lia|]. simpl.
    destruct (m_closed s) eqn:Ec.
    - exists []. rewrite app_nil_r. split; auto. rewrite Hcl by auto. constructor.
    - destruct (HC eq_refl) as (k & v & i & Hcur & Hab). rewrite Hcur.
      assert (pending s = (k, v) :: bag s) as Hpend by (unfold pending; rewrite Hcur, Ec; auto).
      rewrite Hpend in Hlen. simpl in Hlen.
      destruct (@m_next_ok (S (S fuel)) s k v i) as (vs & s' & E & HR & HP & Hgt); auto; [lia|].
      simpl in E. rewrite Ec, Hcur in E. simpl. rewrite E.
      assert (length (pending s') < fuel) as Hl'.
      { apply Permutation_length in HP. rewrite app_length in HP. lia. }
      destruct (IH s' (out ++ [(k, fold_left f vs v)]) Hl' HR) as (o & Eo & Mo).
      { intros X. unfold pending. rewrite X. destruct (m_cur s') as [[[? ?] ?]|]; auto. }
      exists ((k, fold_left f vs v) :: o). rewrite Eo, <- app_assoc. split; auto.
      rewrite Hpend. apply merged_cons with (pending s'); auto. simpl. constructor. auto.
  Qed.

  Lemma m_load_ok ls : forall pre s,
    (forall l, In l ls -> by_key ltK l) -> its s = pre ++ ls ->
    heapFrom elt 0 (m_heap s) -> m_cur s = None -> m_closed s = false ->
    (forall i l, i < length pre -> nth_error (its s) i = Some l ->
      by_key ltK l /\ (l <> [] -> In i (available s) /\ exists k v, In (k, v, i) (m_heap s) /\ forall x, In x l -> ltK (fst x) k = false)) ->
    let s' := m_load ltK eqK ltV eqV (length pre) ls s in
    mInv s' /\ Permutation (bag s') (bag s) /\ m_cur s' = None /\ m_closed s' = false.
  Proof.
    induction ls as [|l ls IH]; intros pre s Hls Hits HF Hcur Hcl HI; simpl.
    - split; [|split; [|split]]; auto. split; auto. intros i l Hi. apply HI; auto.
      rewrite Hits, app_nil_r in Hi. apply nth_error_Some. congruence.
    - assert (nth_error (its s) (length pre) = Some l) as Hn.
      { rewrite Hits, nth_error_app2, Nat.sub_diag by lia. reflexivity. }
      assert (by_key ltK l) as Hb by (apply Hls; left; auto).
      destruct l as [|[k v] r].
      + specialize (IH (pre ++ [[]]) s). rewrite app_length in IH. simpl in IH. rewrite Nat.add_1_r in IH.
        apply IH; auto; [intros l Hl; apply Hls; right; auto|rewrite <- app_assoc; exact Hits|]. intros i l Hi Hl. destruct (Nat.eq_dec i (length pre)) as [->|].
        * rewrite Hn in Hl. inversion Hl; subst. split; auto. congruence.
        * apply HI; auto. lia.
      + destruct (heappush_spec entry_preorder (k, v, length pre) HF) as [PP PF].
        apply by_key_cons in Hb. destruct Hb as [Hb1 Hb2].
        assert (length pre < length (its s)) as Hlt by (apply nth_error_Some; congruence).
        set (s1 := {| its := upd (its s) (length pre) r; available := available s ++ [length pre];
                      m_heap := heappush elt (m_heap s) (k, v, length pre); m_cur := m_cur s; m_closed := m_closed s |}).
        specialize (IH (pre ++ [r]) s1). rewrite app_length in IH. simpl in IH. rewrite Nat.add_1_r in IH.
        assert (Permutation (bag s1) (bag s)) as HB.
        { unfold bag, s1. simpl. rewrite (Permutation_map fst PP). simpl. rewrite (concat_upd_perm _ _ Hn).
          apply Permutation_middle. }
        destruct IH as (H1 & H2 & H3 & H4); auto.
        * intros l Hl. apply Hls. right. auto.
        * rewrite Hits. clear. induction pre as [|a p IHp]; simpl in *; congruence.
        * intros i l Hi Hl. unfold s1 in Hl |- *. simpl in Hl |- *. destruct (Nat.eq_dec i (length pre)) as [->|Hne].
          -- rewrite nth_error_upd_eq in Hl by auto. inversion Hl; subst. split; auto. intros _.
             split; [apply in_or_app; right; left; auto|]. exists k, v. split; auto.
             apply (Permutation_in _ (Permutation_sym PP)). left. auto.
          -- rewrite nth_error_upd_neq in Hl by auto. destruct (HI i l) as [X1 X2]; auto; [lia|]. split; auto.
             intros Hne'. destruct (X2 Hne') as (Hav & k1 & v1 & Hin & Hle). split; [apply in_or_app; auto|].
             exists k1, v1. split; auto. apply (Permutation_in _ (Permutation_sym PP)). right. auto.
        * split; [|split; [|split]]; auto. rewrite H2. exact HB.
  Qed.

  Lemma merged_perm M M' out : Permutation M M' -> merged M out -> merged M' out.
  Proof.
    intros HP H. destruct H.
    - apply Permutation_nil in HP. subst. constructor.
    - apply merged_cons with M'0; auto. rewrite <- HP. auto.
  Qed.

  Lemma merge_list_merged lists : (forall l, In l lists -> by_key ltK l) ->
    exists out, merge_list ltK eqK ltV eqV f lists = Ok out /\ merged (concat lists) out.
  Proof.
    intros Hl. unfold merge_list, m_init.
    set (s0 := {| its := lists; available := []; m_heap := []; m_cur := None; m_closed := false |} : merge K V).
    destruct (@m_load_ok lists [] s0) as (HI & HB & Hcur & Hcl); auto.
    { intros i Hi x. simpl. destruct i; discriminate. }
    { simpl. lia. }
    change (length (@nil (list (K * V)))) with 0 in *. set (s := m_load ltK eqK ltV eqV 0 lists s0) in *.
    change (bag s0) with (concat lists) in HB.
    destruct (m_pop ltK eqK ltV eqV s) as [s' [[[k v] i]|]] eqn:E.
    - destruct (m_pop_Some HI E) as (HI' & HP & Hmin & Hcur' & Hc').
      assert (pending (set_cur s' (k, v, i)) = (k, v) :: bag s') as Hpend
        by (unfold pending; simpl; rewrite Hc', Hcl; auto).
      destruct (@m_collect_ok (S (S (length (concat lists)))) (set_cur s' (k, v, i)) []) as (o & Eo & Mo).
      + rewrite Hpend, <- HP, HB. lia.
      + split; auto. intros _. exists k, v, i. split; auto. intros e He. apply Hmin. rewrite HP. right. auto.
      + simpl. congruence.
      + exists o. split; auto. rewrite Hpend in Mo. apply merged_perm with ((k, v) :: bag s'); auto.
        rewrite <- HP. exact HB.
    - destruct (m_pop_None HI) as [E' Hb]; [rewrite E; auto|]. rewrite E in E'. inversion E'; subst s'.
      destruct (@m_collect_ok (S (S (length (concat lists)))) (set_closed s) []) as (o & Eo & Mo).
      + unfold pending. simpl. rewrite Hcur. simpl. lia.
      + split; auto. simpl. discriminate.
      + unfold pending. simpl. rewrite Hcur. auto.
      + exists o. split; auto. rewrite Hb in HB. apply Permutation_nil in HB. rewrite HB.
        unfold pending in Mo. simpl in Mo. rewrite Hcur in Mo. exact Mo.
  Qed.

  Lemma filter_none' {A} (p : A -> bool) l : (forall x, In x l -> p x = false) -> filter p l = [].
  Proof. induction l as [|x t IH]; simpl; intros H; auto. rewrite H by auto. auto. Qed.
  Lemma values_at_perm k (M : list (K * V)) M' : Permutation M M' -> Permutation (values_at eqK k M) (values_at eqK k M').
  Proof. intros HP. unfold values_at. apply Permutation_map. apply Permutation_filter. auto. Qed.
  Lemma values_at_own k vs (M : list (K * V)) : (forall e, In e M -> fst e <> k) ->
    values_at eqK k (map (fun x => (k, x)) vs ++ M) = vs.
  Proof.
    intros H. pose proof HK as (EK & _). unfold values_at. rewrite filter_app, map_app, (filter_none' _ M).
    - rewrite app_nil_r. induction vs as [|v t IH]; simpl; auto. rewrite (eqb_refl' EK). simpl. congruence.
    - intros x Hx. apply (eqb_false_iff EK). auto.
  Qed.
  Lemma values_at_other k k' vs (M : list (K * V)) : k' <> k -> values_at eqK k (map (fun x => (k', x)) vs ++ M) = values_at eqK k M.
  Proof.
    intros H. pose proof HK as (EK & _). unfold values_at. rewrite filter_app, (filter_none' _ (map _ vs)); auto.
    intros x Hx. apply in_map_iff in Hx. destruct Hx as (y & <- & _). apply (eqb_false_iff EK). auto.
  Qed.
  Lemma strictly_increasing_cons k ks :
    (forall x, In x ks -> ltK k x = true) -> strictly_increasing ltK ks -> strictly_increasing ltK (k :: ks).
  Proof.
    intros H1 H2 [|i] [|j] a b Hij Ha Hb; simpl in *; try lia.
    - inversion Ha; subst. apply H1. apply nth_error_In in Hb. auto.
    - apply (H2 i j); auto. lia.
  Qed.
  Lemma merged_is_merge M out : merged M out -> is_merge ltK eqK f M out.
  Proof.
    induction 1 as [|k v vs M M' out HP Hgt HM IH].
    - split; [|split].
      + intros i j a b _ Ha. destruct i; discriminate.
      + simpl. tauto.
      + intros k w [].
    - destruct IH as (I1 & I2 & I3).
      assert (forall e, In e M' -> fst e <> k) as Hne.
      { intros e He X. pose proof (Hgt _ He) as Y. rewrite X, (lin_irrefl _ HK) in Y. discriminate. }
      split; [|split].
      + simpl. apply strictly_increasing_cons; auto. intros x Hx. apply I2 in Hx. apply in_map_iff in Hx.
        destruct Hx as (e & <- & He). auto.
      + intros x. assert (In x (map fst M) <-> x = k \/ In x (map fst M')) as Hx.
        { split; intros H.
          - apply (Permutation_in _ (Permutation_map fst HP)) in H. rewrite map_app in H. apply in_app_or in H.
            destruct H as [H|H]; auto. rewrite map_map in H. apply in_map_iff in H. destruct H as (? & <- & _). auto.
          - apply (Permutation_in _ (Permutation_sym (Permutation_map fst HP))). rewrite map_app. apply in_or_app.
            destruct H as [->|H]; auto. left. simpl. auto. }
        rewrite Hx. simpl. rewrite I2. intuition.
      + intros k0 w [H|H].
        * inversion H; subst. exists v, vs. split; auto. rewrite (values_at_perm k0 HP), values_at_own; auto.
        * destruct (I3 _ _ H) as (v0 & vs0 & HPv & Hw). exists v0, vs0. split; auto.
          rewrite (values_at_perm k0 HP), values_at_other; auto.
          intros ->. apply (in_map fst) in H. simpl in H. apply I2 in H. apply in_map_iff in H.
          destruct H as (e & He & Hin). apply (Hne _ Hin). auto.
  Qed.

  Lemma merge_list_ok lists : (forall l, In l lists -> by_key ltK l) ->
    exists out, merge_list ltK eqK ltV eqV f lists = Ok out /\ is_merge ltK eqK f (concat lists) out.
  Proof.
    intros H. destruct (merge_list_merged lists H) as (out & E & M). exists out. split; auto. apply merged_is_merge. auto.
  Qed.
End List.

(** ** merge_series *)
Section Series.
  Context {V : Type}.
  Local Open Scope Z_scope.
  Implicit Types (l : list (Z * V)) (ls : list (list (Z * V))) (s : series_merge V) (p x : Z * V).

  Lemma z_order : total_preorder Z.ltb.
  Proof. split; intros; rewrite ?Z.ltb_lt, ?Z.ltb_ge in *; lia. Qed.
  Lemma z_linear : linear_order Z.ltb Z.eqb.
  Proof.
    split; [exact zeqb_ok|split; [exact z_order|]]. intros. rewrite ?Z.ltb_ge in *. lia.
  Qed.

  Lemma grow_split l1 p l2 : timestamps_grow (l1 ++ p :: l2) ->
    (forall x, In x l1 -> fst x < fst p) /\ (forall x, In x l2 -> fst p < fst x).
  Proof.
    unfold timestamps_grow, strictly_increasing. rewrite map_app. simpl. intros H.
    assert (nth_error (map fst l1 ++ fst p :: map fst l2) (length l1) = Some (fst p)) as Hp.
    { rewrite nth_error_app2; rewrite map_length; [|lia]. rewrite Nat.sub_diag. reflexivity. }
    split; intros x Hx.
    - apply (in_map fst) in Hx. apply In_nth_error in Hx. destruct Hx as [n Hn].
      assert (n < length (map fst l1))%nat as Hlt by (apply nth_error_Some; congruence).
      apply Z.ltb_lt. apply (H n (length l1)); auto; [rewrite map_length in Hlt; lia|].
      rewrite nth_error_app1; auto.
    - apply (in_map fst) in Hx. apply In_nth_error in Hx. destruct Hx as [n Hn].
      apply Z.ltb_lt. apply (H (length l1) (length l1 + S n)%nat); auto; [lia|].
      rewrite nth_error_app2; rewrite map_length; [|lia].
      replace (length l1 + S n - length l1)%nat with (S n) by lia. exact Hn.
  Qed.

  Lemma value_at_ok l1 p l2 t : fst p <= t -> (forall x, In x l1 -> fst x < fst p) -> (forall x, In x l2 -> t < fst x) ->
    value_at (l1 ++ p :: l2) t = Some (snd p).
  Proof.
    intros Hp H1 H2. unfold value_at. rewrite filter_app. simpl.
    replace (fst p <=? t) with true by (symmetry; apply Z.leb_le; auto).
    rewrite (filter_none' _ l2); [rewrite rev_app_distr; reflexivity|].
    intros x Hx. apply Z.leb_gt. auto.
  Qed.

  Definition tail_of (sup : option (Z * V)) l := match sup with Some x => x :: l | None => [] end.
  Definition good l p sup r := exists pre, l = pre ++ p :: tail_of sup r.
  Definition holds s i p sup r :=
    nth_error (preloaded s) i = Some p /\ nth_error (super_preloaded s) i = Some sup /\ nth_error (rest_of s) i = Some r.
  Definition sInv ls s :=
    shInv Z.ltb (timestamps s) /\ length (rest_of s) = length ls /\ length (preloaded s) = length ls /\ length (super_preloaded s) = length ls /\
    forall i l, nth_error ls i = Some l -> exists p sup r, holds s i p sup r /\ good l p sup r.
  Definition before t p (sup : option (Z * V)) := fst p <= t /\ match sup with Some x => t <= fst x | None => True end.
  Definition after t p (sup : option (Z * V)) := fst p <= t /\ match sup with Some x => t < fst x | None => True end.
  Definition queued ls s t := forall t', In t' (sh_data (timestamps s)) <->
    t < t' /\ exists i x, nth_error (super_preloaded s) i = Some (Some x) /\ fst x = t'.

  Lemma push_In h t y : shInv Z.ltb h -> (In y (sh_data (push_ts h t)) <-> y = t \/ In y (sh_data h)) /\ shInv Z.ltb (push_ts h t).
  Proof.
    intros H. unfold push_ts. destruct (sh_push_inv z_order zeqb_ok t H) as [HI [[Hin E]|[Hn HP]]]; split; auto.
    - rewrite E. intuition congruence.
    - split; intros Hy.
      + apply (Permutation_in _ HP) in Hy. destruct Hy; auto.
      + apply (Permutation_in _ (Permutation_sym HP)). simpl. intuition.
  Qed.

  (** one advance of series [i], whose next timestamp is [t] *)
  Lemma advance_ok ls s i l p x r t :
    sInv ls s -> queued ls s t -> nth_error ls i = Some l -> timestamps_grow l ->
    holds s i p (Some x) r -> good l p (Some x) r -> fst x = t ->
    exists s' sup' r', s_advance s i = (s', Ok tt) /\ sInv ls s' /\ queued ls s' t /\ holds s' i x sup' r' /\ after t x sup' /\
      forall j, j <> i -> nth_error (preloaded s') j = nth_error (preloaded s) j /\
                          nth_error (super_preloaded s') j = nth_error (super_preloaded s) j.
  Proof.
    intros (HS & L1 & L2 & L3 & HI) HQ Hl Hg (H1 & H2 & H3) (pre & ->) Ht. simpl in *. unfold s_advance. rewrite H2, H3.
    assert (i < length ls)%nat as Hi by (apply nth_error_Some; congruence).
    destruct r as [|y r].
    - exists {| rest_of := rest_of s; preloaded := upd (preloaded s) i x;
            super_preloaded := upd (super_preloaded s) i None; timestamps := timestamps s |}, None, []. split; auto.
      split; [|split; [|split; [|split]]]; simpl.
      + split; [auto|]. simpl. rewrite ?upd_length. repeat (split; [assumption|]).
        intros j l' Hj. destruct (Nat.eq_dec j i) as [->|Hne].
        * rewrite Hl in Hj. inversion Hj; subst. exists x, None, []. split.
          -- split; [|split]; simpl; auto; apply nth_error_upd_eq; lia.
          -- exists (pre ++ [p]). rewrite <- app_assoc. reflexivity.
        * destruct (HI _ _ Hj) as (p' & sup' & r' & (A & B & C) & G). exists p', sup', r'. split; auto.
          split; [|split]; simpl; auto; rewrite nth_error_upd_neq; auto.
      + intros t'. simpl. rewrite (HQ t').
        split; intros (Hlt & j & z & Hz & E); (split; [exact Hlt|]).
        * exists j, z. split; auto. destruct (Nat.eq_dec j i) as [->|Hne]; [|rewrite nth_error_upd_neq; auto].
          rewrite H2 in Hz. inversion Hz; subst. lia.
        * exists j, z. split; auto. destruct (Nat.eq_dec j i) as [->|Hne]; [|rewrite nth_error_upd_neq in Hz; auto].
          rewrite nth_error_upd_eq in Hz by lia. discriminate.
      + split; [|split]; simpl; auto; apply nth_error_upd_eq; lia.
      + split; [lia|auto].
      + intros j Hj. split; apply nth_error_upd_neq; auto.
    - assert (t < fst y) as Hy.
      { destruct (@grow_split (pre ++ [p]) x (y :: r)) as [_ X]; [rewrite <- app_assoc; exact Hg|]. subst t. apply X. left. auto. }
      exists {| rest_of := upd (rest_of s) i r; preloaded := upd (preloaded s) i x;
            super_preloaded := upd (super_preloaded s) i (Some y); timestamps := push_ts (timestamps s) (fst y) |}, (Some y), r. split; auto.
      split; [|split; [|split; [|split]]]; simpl.
      + split; [apply push_In; auto|]. simpl. rewrite ?upd_length. repeat (split; [assumption|]).
        intros j l' Hj. destruct (Nat.eq_dec j i) as [->|Hne].
        * rewrite Hl in Hj. inversion Hj; subst. exists x, (Some y), r. split.
          -- split; [|split]; simpl; auto; apply nth_error_upd_eq; lia.
          -- exists (pre ++ [p]). rewrite <- app_assoc. reflexivity.
        * destruct (HI _ _ Hj) as (p' & sup' & r' & (A & B & C) & G). exists p', sup', r'. split; auto.
          split; [|split]; simpl; auto; rewrite nth_error_upd_neq; auto.
      + intros t'. simpl. rewrite (proj1 (push_In (fst y) t' HS)), (HQ t').
        split.
        * intros [->|(Hlt & j & z & Hz & E)].
          -- split; auto. exists i, y. split; auto. apply nth_error_upd_eq. lia.
          -- split; auto. exists j, z. split; auto. destruct (Nat.eq_dec j i) as [->|Hne]; [|rewrite nth_error_upd_neq; auto].
             rewrite H2 in Hz. inversion Hz; subst. lia.
        * intros (Hlt & j & z & Hz & E). destruct (Nat.eq_dec j i) as [->|Hne].
          -- rewrite nth_error_upd_eq in Hz by lia. inversion Hz; subst. auto.
          -- right. split; auto. exists j, z. split; auto. rewrite nth_error_upd_neq in Hz; auto.
      + split; [|split]; simpl; auto; apply nth_error_upd_eq; lia.
      + split; [lia|auto].
      + intros j Hj. split; apply nth_error_upd_neq; auto.
  Qed.

  Definition stands s t i := forall j p sup, nth_error (preloaded s) j = Some p -> nth_error (super_preloaded s) j = Some sup ->
    (if (j <? i)%nat then after t p sup else before t p sup).

  Lemma assert_preloaded_ok ls t : (forall l, In l ls -> timestamps_grow l) -> forall n i s,
    (i + n = length ls)%nat -> sInv ls s -> queued ls s t -> stands s t i ->
    exists s', s_assert_preloaded n t i s = (s', Ok true) /\ sInv ls s' /\ queued ls s' t /\ stands s' t (length ls).
  Proof.
    intros Hg. induction n as [|n IH]; intros i s Hn HI HQ HS; simpl.
    - exists s. replace i with (length ls) in HS by lia. auto.
    - assert (exists l, nth_error ls i = Some l) as [l Hl].
      { destruct (nth_error ls i) eqn:E; eauto. apply nth_error_None in E. lia. }
      destruct (proj2 (proj2 (proj2 (proj2 HI))) _ _ Hl) as (p & sup & r & Hh & Hgood).
      pose proof Hh as (H1 & H2 & H3). rewrite H1, H2.
      pose proof (HS i p sup H1 H2) as Hb. rewrite Nat.ltb_irrefl in Hb.
      assert (forall s', (forall j, j <> i -> nth_error (preloaded s') j = nth_error (preloaded s) j /\
                          nth_error (super_preloaded s') j = nth_error (super_preloaded s) j) ->
               (forall q u, nth_error (preloaded s') i = Some q -> nth_error (super_preloaded s') i = Some u -> after t q u) ->
               stands s' t (S i)) as Hstands.
      { intros s' Ho Hi j q u Hq Hu. destruct (Nat.eq_dec j i) as [->|Hne].
        - replace (i <? S i)%nat with true by (symmetry; apply Nat.ltb_lt; lia). auto.
        - destruct (Ho j Hne) as [E1 E2]. rewrite E1 in Hq. rewrite E2 in Hu. pose proof (HS j q u Hq Hu) as X.
          destruct (j <? i)%nat eqn:Ej.
          + apply Nat.ltb_lt in Ej. replace (j <? S i)%nat with true by (symmetry; apply Nat.ltb_lt; lia). auto.
          + apply Nat.ltb_ge in Ej. replace (j <? S i)%nat with false by (symmetry; apply Nat.ltb_ge; lia). auto. }
      destruct sup as [x|].
      + destruct Hb as [Hb1 Hb2]. simpl in Hb2. cbn [s_load_one].
        replace (fst p <=? t) with true by (symmetry; apply Z.leb_le; auto).
        destruct (t <? fst x) eqn:Ex.
        * apply Z.ltb_lt in Ex. apply IH; auto; [lia|]. apply Hstands; auto.
          intros q u Hq Hu. rewrite H1 in Hq. rewrite H2 in Hu. inversion Hq; inversion Hu; subst. split; auto.
        * apply Z.ltb_ge in Ex.
          destruct (@advance_ok ls s i l p x r t) as (s' & sup' & r' & E & HI' & HQ' & Hh' & Ha & Ho); auto.
          { apply Hg. apply nth_error_In in Hl. auto. }
          { lia. }
          rewrite E. destruct Hh' as (H1' & H2' & H3'). rewrite H1', H2'. destruct Ha as [Ha1 Ha2].
          replace (fst x <=? t) with true by (symmetry; apply Z.leb_le; auto).
          assert (stands s' t (S i)) as HS'.
          { apply Hstands; auto. intros q u Hq Hu. rewrite H1' in Hq. rewrite H2' in Hu. inversion Hq; inversion Hu; subst. split; auto. }
          destruct sup' as [y|].
          -- simpl in Ha2. replace (t <? fst y) with true by (symmetry; apply Z.ltb_lt; auto). apply IH; auto. lia.
          -- replace (t <? fst x) with false by (symmetry; apply Z.ltb_ge; auto). apply IH; auto. lia.
      + destruct Hb as [Hb1 _]. replace (t <? fst p) with false by (symmetry; apply Z.ltb_ge; auto).
        apply IH; auto; [lia|]. apply Hstands; auto.
        intros q u Hq Hu. rewrite H1 in Hq. rewrite H2 in Hu. inversion Hq; inversion Hu; subst. split; simpl; auto.
  Qed.

  Lemma sh_pop_ok h : shInv Z.ltb h ->
    match sh_pop Z.ltb Z.eqb h with
    | (h', Ok t) => shInv Z.ltb h' /\ In t (sh_data h) /\ (forall y, In y (sh_data h) -> t <= y) /\
                    forall y, In y (sh_data h') <-> In y (sh_data h) /\ y <> t
    | (h', Err e) => e = IndexError /\ sh_data h = []
    end.
  Proof.
    intros HI. pose proof HI as (HF & ND & NS & Heq). unfold sh_pop. destruct (heappop Z.ltb (sh_data h)) as [[m d]|] eqn:E.
    - destruct (heappop_spec z_order HF E) as (HP & HF' & Hmin & _).
      assert (In m (sh_data h)) as Hm by (rewrite HP; left; auto).
      assert (NoDup (m :: d)) as ND' by (rewrite <- HP; auto). inversion ND'; subst.
      assert (forall y, In y d <-> In y (sh_data h) /\ y <> m) as Hd.
      { intros y. rewrite HP. simpl. split; [intros Hy; split; auto; congruence|intuition congruence]. }
      replace (memb Z.eqb m (sh_set h)) with true by (symmetry; apply (memb_In zeqb_ok); apply Heq; auto).
      split; [|split; [|split]]; auto.
      + split; [|split; [|split]]; simpl; auto; [apply NoDup_remove_first; auto|].
        intros y. rewrite (In_remove_first zeqb_ok) by auto. rewrite Hd, Heq. tauto.
      + intros y Hy. specialize (Hmin _ Hy). apply Z.ltb_ge in Hmin. auto.
    - apply heappop_None in E. auto.
  Qed.

  (** a row is produced for [t], the least timestamp queued *)
  Lemma next_ok ls s t fuel : (forall l, In l ls -> timestamps_grow l) ->
    sInv ls s -> In t (sh_data (timestamps s)) -> (forall y, In y (sh_data (timestamps s)) -> t <= y) ->
    (forall y, t < y -> (In y (sh_data (timestamps s)) <-> exists i x, nth_error (super_preloaded s) i = Some (Some x) /\ fst x = y)) ->
    stands s t 0 ->
    exists s' row, s_next (S fuel) s = (s', Ok (t, row)) /\ sInv ls s' /\ queued ls s' t /\ stands s' t (length ls) /\
      map Some row = map (fun l => value_at l t) ls.
  Proof.
    intros Hg HI Hin Hmin HQ HS. unfold s_next, s_have_timestamps.
    replace (heap_bool (sh_data (timestamps s))) with true.
    2: { unfold heap_bool. destruct (sh_data (timestamps s)); [contradiction|reflexivity]. }
    cbn [s_find]. pose proof (sh_pop_ok (proj1 HI)) as HP. destruct (sh_pop Z.ltb Z.eqb (timestamps s)) as [h [t0|e]].
    2: { destruct HP as [_ HP]. rewrite HP in Hin. contradiction. }
    destruct HP as (Hh & Hin0 & Hmin0 & Hrest). assert (t0 = t) as -> by (pose proof (Hmin _ Hin0); pose proof (Hmin0 _ Hin); lia).
    set (s1 := {| rest_of := rest_of s; preloaded := preloaded s; super_preloaded := super_preloaded s; timestamps := h |}).
    assert (sInv ls s1) as HI1 by (destruct HI as (_ & HI); split; auto).
    assert (queued ls s1 t) as HQ1.
    { intros y. simpl. rewrite Hrest. split.
      - intros [Hy Hne]. assert (t < y) as Hlt by (pose proof (Hmin _ Hy); lia). split; auto. apply HQ; auto.
      - intros [Hlt He]. split; [apply HQ; auto|lia]. }
    replace (length (rest_of s)) with (length ls) by (destruct HI as (_ & L & _); auto).
    destruct (@assert_preloaded_ok ls t Hg (length ls) 0%nat s1) as (s' & E & HI' & HQ' & HS'); auto.
    rewrite E. exists s', (map snd (preloaded s')). split; auto. split; [auto|]. split; [auto|]. split; [auto|].
    destruct HI' as (_ & _ & L & _ & HI'). clear - L HI' HS' Hg. 
    assert (forall i, nth_error (map Some (map snd (preloaded s'))) i = nth_error (map (fun l => value_at l t) ls) i) as Hn.
    { intros i. rewrite !nth_error_map. destruct (nth_error ls i) as [l|] eqn:El; simpl.
      - destruct (HI' _ _ El) as (p & sup & r & (H1 & H2 & _) & (pre & Hpre)). rewrite H1. simpl.
        pose proof (HS' i p sup H1 H2) as Ha.
        assert (i < length ls)%nat as Hi by (apply nth_error_Some; congruence).
        replace (i <? length ls)%nat with true in Ha by (symmetry; apply Nat.ltb_lt; auto). destruct Ha as [Ha1 Ha2].
        assert (timestamps_grow l) as Hgl by (apply Hg; apply nth_error_In in El; auto). rewrite Hpre in Hgl.
        destruct (grow_split _ _ _ Hgl) as [G1 G2].
        rewrite Hpre, value_at_ok; auto. intros x Hx. destruct sup as [y|]; simpl in *; [|contradiction].
        destruct Hx as [<-|Hx]; auto. destruct (@grow_split (pre ++ [p]) y r) as [_ G3]; [rewrite <- app_assoc; exact Hgl|].
        specialize (G3 _ Hx). lia.
      - apply nth_error_None in El. replace (nth_error (preloaded s') i) with (@None (Z * V)); auto.
        symmetry. apply nth_error_None. lia. }
    clear - Hn. revert Hn. generalize (map Some (map snd (preloaded s'))) as a, (map (fun l => value_at l t) ls) as b.
    induction a as [|x a IH]; intros [|y b] H; auto; try (specialize (H 0%nat); simpl in H; discriminate).
    f_equal; [specialize (H 0%nat); simpl in H; congruence|]. apply IH. intros i. apply (H (S i)).
  Qed.

  Lemma filter_shorter (p q : Z * V -> bool) (l : list (Z * V)) x :
    (forall y, q y = true -> p y = true) -> In x l -> p x = true -> q x = false ->
    (length (filter q l) < length (filter p l))%nat.
  Proof.
    intros Hpq. induction l as [|y l IH]; simpl; intros Hx Hp Hq; [contradiction|].
    assert (length (filter q l) <= length (filter p l))%nat as Hle.
    { clear - Hpq. induction l as [|z l IH]; simpl; auto. destruct (q z) eqn:E; [rewrite (Hpq _ E); simpl; lia|].
      destruct (p z); simpl; lia. }
    destruct Hx as [->|Hx].
    - rewrite Hp, Hq. simpl. lia.
    - specialize (IH Hx Hp Hq). destruct (q y) eqn:E; [rewrite (Hpq _ E); simpl; lia|]. destruct (p y); simpl; lia.
  Qed.

  (** what is ahead of a series standing at [t]: later timestamps *)
  Lemma ahead ls s t l i p sup r : (forall l, In l ls -> timestamps_grow l) -> stands s t (length ls) ->
    nth_error ls i = Some l -> holds s i p sup r -> good l p sup r ->
    forall x, In x l -> t < fst x -> exists y, sup = Some y /\ t < fst y /\ fst y <= fst x.
  Proof.
    intros Hg HS Hl (H1 & H2 & _) (pre & ->) x Hx Hlt.
    pose proof (HS i p sup H1 H2) as Ha. assert (i < length ls)%nat as Hi by (apply nth_error_Some; congruence).
    replace (i <? length ls)%nat with true in Ha by (symmetry; apply Nat.ltb_lt; auto). destruct Ha as [Ha1 Ha2].
    pose proof (Hg _ (nth_error_In _ _ Hl)) as Hgl. destruct (grow_split _ _ _ Hgl) as [G1 _].
    apply in_app_or in Hx. destruct Hx as [Hx|[<-|Hx]]; [specialize (G1 _ Hx); lia|lia|].
    destruct sup as [y|]; simpl in Hx; [|contradiction]. exists y. split; auto. split; auto.
    destruct Hx as [<-|Hx]; [lia|]. destruct (@grow_split (pre ++ [p]) y r) as [_ G3]; [rewrite <- app_assoc; exact Hgl|].
    specialize (G3 _ Hx). lia.
  Qed.

  Lemma sup_In ls s i y : sInv ls s -> nth_error (super_preloaded s) i = Some (Some y) -> exists l, In l ls /\ In y l.
  Proof.
    intros (_ & _ & _ & L & HI) H. assert (i < length ls)%nat as Hi by (rewrite <- L; apply nth_error_Some; congruence).
    destruct (nth_error ls i) as [l|] eqn:El; [|apply nth_error_None in El; lia].
    destruct (HI _ _ El) as (p & sup & r & (_ & H2 & _) & (pre & Hl)). rewrite H in H2. inversion H2; subst.
    exists (pre ++ p :: tail_of (Some y) r). split; [apply nth_error_In in El; auto|]. apply in_or_app. right. right. left. auto.
  Qed.

  Definition rows_after ls t (rows : list (Z * list V)) :=
    strictly_increasing Z.ltb (map fst rows) /\
    (forall t', In t' (map fst rows) <-> t < t' /\ exists l v, In l ls /\ In (t', v) l) /\
    (forall t' row, In (t', row) rows -> map Some row = map (fun l => value_at l t') ls).

  Lemma collect_ok ls : (forall l, In l ls -> timestamps_grow l) -> forall fuel s (t : Z) out,
    (length (filter (fun e => (t <? fst e)%Z) (concat ls)) < fuel)%nat ->
    sInv ls s -> queued ls s t -> stands s t (length ls) ->
    exists rows, s_collect fuel s out = Ok (out ++ rows) /\ rows_after ls t rows.
  Proof.
    intros Hg. induction fuel as [|fuel IH]; intros s t out Hf HI HQ HS; [lia|]. cbn [s_collect].
    destruct (sh_data (timestamps s)) as [|t1 td] eqn:Ed.
    - assert (forall i x, nth_error (super_preloaded s) i = Some (Some x) -> False) as Hno.
      { intros i x Hx. assert (In (fst x) (sh_data (timestamps s))) as H; [|rewrite Ed in H; contradiction].
        apply HQ. split; eauto. assert (i < length ls)%nat as Hi.
        { destruct HI as (_ & _ & _ & L & _). rewrite <- L. apply nth_error_Some. congruence. }
        assert (exists p, nth_error (preloaded s) i = Some p) as [p Hp].
        { destruct (nth_error (preloaded s) i) eqn:E; eauto. apply nth_error_None in E. destruct HI as (_ & _ & L & _). lia. }
        pose proof (HS i p (Some x) Hp Hx) as Ha. replace (i <? length ls)%nat with true in Ha by (symmetry; apply Nat.ltb_lt; auto).
        apply Ha. }
      assert (s_next (S (S fuel)) s = (s, Err StopIteration)) as ->.
      { unfold s_next, s_have_timestamps. rewrite Ed. simpl.
        replace (forallb (fun x : option (Z * V) => match x with Some _ => false | None => true end) (super_preloaded s)) with true; auto.
        symmetry. apply forallb_forall. intros [x|] Hx; auto. apply In_nth_error in Hx. destruct Hx as [i Hi]. destruct (Hno _ _ Hi). }
      exists []. rewrite app_nil_r. split; auto. split; [|split].
      + intros i j a b _ Ha. destruct i; discriminate.
      + intros t'. simpl. split; [contradiction|]. intros (Hlt & l & v & Hl & Hv). apply In_nth_error in Hl. destruct Hl as [i Hl].
        destruct (proj2 (proj2 (proj2 (proj2 HI))) _ _ Hl) as (p & sup & r & Hh & Hgood).
        destruct (@ahead _ _ _ _ _ _ _ _ Hg HS Hl Hh Hgood _ Hv Hlt) as (y & -> & _). destruct Hh as (_ & H2 & _). destruct (Hno _ _ H2).
      + intros t' row [].
    - assert (exists m, In m (sh_data (timestamps s)) /\ forall y, In y (sh_data (timestamps s)) -> m <= y) as (m & Hm & Hmin).
      { pose proof (sh_pop_ok (proj1 HI)) as HP. destruct (sh_pop Z.ltb Z.eqb (timestamps s)) as [h [t0|e]].
        - destruct HP as (_ & A & B & _). eauto.
        - destruct HP as [_ HP]. congruence. }
      pose proof Hm as Hm'. apply HQ in Hm'. destruct Hm' as (Htm & i & x & Hx & Hxm).
      destruct (@next_ok ls s m (S fuel)) as (s' & row & E & HI' & HQ' & HS' & Hrow); auto.
      { intros y Hy. rewrite (HQ y). split; [intros [_ H]; auto|]. intros H. split; auto. lia. }
      { intros j p sup Hp Hsup. replace (j <? 0)%nat with false by (symmetry; apply Nat.ltb_ge; lia).
        assert (j < length ls)%nat as Hj by (destruct HI as (_ & _ & L & _); rewrite <- L; apply nth_error_Some; congruence).
        pose proof (HS j p sup Hp Hsup) as Ha. replace (j <? length ls)%nat with true in Ha by (symmetry; apply Nat.ltb_lt; auto).
        destruct Ha as [Ha1 Ha2]. split; [lia|]. destruct sup as [y|]; auto. apply Hmin. apply HQ. split; eauto. }
      rewrite E. destruct (@sup_In _ _ _ _ HI Hx) as (lx & Hlx & Hxl).
      destruct (IH s' m (out ++ [(m, row)])) as (rows & Er & R1 & R2 & R3); auto.
      { apply Nat.lt_le_trans with (length (filter (fun e => (t <? fst e)%Z) (concat ls))); [|lia].
        apply filter_shorter with x.
        - intros y. rewrite !Z.ltb_lt. lia.
        - apply in_concat. eauto.
        - apply Z.ltb_lt. lia.
        - apply Z.ltb_ge. lia. }
      exists ((m, row) :: rows). rewrite Er, <- app_assoc. split; auto. split; [|split].
      + simpl. apply strictly_increasing_cons; auto. intros y Hy. apply R2 in Hy. apply Z.ltb_lt. lia.
      + intros t'. simpl. rewrite R2. split.
        * intros [<-|[Hlt He]]; [split; auto|split; auto; lia]. destruct x as [tx vx]. simpl in Hxm. subst tx. eauto.
        * intros (Hlt & l & v & Hl & Hv). destruct (Z.eq_dec m t') as [->|Hne]; auto. right. split; [|eauto].
          apply In_nth_error in Hl. destruct Hl as [j Hl].
          destruct (proj2 (proj2 (proj2 (proj2 HI))) _ _ Hl) as (p & sup & r & Hh & Hgood).
          destruct (@ahead _ _ _ _ _ _ _ _ Hg HS Hl Hh Hgood _ Hv Hlt) as (y & -> & Hy1 & Hy2). destruct Hh as (_ & H2 & _).
          assert (m <= fst y) by (apply Hmin; apply HQ; split; eauto). simpl in Hy2. lia.
      + intros t' row' [H|H]; auto. inversion H; subst. auto.
  Qed.

  Lemma take_heads_ok ls : (forall l, In l ls -> l <> []) ->
    exists hs ts, take_heads ls = Some (hs, ts) /\ ls = map (fun e => fst e :: snd e) (combine hs ts) /\
                  length hs = length ls /\ length ts = length ls.
  Proof.
    induction ls as [|l ls IH]; intros H; simpl.
    - exists [], []. auto.
    - destruct l as [|x t]; [exfalso; apply (H []); [left|]; auto|].
      destruct IH as (hs & ts & E & El & L1 & L2); [intros l Hl; apply H; right; auto|]. rewrite E.
      exists (x :: hs), (t :: ts). simpl. rewrite <- El. auto.
  Qed.

  Lemma load_super_ok ts : forall h, shInv Z.ltb h ->
    let '(sup, rest, h') := load_super ts h in
    shInv Z.ltb h' /\ length sup = length ts /\ length rest = length ts /\
    (forall i l, nth_error ts i = Some l -> exists u r, nth_error sup i = Some u /\ nth_error rest i = Some r /\ l = tail_of u r) /\
    (forall y, In y (sh_data h') <-> In y (sh_data h) \/ exists i x, nth_error sup i = Some (Some x) /\ fst x = y).
  Proof.
    induction ts as [|l ts IH]; intros h Hh; simpl.
    - split; [auto|]. split; [auto|]. split; [auto|]. split; [intros [|i] l H; discriminate|].
      intros y. split; auto. intros [H|(i & x & H & _)]; auto. destruct i; discriminate.
    - destruct l as [|x t].
      + specialize (IH h Hh). destruct (load_super ts h) as [[sup rest] h']. destruct IH as (I1 & I2 & I3 & I4 & I5).
        split; [auto|]. split; [simpl; auto|]. split; [simpl; auto|]. split.
        * intros [|i] l H; simpl in *; auto. inversion H; subst. exists None, []. auto.
        * intros y. rewrite I5. split; (intros [H|(i & z & H & E)]; [auto|right]).
          -- exists (S i), z. auto.
          -- destruct i; [discriminate|]. exists i, z. auto.
      + destruct (push_In (fst x) 0 Hh) as [_ Hh2]. specialize (IH (push_ts h (fst x)) Hh2).
        destruct (load_super ts (push_ts h (fst x))) as [[sup rest] h']. destruct IH as (I1 & I2 & I3 & I4 & I5).
        split; [auto|]. split; [simpl; auto|]. split; [simpl; auto|]. split.
        * intros [|i] l H; simpl in *; auto. inversion H; subst. exists (Some x), t. auto.
        * intros y. rewrite I5, (proj1 (push_In (fst x) y Hh)). split.
          -- intros [[->|H]|(i & z & H & E)]; auto; right; [exists 0%nat, x|exists (S i), z]; auto.
          -- intros [H|(i & z & H & E)]; auto. destruct i; simpl in H; [inversion H; subst; auto|]. right. eauto.
  Qed.

  Lemma fold_max_ok r : forall a, a <= fold_left Z.max r a /\ (forall y, In y r -> y <= fold_left Z.max r a) /\
    (fold_left Z.max r a = a \/ In (fold_left Z.max r a) r).
  Proof.
    induction r as [|b r IH]; intros a; simpl; [intuition lia|].
    destruct (IH (Z.max a b)) as (H1 & H2 & H3). split; [lia|]. split.
    - intros y [<-|Hy]; auto. lia.
    - destruct H3 as [H3|H3]; auto. rewrite H3. destruct (Z.max_spec a b) as [[_ E]|[_ E]]; rewrite E; auto.
  Qed.

  Lemma nth_combine {A B} (a : list A) : forall (b : list B) i (x : A) (y : B),
    nth_error a i = Some x -> nth_error b i = Some y -> nth_error (combine a b) i = Some (x, y).
  Proof. induction a as [|z a IH]; intros [|w b] [|i] x y; simpl; try discriminate; auto. intros. congruence. Qed.

  Lemma merge_series_ok ls : ls <> [] -> (forall l, In l ls -> l <> []) -> (forall l, In l ls -> timestamps_grow l) ->
    start_together ls -> exists out, merge_series ls = Ok out /\ is_series_merge ls out.
  Proof.
    intros Hne Hnn Hg Hst. unfold merge_series, s_init.
    destruct (take_heads_ok _ Hnn) as (hs & ts & E & El & L1 & L2). rewrite E.
    destruct (map fst hs) as [|t0 r] eqn:Eh.
    { apply map_eq_nil in Eh. subst hs. destruct ls; [congruence|discriminate]. }
    set (M := fold_left Z.max r t0).
    assert ((forall p, In p hs -> fst p <= M) /\ exists p, In p hs /\ fst p = M) as [HM1 HM2].
    { destruct (fold_max_ok r t0) as (A & B & C). fold M in A, B, C. split.
      - intros p Hp. apply (in_map fst) in Hp. rewrite Eh in Hp. destruct Hp as [<-|Hp]; auto.
      - assert (In M (map fst hs)) as HM by (rewrite Eh; simpl; intuition). apply in_map_iff in HM.
        destruct HM as (p & H1 & H2). eauto. }
    assert (forall i l, nth_error ls i = Some l -> exists p t, nth_error hs i = Some p /\ nth_error ts i = Some t /\ l = p :: t) as Hls.
    { intros i l Hl. assert (i < length ls)%nat as Hi by (apply nth_error_Some; congruence).
      destruct (nth_error hs i) as [p|] eqn:Ep; [|apply nth_error_None in Ep; lia].
      destruct (nth_error ts i) as [t|] eqn:Et; [|apply nth_error_None in Et; lia].
      exists p, t. split; auto. split; auto. rewrite El in Hl. rewrite nth_error_map, (nth_combine _ _ _ Ep Et) in Hl.
      simpl in Hl. congruence. }
    assert (all_started ls M) as HMs.
    { split.
      - intros l Hl. apply In_nth_error in Hl. destruct Hl as [i Hi]. destruct (Hls _ _ Hi) as (p & t & Hp & _ & ->).
        exists p, t. split; auto. apply HM1. apply nth_error_In in Hp. auto.
      - destruct HM2 as (p & Hp & HpM). apply In_nth_error in Hp. destruct Hp as [i Hp].
        assert (i < length ls)%nat as Hi by (rewrite <- L1; apply nth_error_Some; congruence).
        destruct (nth_error ls i) as [l|] eqn:Eli; [|apply nth_error_None in Eli; lia].
        destruct (Hls _ _ Eli) as (p' & t & Hp' & _ & ->). rewrite Hp in Hp'. inversion Hp'; subst.
        exists (p' :: t), p', t. split; auto. apply nth_error_In in Eli. auto. }
    assert (shInv Z.ltb (sh_init Z.ltb Z.eqb [])) as H0.
    { unfold sh_init. simpl. apply (mk_shInv zeqb_ok); [|constructor]. destruct (heapify_spec z_order []) as [_ X]. exact X. }
    destruct (push_In M 0 H0) as [_ H1].
    pose proof (load_super_ok ts H1) as HL.
    destruct (load_super ts (push_ts (sh_init Z.ltb Z.eqb []) M)) as [[sup rest] h'] eqn:ELS. rewrite ELS in HL || idtac.
    destruct HL as (K1 & K2 & K3 & K4 & K5).
    set (s := {| rest_of := rest; preloaded := hs; super_preloaded := sup; timestamps := h' |}).
    assert (sInv ls s) as HI.
    { split; [auto|]. simpl. split; [lia|]. split; [lia|]. split; [lia|]. intros i l Hl.
      destruct (Hls _ _ Hl) as (p & t & Hp & Ht & ->). destruct (K4 _ _ Ht) as (u & r' & Hu & Hr & ->).
      exists p, u, r'. split; [repeat split; auto|]. exists []. reflexivity. }
    assert (forall y, In y (sh_data h') <-> y = M \/ exists i x, nth_error sup i = Some (Some x) /\ fst x = y) as HQ.
    { intros y. rewrite K5, (proj1 (push_In M y H0)). simpl. tauto. }
    assert (forall i x, nth_error sup i = Some (Some x) -> M <= fst x) as Hsup.
    { intros i x Hx. assert (i < length ls)%nat as Hi by (rewrite <- L2, <- K2; apply nth_error_Some; congruence).
      destruct (nth_error ls i) as [l|] eqn:Eli; [|apply nth_error_None in Eli; lia].
      destruct (Hls _ _ Eli) as (p & t & Hp & Ht & ->). destruct (K4 _ _ Ht) as (u & r' & Hu & Hr & ->).
      rewrite Hx in Hu. inversion Hu; subst. apply (Hst M (p :: x :: r') p x r'); auto. apply nth_error_In in Eli. auto. }
    destruct (@next_ok ls s M (S (S (length (concat ls))))) as (s' & row & En & HI' & HQ' & HS' & Hrow); auto.
    { simpl. apply HQ. auto. }
    { simpl. intros y Hy. apply HQ in Hy. destruct Hy as [->|(i & x & Hx & <-)]; [lia|eauto]. }
    { simpl. intros y Hy. rewrite HQ. split; auto. intros [->|H]; auto. lia. }
    { intros j p u Hp Hu. simpl in *. replace (j <? 0)%nat with false by (symmetry; apply Nat.ltb_ge; lia).
      split; [apply HM1; apply nth_error_In in Hp; auto|]. destruct u as [x|]; auto. eauto. }
    change (exists out, s_collect (S (S (length (concat ls)))) s [] = Ok out /\ is_series_merge ls out).
    remember (S (length (concat ls))) as fu eqn:Ef. cbn [s_collect]. subst fu. rewrite En. 
    destruct (@collect_ok ls Hg (S (length (concat ls))) s' M ([] ++ [(M, row)])) as (rows & Er & R1 & R2 & R3); auto.
    { apply Nat.lt_succ_r. clear. induction (concat ls) as [|x l IH]; simpl; auto. destruct (M <? fst x); simpl; lia. }
    exists ((M, row) :: rows). split; [exact Er|]. exists M. split; [exact HMs|]. split; [|split].
    - simpl. apply strictly_increasing_cons; auto. intros y Hy. apply R2 in Hy. apply Z.ltb_lt. lia.
    - intros t. simpl. rewrite R2. intuition.
    - intros t row' [H|H]; auto. inversion H; subst. auto.
  Qed.
End Series.
