From Verif Require Import Prelude PreludeFacts CacheDict_Model CacheDict_Spec CacheLRU_Proofs.
Local Open Scope Z_scope.
Set Implicit Arguments.

Section Fresh.
  Context {K V : Type}.
  Variable eqb : K -> K -> bool.
  Hypothesis Heqb : eqb_ok eqb.
  Variable c : cfg V.
  Variable max : nat.
  Hypothesis Hmax : c_max c = Some max.
  Hypothesis Hpos : (1 <= max)%nat.
  Local Notation rm := (remove_first eqb).
  Local Notation dget := (dget eqb).
  Local Notation jInv := (@jInv K V c).
  Local Notation li := (last_info eqb c).

  Definition weaker (s s' : cst K V) : Prop :=
    (forall k v, dget (cd_data s') k = Some v -> dget (cd_data s) k = Some v /\ dget (cd_ts s') k = dget (cd_ts s) k) /\
    (forall k, In k (cd_missed s') <-> In k (cd_missed s)) /\
    (forall k, In k (cd_missed s) -> dget (cd_ts s') k = dget (cd_ts s) k) /\
    cd_pending s' = cd_pending s.

  Lemma weaker_refl s : weaker s s.
  Proof. repeat split; auto. Qed.
  Lemma weaker_trans a b d : weaker a b -> weaker b d -> weaker a d.
  Proof.
    intros (A1 & A2 & A3 & A4) (B1 & B2 & B3 & B4). split; [|split; [|split]].
    - intros k v H. destruct (B1 _ _ H) as [H1 H2]. destruct (A1 _ _ H1) as [H3 H4]. split; congruence.
    - intros k. rewrite B2. apply A2.
    - intros k H. rewrite B3 by (apply A2; auto). auto.
    - congruence.
  Qed.
  Lemma weaker_set_lru s l : weaker s (set_lru s l).
  Proof. repeat split; auto. Qed.

  Lemma weaker_invalidated s k : jInv s -> disj s -> weaker s (invalidated eqb s k).
  Proof.
    intros J D. pose proof J as (J1 & J2 & J3 & J4 & J5 & J6 & J7 & J8).
    unfold invalidated, weaker; simpl. destruct (dmem eqb (cd_data s) k) eqn:E.
    - apply (dmem_In Heqb) in E.
      assert (Hk : ~ In k (cd_missed s)) by (intros H; exact (D k H E)).
      rewrite (remove_first_notin Heqb) by auto. split; [|split; [tauto|split; [|auto]]].
      + intros x v H. destruct (eqb_dec Heqb x k) as [->|N].
        * rewrite (dget_ddel_eq Heqb) in H by auto. discriminate.
        * rewrite (dget_ddel_neq Heqb) in H by auto. rewrite (dget_ddel_neq Heqb) by auto. auto.
      + intros x H. rewrite (dget_ddel_neq Heqb); auto. intros ->. contradiction.
    - repeat split; auto. destruct (eqb_dec Heqb k0 k) as [->|N].
      + rewrite (dget_ddel_eq Heqb) in H by auto. discriminate.
      + rewrite (dget_ddel_neq Heqb) in H by auto. auto.
  Qed.

  Lemma weaker_evict s : jInv s -> disj s -> weaker s (cd_evict eqb c s).
  Proof.
    intros J D. unfold cd_evict. destruct (cd_lru s) as [|k t] eqn:El; simpl; [apply weaker_refl|].
    pose proof J as (J1 & J2 & J3 & J4 & J5 & J6 & J7 & J8). rewrite El in J1. inversion J1; subst.
    rewrite (invalidate_eq Heqb c Hmax) by (simpl; auto).
    assert (W := weaker_invalidated (s := s) k J D).
    unfold invalidated, weaker in *; simpl in *. exact W.
  Qed.

  Lemma weaker_make_room fuel : forall s s', jInv s -> disj s -> (length (cd_lru s) < fuel)%nat ->
    cd_make_room eqb c fuel max s = (s', None) -> weaker s s'.
  Proof.
    induction fuel as [|f IH]; intros s s' J D Hf; [lia|]. cbn [cd_make_room].
    destruct (Nat.ltb_spec (max - 1) (length (cd_data s))) as [H|H].
    - destruct (cd_lru s) as [|k t] eqn:El.
      { intros Hr. pose proof (view_length Heqb J) as HL. unfold view in HL. rewrite El in HL. simpl in HL. lia. }
      destruct (evict_ok Heqb Hmax J El) as (J' & El' & Hv & D' & P').
      intros Hr. eapply weaker_trans; [apply weaker_evict; auto|].
      eapply IH; eauto. rewrite El'. simpl in Hf. lia.
    - intros [= <-]. apply weaker_refl.
  Qed.

  (** the state agrees with what happened before *)
  Definition fInv (s : cst K V) (h : list (event K V)) : Prop :=
    cd_pending s = outstanding h /\
    (forall k v, dget (cd_data s) k = Some v -> exists t0, li h k = Value v t0 /\ dget (cd_ts s) k = Some t0) /\
    (forall k, In k (cd_missed s) -> exists t0, li h k = Miss t0 /\ dget (cd_ts s) k = Some t0) /\
    (forall k t0, li h k = Miss t0 -> In k (cd_missed s)).

  Lemma fInv_disj s h : fInv s h -> disj s.
  Proof.
    intros (_ & F2 & F3 & _) k Hm Hd. destruct (F3 _ Hm) as (t0 & E & _).
    destruct (dget (cd_data s) k) as [v|] eqn:Ed.
    - destruct (F2 _ _ Ed) as (t1 & E1 & _). congruence.
    - apply (dget_None Heqb) in Ed. contradiction.
  Qed.

  Lemma fInv_weaker s s' h : fInv s h -> weaker s s' -> fInv s' h.
  Proof.
    intros (F1 & F2 & F3 & F4) (W1 & W2 & W3 & W4). split; [congruence|]. split; [|split].
    - intros k v H. destruct (W1 _ _ H) as [H1 H2]. rewrite H2. auto.
    - intros k H. apply W2 in H. rewrite W3 by auto. auto.
    - intros k t0 H. apply W2. eauto.
  Qed.

  (** a value for [k] enters at [t] *)
  Lemma fInv_store s h h' s' k v t : jInv s -> fInv s h ->
    cd_setitem eqb c s k v t = (s', None) ->
    li h' k = Value v t -> (forall x, x <> k -> li h' x = li h x) -> outstanding h' = outstanding h ->
    fInv s' h'.
  Proof.
    intros J F E Hk Hx Ho. unfold cd_setitem in E. rewrite Hmax in E.
    destruct (cd_make_room eqb c (S (length (cd_lru s))) max s) as [s1 [e|]] eqn:Em; [discriminate|].
    injection E as <-.
    assert (W : weaker s s1) by (eapply weaker_make_room; [exact J|eapply fInv_disj; eauto| |exact Em]; lia).
    destruct (make_room_ok Heqb Hmax Hpos (fuel := S (length (cd_lru s))) J) as (s2 & E2 & J2 & _); [lia|].
    rewrite Em in E2. injection E2 as <-.
    pose proof (fInv_weaker F W) as (F1 & F2 & F3 & F4).
    unfold fInv; simpl. split; [congruence|]. split; [|split].
    - intros x w H. destruct (eqb_dec Heqb x k) as [->|N].
      + rewrite (dget_dset_eq Heqb) in H. injection H as <-. exists t. split; auto. apply (dget_dset_eq Heqb).
      + rewrite (dget_dset_neq Heqb) in H by auto. rewrite (dget_dset_neq Heqb) by auto. rewrite Hx by auto. auto.
    - intros x H. apply (In_remove_first Heqb) in H; [|apply J2]. destruct H as [H N].
      rewrite (dget_dset_neq Heqb) by auto. rewrite Hx by auto. auto.
    - intros x t0 H. apply (In_remove_first Heqb); [apply J2|]. destruct (eqb_dec Heqb x k) as [->|N].
      + congruence.
      + rewrite Hx in H by auto. eauto.
  Qed.

  (** a failure for [k] is recorded at [t] *)
  Lemma fInv_fail s h h' k t : jInv s -> fInv s h ->
    li h' k = failure_at c t -> (forall x, x <> k -> li h' x = li h x) -> outstanding h' = outstanding h ->
    fInv (cd_on_failure eqb c s k t) h'.
  Proof.
    intros J F Hk Hx Ho. unfold cd_on_failure. rewrite (invalidate_eq Heqb c Hmax) by apply J.
    assert (D := fInv_disj F). assert (W := weaker_invalidated k J D).
    assert (Hnd : dget (cd_data (invalidated eqb s k)) k = None).
    { simpl. apply (dget_ddel_eq Heqb). apply J. }
    pose proof (fInv_weaker F W) as (F1 & F2 & F3 & F4).
    remember (invalidated eqb s k) as s1 eqn:Es1. clear Es1.
    unfold failure_at in Hk. destruct (c_fail c) as [f|] eqn:Ef.
    - assert (Hmi : forall x, In x (if memb eqb k (cd_missed s1) then cd_missed s1 else cd_missed s1 ++ [k])
                             <-> x = k \/ In x (cd_missed s1)).
      { intros x. destruct (memb eqb k (cd_missed s1)) eqn:Em.
        - apply (memb_In Heqb) in Em. intuition congruence.
        - rewrite in_app_iff. simpl. intuition. }
      unfold fInv; simpl. split; [congruence|]. split; [|split].
      + intros x v H. destruct (eqb_dec Heqb x k) as [->|N]; [congruence|].
        rewrite (dget_dset_neq Heqb) by auto. rewrite Hx by auto. auto.
      + intros x H. apply Hmi in H. destruct (eqb_dec Heqb x k) as [->|N].
        * exists t. split; auto. apply (dget_dset_eq Heqb).
        * rewrite (dget_dset_neq Heqb) by auto. rewrite Hx by auto. destruct H; [contradiction|auto].
      + intros x t0 H. apply Hmi. destruct (eqb_dec Heqb x k) as [->|N]; auto. right. rewrite Hx in H by auto. eauto.
    - assert (Hno : cd_missed s1 = []).
      { destruct W as (_ & W2 & _). destruct J as (_ & _ & _ & _ & _ & _ & _ & J8).
        destruct (cd_missed s1) as [|y l]; auto. exfalso. specialize (W2 y). rewrite J8 in W2 by auto.
        apply W2. left; auto. }
      split; [congruence|]. split; [|split].
      + intros x v H. destruct (eqb_dec Heqb x k) as [->|N]; [congruence|]. rewrite Hx by auto. auto.
      + rewrite Hno. intros x [].
      + intros x t0 H. destruct (eqb_dec Heqb x k) as [->|N]; [congruence|]. rewrite Hx in H by auto. eauto.
  Qed.

  Lemma fInv_same s h h' : fInv s h -> (forall x, li h' x = li h x) -> outstanding h' = outstanding h -> fInv s h'.
  Proof.
    intros (F1 & F2 & F3 & F4) Hx Ho. split; [congruence|]. split; [|split].
    - intros k v H. rewrite Hx. auto.
    - intros k H. rewrite Hx. auto.
    - intros k t0. rewrite Hx. apply F4.
  Qed.

  Lemma li_cons e h x : li (e :: h) x = info_after eqb c e x (li h x).
  Proof. reflexivity. Qed.

  Lemma load_fresh s h k r : jInv s -> fits max s -> fInv s h -> r_getter r <> Err Diverges ->
    let '(s', g) := called (cd_get_value_block eqb c s k (r_getter r) (r_done r)) in
    fInv s' ((CGet k r, COGot g) :: h) /\ asked c r g.
  Proof.
    intros J Hf F Hh. destruct (load_ok Heqb Hmax Hpos k r J Hf Hh) as (A & _).
    destruct (called _) as [s' g] eqn:E. simpl in A. split; auto.
    destruct A as (Ac & As & Ar). unfold called in E. injection E as <- Eg.
    assert (Hli : forall x, x <> k -> li ((CGet k r, COGot g) :: h) x = li h x).
    { intros x N. rewrite li_cons. simpl. rewrite (proj2 (eqb_false_iff Heqb k x)); auto. }
    assert (Hlk : li ((CGet k r, COGot g) :: h) k = loaded c (r_getter r) (r_done r) (li h k)).
    { rewrite li_cons. simpl. rewrite (eqb_refl' Heqb), Ac. auto. }
    assert (Ho : outstanding ((CGet k r, COGot g) :: h) = outstanding h) by (simpl; rewrite As; auto).
    unfold cd_get_value_block. rewrite Hmax. destruct (r_getter r) as [v|e] eqn:Er.
    - destruct (setitem_ok Heqb Hmax Hpos k v (r_done r) J) as (s2 & E2 & _). rewrite E2. cbn [fst].
      eapply fInv_weaker; [|apply weaker_set_lru]. eapply fInv_store; eauto.
    - assert (Hother : e <> KeyError -> fInv s ((CGet k r, COGot g) :: h)).
      { intros He. apply (fInv_same _ F); auto. intros x. destruct (eqb_dec Heqb x k) as [->|N]; auto.
        rewrite Hlk. destruct e; auto. congruence. }
      destruct e; try (apply Hother; discriminate). clear Hother.
      assert (Hfl : fInv (cd_on_failure eqb c s k (r_done r)) ((CGet k r, COGot g) :: h)) by (eapply fInv_fail; eauto).
      unfold miss_result. destruct (c_default c); cbn [fst]; auto.
  Qed.

  Lemma ltb_leb a b : Z.ltb a b = negb (b <=? a).
  Proof. apply Z.ltb_antisym. Qed.

  Lemma fresh_step s h o : jInv s -> fits max s -> fInv s h -> honest_getter o -> not_feed o = true ->
    benign eqb c h o = true ->
    let '(s', out) := cd_step eqb c s o in
    fInv s' ((o, out) :: h) /\ lru_answer eqb c h (view eqb s) o out.
  Proof.
    intros J Hf F Hh Hn Hb. pose proof F as (F1 & F2 & F3 & F4). pose proof (fInv_disj F) as D.
    destruct o as [k r|k v t|k v ts t|k|k|k t| | |i g t]; cbn beta iota delta [cd_step].
    - simpl in Hh, Hb. apply Z.eqb_eq in Hb.
      unfold cd_getitem. rewrite Hmax.
      destruct (marked_ok Heqb k J) as [J1 V1]. set (s1 := set_lru s (lru_mark eqb (cd_lru s) k)) in *.
      assert (Hf1 : fits max s1) by exact Hf. cbv zeta.
      assert (Fs1 : fInv s1 h) by (apply (fInv_weaker F); apply weaker_set_lru).
      pose proof (load_fresh k r J1 Hf1 Fs1 Hh) as Hload.
      unfold lru_answer. rewrite (view_get Heqb k J).
      change (cd_data s1) with (cd_data s). change (cd_missed s1) with (cd_missed s). change (cd_ts s1) with (cd_ts s).
      assert (Hserve : forall g s2, g_called g = false -> cd_data s2 = cd_data s -> cd_missed s2 = cd_missed s ->
        cd_ts s2 = cd_ts s -> cd_pending s2 = (if g_scheduled g then cd_pending s ++ [k] else cd_pending s) ->
        fInv s2 ((CGet k r, COGot g) :: h)).
      { intros g s2 Hc Hd Hm Ht Hp. split.
        - simpl. rewrite Hp, F1. destruct (g_scheduled g); auto.
        - assert (Hli : forall x, li ((CGet k r, COGot g) :: h) x = li h x).
          { intros x. rewrite li_cons. simpl. rewrite Hc. destruct (eqb k x); auto. }
          rewrite Hd, Hm, Ht. split; [|split].
          + intros x v H. rewrite Hli. auto.
          + intros x H. rewrite Hli. auto.
          + intros x t0. rewrite Hli. apply F4. }
      destruct (dget (cd_data s) k) as [v|] eqn:Ed.
      + destruct (F2 _ _ Ed) as (t0 & L0 & T0).
        assert (Hm : memb eqb k (cd_missed s) = false).
        { apply (memb_false Heqb). intros H. apply (D _ H). eapply dget_Some_key; eauto. }
        assert (Hdm : dmem eqb (cd_data s) k = true) by (unfold dmem; rewrite Ed; auto).
        rewrite Hdm, T0, Hm. cbn [negb andb].
        rewrite Hb. rewrite !ltb_leb. destruct (r_now r - t0 <=? c_exp c) eqn:Ee; cbn [negb].
        * destruct (r_now r - t0 <=? c_stale c) eqn:Es; cbn [negb]; unfold served.
          -- split; [apply Hserve; auto|]. eexists; split; [reflexivity|]. exists t0. split; auto. simpl. rewrite Ee, Es. auto.
          -- split; [apply Hserve; auto|]. eexists; split; [reflexivity|]. exists t0. split; auto. simpl. rewrite Ee, Es. auto.
        * destruct (called _) as [s' g]. destruct Hload as [Hl1 Hl2]. split; auto.
          eexists; split; [reflexivity|]. exists t0. split; auto. rewrite Ee. auto.
      + assert (Hdm : dmem eqb (cd_data s) k = false) by (unfold dmem; rewrite Ed; auto).
        rewrite Hdm. cbn [negb andb]. destruct (memb eqb k (cd_missed s)) eqn:Em; cbn [negb].
        * apply (memb_In Heqb) in Em. destruct (F3 _ Em) as (t0 & L0 & T0). rewrite L0, T0.
          destruct (c_fail c) as [f|] eqn:Ef.
          2: { destruct J as (_ & _ & _ & _ & _ & _ & _ & J8). rewrite J8 in Em by auto. destruct Em. }
          rewrite Hb, ltb_leb. destruct (r_now r - t0 <=? f) eqn:Ee; cbn [negb].
          -- unfold served. split; [apply Hserve; auto|]. eexists; split; [reflexivity|]. simpl. auto.
          -- destruct (called _) as [s' g]. destruct Hload as [Hl1 Hl2]. split; auto.
             eexists; split; [reflexivity|]. auto.
        * apply (memb_false Heqb) in Em. destruct (called _) as [s' g]. destruct Hload as [Hl1 Hl2]. split; auto.
          eexists; split; [reflexivity|]. destruct (li h k) as [|v t0|t0] eqn:L; auto.
          exfalso. apply Em. eauto.
    - destruct (setitem_ok Heqb Hmax Hpos k v t J) as (s' & E & _). rewrite E. simpl unit_out. cbn [unit_out fst snd].
      split; [|exact I]. eapply fInv_store; eauto.
      + rewrite li_cons. simpl. rewrite (eqb_refl' Heqb). auto.
      + intros x N. rewrite li_cons. simpl. rewrite (proj2 (eqb_false_iff Heqb k x)); auto.
    - discriminate.
    - (* del *)
      unfold cd_delitem. rewrite Hmax. unfold base_delitem.
      pose proof J as (J1 & J2 & J3 & J4 & J5 & J6 & J7 & J8).
      destruct (dmem eqb (cd_data s) k) eqn:E.
      + pose proof E as Ein. apply (dmem_In Heqb) in Ein.
        rewrite (proj2 (dmem_In Heqb _ _) (J5 _ Ein)). cbv zeta iota beta. cbn [cd_lru].
        unfold lru_remove. rewrite (proj2 (memb_In Heqb _ _) (J2 _ Ein)).
        assert (Hk : ~ In k (cd_missed s)) by (intros H; exact (D k H Ein)).
        rewrite (remove_first_notin Heqb k (cd_missed s)) by auto.
        unfold unit_out. cbn [fst snd].
        assert (Hx : forall x, x <> k -> li ((CDel k, CONone) :: h) x = li h x).
        { intros x N. rewrite li_cons. simpl. rewrite (proj2 (eqb_false_iff Heqb k x)); auto. }
        assert (Hkk : li ((CDel k, CONone) :: h) k = Nothing).
        { rewrite li_cons. simpl. rewrite (eqb_refl' Heqb). auto. }
        split; [|exact I]. split; [exact F1|]. cbn [set_lru cd_data cd_ts cd_missed]. split; [|split].
        * intros x v H. destruct (eqb_dec Heqb x k) as [->|N].
          -- rewrite (dget_ddel_eq Heqb) in H by auto. discriminate.
          -- rewrite (dget_ddel_neq Heqb) in H by auto. rewrite (dget_ddel_neq Heqb) by auto. rewrite Hx by auto. auto.
        * intros x H. assert (N : x <> k) by (intros ->; contradiction).
          rewrite (dget_ddel_neq Heqb) by auto. rewrite Hx by auto. auto.
        * intros x t0 H. destruct (eqb_dec Heqb x k) as [->|N]; [congruence|]. rewrite Hx in H by auto. eauto.
      + simpl. split; [|exact I]. apply (fInv_same _ F); auto.
    - split; [|exact I]. rewrite (invalidate_eq Heqb c Hmax) by apply J.
      simpl in Hb. apply negb_true_iff in Hb.
      assert (Hk : ~ In k (cd_missed s)).
      { intros H. destruct (F3 _ H) as (t0 & L0 & _). rewrite L0 in Hb. discriminate. }
      pose proof (fInv_weaker F (weaker_invalidated k J D)) as (G1 & G2 & G3 & G4).
      assert (Hd : dget (cd_data (invalidated eqb s k)) k = None).
      { simpl. apply (dget_ddel_eq Heqb). apply J. }
      assert (Hx : forall x, x <> k -> li ((CInvalidate k, CONone) :: h) x = li h x).
      { intros x N. rewrite li_cons. simpl. rewrite (proj2 (eqb_false_iff Heqb k x)); auto. }
      assert (Hkk : li ((CInvalidate k, CONone) :: h) k = Nothing).
      { rewrite li_cons. simpl. rewrite (eqb_refl' Heqb). auto. }
      split; [exact G1|]. split; [|split].
      + intros x v H. destruct (eqb_dec Heqb x k) as [->|N]; [congruence|]. rewrite Hx by auto. auto.
      + intros x H. destruct (eqb_dec Heqb x k) as [->|N].
        * exfalso. apply (proj1 (proj2 (weaker_invalidated k J D))) in H. contradiction.
        * rewrite Hx by auto. auto.
      + intros x t0 H. destruct (eqb_dec Heqb x k) as [->|N]; [congruence|]. rewrite Hx in H by auto. eauto.
    - split; [apply (fInv_same _ F); auto|]. simpl in Hb. apply negb_true_iff in Hb.
      unfold lru_answer. rewrite (view_get Heqb k J). eexists; split; [reflexivity|].
      unfold cd_has_info, dmem. destruct (dget (cd_data s) k) as [v|] eqn:Ed.
      + destruct (F2 _ _ Ed) as (t0 & L0 & T0). exists t0. rewrite T0. auto.
      + assert (Hm : memb eqb k (cd_missed s) = false).
        { apply (memb_false Heqb). intros H. destruct (F3 _ H) as (t0 & L0 & _). rewrite L0 in Hb. discriminate. }
        rewrite Hm. destruct (c_fail c); auto.
    - split; [apply (fInv_same _ F); auto|exact I].
    - split; [apply (fInv_same _ F); auto|exact I].
    - unfold cd_complete. unfold lru_answer. rewrite <- F1.
      destruct (nth_error (cd_pending s) i) as [k|] eqn:En.
      2: { split; auto. }
      set (s1 := {| cd_data := cd_data s; cd_ts := cd_ts s; cd_missed := cd_missed s; cd_lru := cd_lru s;
                    cd_pending := del_nth i (cd_pending s) |}).
      assert (J1 : jInv s1) by exact J.
      (* the same history, with the refresh taken off the list *)
      set (h1 := (CComplete (K := K) i (Err (A := V) (UserExn 0)) t, CODone k) :: h).
      assert (Hh1 : forall x, li h1 x = li h x).
      { intros x. unfold h1. rewrite li_cons. simpl. destruct (eqb k x); auto. }
      assert (Fs1 : fInv s1 h1).
      { split; [simpl; congruence|]. split; [|split].
        - intros x v H. rewrite Hh1. apply F2; auto.
        - intros x H. rewrite Hh1. apply F3; auto.
        - intros x t0. rewrite Hh1. apply F4. }
      assert (Hx : forall x, x <> k -> li ((CComplete i g t, CODone k) :: h) x = li h1 x).
      { intros x N. rewrite Hh1, li_cons. simpl. rewrite (proj2 (eqb_false_iff Heqb k x)); auto. }
      assert (Hkk : li ((CComplete i g t, CODone k) :: h) k = loaded c g t (li h k)).
      { rewrite li_cons. simpl. rewrite (eqb_refl' Heqb). auto. }
      assert (Ho : outstanding ((CComplete i g t, CODone k) :: h) = outstanding h1) by reflexivity.
      destruct g as [v|e].
      + destruct (setitem_ok Heqb Hmax Hpos k v t J1) as (s' & E & _). rewrite E. split; auto.
        eapply fInv_store; eauto.
      + assert (Hother : e <> KeyError -> fInv s1 ((CComplete i (Err e) t, CODone k) :: h)).
        { intros He. apply (fInv_same _ Fs1); auto. intros x. destruct (eqb_dec Heqb x k) as [->|N]; auto.
          rewrite Hkk, Hh1. destruct e; auto. congruence. }
        destruct e; try (split; [apply Hother; discriminate|reflexivity]).
        split; auto. eapply fInv_fail; eauto.
  Qed.

  Lemma fInv_init : fInv cd_init [].
  Proof. split; [reflexivity|]. split; [discriminate|]. split; [intros k []|discriminate]. Qed.

  Lemma fresh_run ops : forall s h, jInv s -> fits max s -> fInv s h -> Forall honest_getter ops ->
    forallb not_feed ops = true -> benign_session eqb c h ops (fst (cd_run eqb c s ops)) = true ->
    lru_fresh_session eqb c (stored eqb max) max h (view eqb s) ops (fst (cd_run eqb c s ops)).
  Proof.
    induction ops as [|o ops IH]; intros s h J Hf F Hh Hn Hb; simpl; [constructor|].
    inversion Hh; subst. simpl in Hn. apply andb_true_iff in Hn. destruct Hn as [Hn1 Hn2].
    pose proof (lru_step_ok Heqb Hmax Hpos o J Hf) as Hs. simpl in Hb.
    pose proof (@fresh_step s h o J Hf F) as Hs2.
    destruct (cd_step eqb c s o) as [s1 out]. destruct Hs as (J1 & Hf1 & _ & Hs); auto.
    destruct (Hs (fInv_disj F) Hn1) as [_ S1].
    destruct (cd_run eqb c s1 ops) as [outs s2] eqn:Er. simpl in *.
    apply andb_true_iff in Hb. destruct Hb as [Hb1 Hb2].
    destruct Hs2 as [F1 A1]; auto.
    econstructor; eauto.
    - rewrite (view_length Heqb J1). exact Hf1.
    - specialize (IH s1 ((o, out) :: h) J1 Hf1 F1). rewrite Er in IH. apply IH; auto.
  Qed.

  Lemma fresh_session_ok ops : Forall honest_getter ops -> forallb not_feed ops = true ->
    benign_session eqb c [] ops (fst (cd_run eqb c cd_init ops)) = true ->
    lru_fresh_session eqb c (stored eqb max) max [] [] ops (fst (cd_run eqb c cd_init ops)).
  Proof.
    intros H1 H2 H3. apply (fresh_run (s := cd_init) (h := [])); auto.
    - apply (jInv_init c).
    - unfold fits. simpl. lia.
    - apply fInv_init.
  Qed.
End Fresh.
