From Verif Require Import Prelude PreludeFacts CacheDict_Model CacheDict_Spec.

Set Implicit Arguments.

Section CacheDictProofs.
  Context {K V : Type}.
  Variable eqb : K -> K -> bool.
  Hypothesis Heqb : eqb_ok eqb.
  Variable c : cfg V.

  Ltac ksplit k k' := destruct (eqb_dec Heqb k k') as [?|?]; [subst|].

  Lemma eqb_neq k k' : k <> k' -> eqb k k' = false.
  Proof. apply (eqb_false_iff Heqb). Qed.
  Lemma eqb_eq' k : eqb k k = true.
  Proof. apply (eqb_refl' Heqb). Qed.

  Lemma In_rm l (k x : K) : NoDup l -> In x (remove_first eqb k l) <-> In x l /\ x <> k.
  Proof. apply In_remove_first; auto. Qed.

  (** ** C08 *)
  Definition kInv (s : cst K V) (hist : list (event K V)) (k : K) : Prop :=
    match last_info eqb c hist k with
    | Nothing => dget eqb (cd_data s) k = None /\ ~ In k (cd_missed s)
    | Value v t => dget eqb (cd_data s) k = Some v /\ dget eqb (cd_ts s) k = Some t /\ ~ In k (cd_missed s)
    | Miss t => dget eqb (cd_data s) k = None /\ dget eqb (cd_ts s) k = Some t /\ In k (cd_missed s) /\ c_fail c <> None
    end.
  Definition cInv (s : cst K V) (hist : list (event K V)) : Prop :=
    dwf (cd_data s) /\ dwf (cd_ts s) /\ NoDup (cd_missed s) /\
    cd_pending s = outstanding hist /\ (forall k, kInv s hist k).

  Section Plain.
    Hypothesis Hplain : c_max c = None.

    Lemma base_setitem_inv s hist e k v t :
      cInv s hist ->
      (forall k' old, info_after eqb c e k' old = if eqb k k' then Value v t else old) ->
      outstanding (e :: hist) = outstanding hist ->
      cInv (base_setitem eqb s k v t) (e :: hist).
    Proof.
      intros (I1 & I2 & I3 & I4 & I5) He Hp.
      split; [apply dset_wf; auto|split; [apply dset_wf; auto|split; [apply NoDup_remove_first; auto|split; [rewrite Hp; auto|]]]].
      intros k'. unfold kInv. cbn [last_info]. rewrite He. simpl. specialize (I5 k'). unfold kInv in I5.
      ksplit k k'.
      - rewrite eqb_eq'. rewrite !(dget_dset_eq Heqb). repeat split; auto.
        rewrite (In_rm _ _ I3). tauto.
      - rewrite eqb_neq by congruence. rewrite !(dget_dset_neq Heqb) by congruence.
        destruct (last_info eqb c hist k'); rewrite (In_rm _ _ I3); intuition congruence.
    Qed.

    Lemma on_failure_inv s hist e k t :
      cInv s hist ->
      (forall k' old, info_after eqb c e k' old = if eqb k k' then failure_at c t else old) ->
      outstanding (e :: hist) = outstanding hist ->
      cInv (cd_on_failure eqb c s k t) (e :: hist).
    Proof.
      intros (I1 & I2 & I3 & I4 & I5) He Hp.
      (* the state after invalidate *)
      assert (Hinv : exists s1, cd_invalidate eqb c s k = s1 /\ dwf (cd_data s1) /\ dwf (cd_ts s1) /\
        NoDup (cd_missed s1) /\ cd_pending s1 = cd_pending s /\ dget eqb (cd_data s1) k = None /\
        (forall k', k' <> k -> dget eqb (cd_data s1) k' = dget eqb (cd_data s) k' /\
                               dget eqb (cd_ts s1) k' = dget eqb (cd_ts s) k' /\
                               (In k' (cd_missed s1) <-> In k' (cd_missed s))) /\
        (c_fail c = None -> ~ In k (cd_missed s1))).
      { unfold cd_invalidate, base_invalidate, cd_delitem. rewrite Hplain. unfold base_delitem.
        pose proof (I5 k) as Hk. unfold kInv in Hk.
        destruct (dmem eqb (cd_data s) k) eqn:Em.
        - assert (Ht : dmem eqb (cd_ts s) k = true).
          { unfold dmem in *. destruct (last_info eqb c hist k).
            - destruct Hk as [E _]. rewrite E in Em. discriminate.
            - destruct Hk as (_ & -> & _). auto.
            - destruct Hk as [E _]. rewrite E in Em. discriminate. }
          rewrite Ht. simpl. eexists; split; [reflexivity|]. simpl.
          repeat split; auto.
          + apply ddel_wf; auto.
          + apply ddel_wf; auto.
          + apply NoDup_remove_first; auto.
          + apply dget_ddel_eq; auto.
          + apply dget_ddel_neq; auto.
          + apply dget_ddel_neq; auto.
          + intros H'. apply (In_rm _ _ I3) in H'. tauto.
          + intros H'. apply (In_rm _ _ I3). auto.
          + intros _ H'. apply (In_rm _ _ I3) in H'. tauto.
        - simpl. eexists; split; [reflexivity|]. repeat split; auto.
          + unfold dmem in Em. destruct (dget eqb (cd_data s) k); [discriminate|auto].
          + intros Hf Hin. destruct (last_info eqb c hist k); tauto. }
      destruct Hinv as (s1 & E1 & W1 & W2 & W3 & W4 & W5 & W6 & W7).
      unfold cd_on_failure. rewrite E1. destruct (c_fail c) as [f|] eqn:Ef.
      - split; [|split; [|split; [|split]]]; simpl; auto.
        + apply dset_wf; auto.
        + destruct (memb eqb k (cd_missed s1)) eqn:Em; auto. apply (memb_false Heqb) in Em.
          apply NoDup_Add with (a := k) (l := cd_missed s1); [|split; auto].
          rewrite <- (app_nil_r (cd_missed s1)) at 1. apply Add_app.
        + transitivity (cd_pending s); auto. rewrite I4. symmetry. exact Hp.
        + assert (Hmi : forall x, In x (if memb eqb k (cd_missed s1) then cd_missed s1 else cd_missed s1 ++ [k])
                                  <-> x = k \/ In x (cd_missed s1)).
          { intros x. destruct (memb eqb k (cd_missed s1)) eqn:Em.
            - apply (memb_In Heqb) in Em. split; [auto|]. intros [->|H]; auto.
            - rewrite in_app_iff. simpl. intuition. }
          intros k'. unfold kInv. cbn [last_info]. rewrite He. simpl. ksplit k' k.
          * rewrite eqb_eq'. unfold failure_at. rewrite Ef. rewrite (dget_dset_eq Heqb). rewrite Hmi.
            repeat split; auto. congruence.
          * rewrite eqb_neq by congruence. rewrite (dget_dset_neq Heqb) by congruence.
            destruct (W6 k') as (E2 & E3 & E4); auto. rewrite E2, E3.
            specialize (I5 k'). unfold kInv in I5.
            destruct (last_info eqb c hist k'); rewrite Hmi, E4; intuition congruence.
      - split; [|split; [|split; [|split]]]; auto.
        + rewrite W4, I4. symmetry. exact Hp.
        + intros k'. unfold kInv. cbn [last_info]. rewrite He. ksplit k' k.
          * rewrite eqb_eq'. unfold failure_at. rewrite Ef. auto.
          * rewrite eqb_neq by congruence. destruct (W6 k') as (E2 & E3 & E4); auto. rewrite E2, E3.
            specialize (I5 k'). unfold kInv in I5. destruct (last_info eqb c hist k'); rewrite E4; intuition congruence.
    Qed.

    Lemma same_inv s hist e :
      cInv s hist -> (forall k' old, info_after eqb c e k' old = old) ->
      outstanding (e :: hist) = outstanding hist -> cInv s (e :: hist).
    Proof.
      intros (I1 & I2 & I3 & I4 & I5) He Hp. repeat split; auto.
      - rewrite Hp; auto.
      - intros k. unfold kInv. cbn [last_info]. rewrite He. apply I5.
    Qed.

    Lemma load_inv s hist k r : cInv s hist ->
      let p := called (cd_get_value_block eqb c s k (r_getter r) (r_done r)) in
      asked c r (snd p) /\ cInv (fst p) ((CGet k r, COGot (snd p)) :: hist).
    Proof.
      intros I. unfold called, cd_get_value_block. rewrite Hplain.
      unfold cd_setitem. rewrite Hplain. unfold asked, miss_answer, miss_result.
      destruct (r_getter r) as [v|e] eqn:Eg; cbn [fst snd g_called g_scheduled g_res].
      - split; auto. eapply base_setitem_inv; eauto.
        intros k' old. simpl. rewrite Eg. auto.
      - assert (Hother : e <> KeyError ->
           (true = true /\ false = false /\ @Err V e = match e with KeyError => match c_default c with Some v => Ok v | None => Err KeyError end | _ => Err e end) /\
           cInv s ((CGet k r, COGot {| g_res := Err e; g_called := true; g_scheduled := false |}) :: hist)).
        { intros He. split.
          - repeat split. destruct e; auto. congruence.
          - apply same_inv; auto. intros k' old. simpl. rewrite Eg. destruct (eqb k k'); auto.
            destruct e; auto. congruence. }
        destruct e; try (apply Hother; discriminate).
        destruct (c_default c) as [v|]; cbn [fst snd g_called g_scheduled g_res].
        + split; auto. eapply on_failure_inv; eauto. intros k' old. simpl. rewrite Eg. auto.
        + split; auto. eapply on_failure_inv; eauto. intros k' old. simpl. rewrite Eg. auto.
    Qed.

    Lemma keys_hold s hist : cInv s hist -> holds_keys eqb c hist (dkeys (cd_data s)).
    Proof.
      intros (I1 & _ & _ & _ & I5). split; auto. intros k. specialize (I5 k). unfold kInv in I5. split.
      - intros H. apply (dget_key_Some Heqb) in H. destruct H as [v Hv].
        destruct (last_info eqb c hist k); try (destruct I5; congruence). eauto.
      - intros (v & t & E). rewrite E in I5. destruct I5 as (E1 & _). eapply dget_Some_key; eauto.
    Qed.

    Lemma plain_step_ok s hist o :
      cInv s hist -> benign eqb c hist o = true ->
      let '(s', out) := cd_step eqb c s o in
      cd_answer eqb c hist o out /\ cInv s' ((o, out) :: hist).
    Proof.
      intros I Hb. pose proof I as (I1 & I2 & I3 & I4 & I5).
      destruct o as [k r|k v t|k v ts t|k|k|k t| | |i g t]; cbn beta iota delta [cd_step].
      - (* get *)
        simpl in Hb. apply Z.eqb_eq in Hb.
        assert (Hload : forall p, p = called (cd_get_value_block eqb c s k (r_getter r) (r_done r)) ->
          asked c r (snd p) /\ cInv (fst p) ((CGet k r, COGot (snd p)) :: hist)).
        { intros p ->. apply load_inv; auto. }
        unfold cd_getitem. rewrite Hplain. cbv zeta. unfold cd_answer.
        pose proof (I5 k) as Hk. unfold kInv in Hk.
        destruct (last_info eqb c hist k) as [|v t0|t0] eqn:El.
        + destruct Hk as [E1 E2]. unfold dmem. rewrite E1. rewrite (proj2 (memb_false Heqb _ _) E2). cbn [negb andb].
          destruct (called _) as [s' g]. destruct (Hload _ eq_refl) as [A B]. simpl in *.
          split; [exists g; split; [reflexivity|exact A]|exact B].
        + destruct Hk as (E1 & E2 & E3). unfold dmem. rewrite E1, E2. rewrite (proj2 (memb_false Heqb _ _) E3).
          cbn [negb andb]. rewrite <- Hb.
          destruct (Z.ltb_spec (c_exp c) (r_mono r - t0)) as [H|H].
          * destruct (Z.leb_spec (r_mono r - t0) (c_exp c)); [lia|].
            destruct (called _) as [s' g]. destruct (Hload _ eq_refl) as [A B]. simpl in *.
            split; [exists g; split; [reflexivity|exact A]|exact B].
          * destruct (Z.leb_spec (r_mono r - t0) (c_exp c)); [|lia].
            destruct (Z.ltb_spec (c_stale c) (r_mono r - t0)) as [H2|H2].
            -- split.
               ++ eexists; split; [reflexivity|]. simpl. repeat split; auto.
                  destruct (Z.leb_spec (r_mono r - t0) (c_stale c)); auto; lia.
               ++ split; [auto|split; [auto|split; [auto|split]]]; simpl.
                  ** rewrite I4; auto.
                  ** intros k'. specialize (I5 k'). unfold kInv in *. simpl. destruct (eqb k k'); auto.
            -- unfold served. split.
               ++ eexists; split; [reflexivity|]. simpl. repeat split; auto.
                  destruct (Z.leb_spec (r_mono r - t0) (c_stale c)); auto; lia.
               ++ apply same_inv; auto. intros k' old. simpl. destruct (eqb k k'); auto.
        + destruct Hk as (E1 & E2 & E3 & E4). unfold dmem. rewrite E1, E2.
          rewrite (proj2 (memb_In Heqb _ _) E3). cbn [negb andb].
          destruct (c_fail c) as [f|] eqn:Ef; [|congruence]. rewrite <- Hb.
          destruct (Z.ltb_spec f (r_mono r - t0)) as [H|H].
          * destruct (Z.leb_spec (r_mono r - t0) f); [lia|].
            destruct (called _) as [s' g]. destruct (Hload _ eq_refl) as [A B]. simpl in *.
            split; [exists g; split; [reflexivity|exact A]|exact B].
          * destruct (Z.leb_spec (r_mono r - t0) f); [|lia]. unfold served. split.
            -- eexists; split; [reflexivity|]. simpl. repeat split; auto.
            -- apply same_inv; auto. intros k' old. simpl. destruct (eqb k k'); auto.
      - unfold cd_setitem. rewrite Hplain. simpl. split; auto.
        eapply base_setitem_inv; eauto. 
      - unfold cd_feed. rewrite Hplain. simpl. split; auto. simpl in Hb.
        apply andb_true_iff in Hb. destruct Hb as [Hb1 Hb2].
        split; [apply dset_wf; auto|split; [apply dset_wf; auto|split; [auto|split; [auto|]]]].
        intros k'. unfold kInv. simpl. specialize (I5 k'). unfold kInv in I5. ksplit k k'.
        + rewrite eqb_eq'. rewrite !(dget_dset_eq Heqb). repeat split; auto.
          * destruct ts as [x|]; auto. destruct (Z.eqb_spec x 0); auto. subst. discriminate.
          * destruct (last_info eqb c hist k'); simpl in Hb1; try discriminate; tauto.
        + rewrite eqb_neq by congruence. rewrite !(dget_dset_neq Heqb) by congruence. auto.
      - (* del *)
        unfold cd_delitem. rewrite Hplain. unfold base_delitem. unfold cd_answer.
        pose proof (I5 k) as Hk. unfold kInv in Hk.
        assert (Habs : dget eqb (cd_data s) k = None -> dmem eqb (cd_data s) k = false)
          by (unfold dmem; intros ->; auto).
        destruct (last_info eqb c hist k) as [|v t0|t0] eqn:El.
        + rewrite Habs by tauto. simpl. split; [reflexivity|apply same_inv; auto].
        + destruct Hk as (E1 & E2 & E3). unfold dmem at 1. rewrite E1. unfold dmem at 1. rewrite E2. simpl.
          split; auto.
          split; [apply ddel_wf; auto|split; [apply ddel_wf; auto|split; [apply NoDup_remove_first; auto|split; [auto|]]]].
          intros k'. unfold kInv. simpl. specialize (I5 k'). unfold kInv in I5. ksplit k k'.
          * rewrite eqb_eq'. rewrite (dget_ddel_eq Heqb) by auto. rewrite (In_rm _ _ I3). tauto.
          * rewrite eqb_neq by congruence. rewrite !(dget_ddel_neq Heqb) by congruence.
            destruct (last_info eqb c hist k'); rewrite (In_rm _ _ I3); intuition congruence.
        + rewrite Habs by tauto. simpl. split; [reflexivity|apply same_inv; auto].
      - (* invalidate *)
        simpl in Hb. split; [reflexivity|].
        unfold cd_invalidate, base_invalidate, cd_delitem. rewrite Hplain. unfold base_delitem.
        pose proof (I5 k) as Hk. unfold kInv in Hk.
        destruct (last_info eqb c hist k) as [|v t0|t0] eqn:El; [| |discriminate].
        + destruct Hk as [E1 E2]. unfold dmem at 1. rewrite E1. simpl.
          repeat split; auto. intros k'. specialize (I5 k'). unfold kInv in *. simpl. ksplit k k'.
          * rewrite eqb_eq'. auto.
          * rewrite eqb_neq by congruence. auto.
        + destruct Hk as (E1 & E2 & E3). unfold dmem at 1. rewrite E1. unfold dmem at 1. rewrite E2. simpl.
          split; [apply ddel_wf; auto|split; [apply ddel_wf; auto|split; [apply NoDup_remove_first; auto|split; [auto|]]]].
          intros k'. unfold kInv. simpl. specialize (I5 k'). unfold kInv in I5. ksplit k k'.
          * rewrite eqb_eq'. rewrite (dget_ddel_eq Heqb) by auto. rewrite (In_rm _ _ I3). tauto.
          * rewrite eqb_neq by congruence. rewrite !(dget_ddel_neq Heqb) by congruence.
            destruct (last_info eqb c hist k'); rewrite (In_rm _ _ I3); intuition congruence.
      - (* has_info *)
        simpl in Hb. split; [|apply same_inv; auto].
        unfold cd_answer. eexists; split; [reflexivity|]. unfold cd_has_info.
        pose proof (I5 k) as Hk. unfold kInv in Hk.
        destruct (last_info eqb c hist k) as [|v t0|t0] eqn:El; [| |discriminate].
        + destruct Hk as [E1 E2]. unfold dmem. rewrite E1. rewrite (proj2 (memb_false Heqb _ _) E2).
          destruct (c_fail c); auto.
        + destruct Hk as (E1 & E2 & E3). unfold dmem. rewrite E1, E2. auto.
      - split; [|apply same_inv; auto]. exists (dkeys (cd_data s)). split; [apply keys_hold; auto|].
        unfold dkeys. rewrite map_length. auto.
      - split; [|apply same_inv; auto]. exists (dkeys (cd_data s)). split; [apply keys_hold; auto|auto].
      - (* complete *)
        unfold cd_complete, cd_answer. rewrite I4.
        destruct (nth_error (outstanding hist) i) as [k|] eqn:En.
        2: { split; [reflexivity|apply same_inv; auto]. }
        set (s1 := {| cd_data := cd_data s; cd_ts := cd_ts s; cd_missed := cd_missed s; cd_lru := cd_lru s;
                      cd_pending := del_nth i (outstanding hist) |}).
        (* s1 satisfies the invariant for a history extended by a neutral completion event *)
        assert (Hneutral : forall e s2, e = (CComplete i g t, CODone k) ->
           (forall h2 e2, cInv s1 h2 -> outstanding (e2 :: h2) = outstanding h2 ->
              (forall k' old, info_after eqb c e2 k' old = info_after eqb c e k' old) -> cInv s2 (e2 :: h2)) ->
           cInv s2 (e :: hist)).
        { intros e s2 -> Hgen.
          (* rebase: view [hist] with the completed refresh as a completion with an ignored outcome *)
          set (e0 := (CComplete i (Err TypeError) t, CODone k) : event K V).
          set (e2 := (match g with Ok v => (CSet k v t, CONone)
                      | Err KeyError => (CGet k {| r_mono := 0; r_now := 0; r_getter := Err KeyError; r_done := t |},
                                         COGot {| g_res := Err KeyError; g_called := true; g_scheduled := false |})
                      | Err _ => (CLen, CONat 0) end) : event K V).
          assert (H0 : cInv s1 (e0 :: hist)).
          { split; [auto|split; [auto|split; [auto|split; [reflexivity|]]]].
            intros k'. specialize (I5 k'). unfold kInv in *. simpl. destruct (eqb k k'); auto. }
          assert (Hsame : forall k', last_info eqb c (e2 :: e0 :: hist) k' =
                                     last_info eqb c ((CComplete i g t, CODone k) :: hist) k').
          { intros k'. simpl. unfold e2. destruct g as [v|[]]; simpl; destruct (eqb k k'); auto. }
          assert (H2 : cInv s2 (e2 :: e0 :: hist)).
          { apply Hgen; auto.
            - unfold e2. destruct g as [v|[]]; auto.
            - intros k' old. simpl. unfold e2. destruct g as [v|[]]; simpl; destruct (eqb k k'); auto. }
          destruct H2 as (J1 & J2 & J3 & J4 & J5). split; [auto|split; [auto|split; [auto|split]]].
          - rewrite J4. unfold e2, e0. destruct g as [v|[]]; auto.
          - intros k'. specialize (J5 k'). unfold kInv in *. rewrite Hsame in J5. exact J5. }
        destruct g as [v|e].
        + unfold cd_setitem. rewrite Hplain. split; auto. apply Hneutral; auto.
          intros h2 e2 Ih Hp He. eapply base_setitem_inv; [exact Ih| |exact Hp]. intros k' old. rewrite He. reflexivity.
        + assert (Hother : e <> KeyError -> cInv s1 ((CComplete i (Err e) t, CODone k) :: hist)).
          { intros He. split; [auto|split; [auto|split; [auto|split; [reflexivity|]]]].
            intros k'. specialize (I5 k'). unfold kInv in *. simpl. destruct (eqb k k'); auto.
            destruct e; auto. congruence. }
          destruct e; try (split; [reflexivity|]; apply Hother; discriminate).
          split; auto. apply Hneutral; auto.
          intros h2 e2 Ih Hp He. eapply on_failure_inv; [exact Ih| |exact Hp]. intros k' old. rewrite He. reflexivity.
    Qed.

    Lemma plain_run_ok ops : forall s hist, cInv s hist ->
      benign_session eqb c hist ops (fst (cd_run eqb c s ops)) = true ->
      cd_session eqb c hist ops (fst (cd_run eqb c s ops)).
    Proof.
      induction ops as [|o t IH]; intros s hist I Hb; simpl in *; [constructor|].
      pose proof (@plain_step_ok s hist o I) as Hs.
      destruct (cd_step eqb c s o) as [s1 out]. specialize (IH s1).
      destruct (cd_run eqb c s1 t) as [outs s2]. simpl in *.
      apply andb_true_iff in Hb. destruct Hb as [Hb1 Hb2]. destruct (Hs Hb1) as [A B].
      constructor; auto.
    Qed.

    Lemma cInv_init : cInv (cd_init) [].
    Proof. repeat split; simpl; auto; try constructor; intros []. Qed.

    Lemma plain_session_ok ops :
      benign_session eqb c [] ops (fst (cd_run eqb c cd_init ops)) = true ->
      cd_session eqb c [] ops (fst (cd_run eqb c cd_init ops)).
    Proof. apply plain_run_ok. apply cInv_init. Qed.
  End Plain.

  (** from the specification alone: what is served was stored recently *)
  Lemma last_value_stored hist k v t :
    last_info eqb c hist k = Value v t -> exists e, In e hist /\ stores e k v t.
  Proof.
    induction hist as [|e h IH]; simpl; [discriminate|]. intros H.
    assert (Hold : last_info eqb c h k = Value v t -> exists e0, (e = e0 \/ In e0 h) /\ stores e0 k v t).
    { intros Ho. destruct (IH Ho) as (e0 & H1 & H2). eauto. }
    assert (Hload : forall g t', loaded c g t' (last_info eqb c h k) = Value v t ->
              (g = Ok v /\ t' = t) \/ last_info eqb c h k = Value v t).
    { intros g t' E. destruct g as [v'|ex]; simpl in E.
      - injection E as <- <-. auto.
      - destruct ex; auto. unfold failure_at in E. destruct (c_fail c); discriminate. }
    destruct e as [o out]. destruct o as [k' r|k' v' t'|k' v' ts t'|k'|k'|k' t'| | |i g t']; simpl in H; auto.
    - destruct out as [|g| | | | | ]; auto. destruct (eqb k' k) eqn:E; auto. destruct (g_called g) eqn:Eg; auto.
      destruct (Hload _ _ H) as [[E1 E2]|Ho]; auto. apply Heqb in E. eexists; split; [left; reflexivity|].
      simpl. auto.
    - destruct (eqb k' k) eqn:E; auto. apply Heqb in E. injection H as <- <-.
      eexists; split; [left; reflexivity|]. simpl. auto.
    - destruct (eqb k' k) eqn:E; auto. apply Heqb in E. injection H as <- <-.
      eexists; split; [left; reflexivity|]. simpl. auto.
    - destruct out; auto. destruct (eqb k' k); auto. discriminate.
    - destruct (eqb k' k); auto. discriminate.
    - destruct out; auto. destruct (eqb k0 k) eqn:E; auto. apply Heqb in E.
      destruct (Hload _ _ H) as [[E1 E2]|Ho]; auto. eexists; split; [left; reflexivity|]. simpl. auto.
  Qed.

  Lemma served_is_fresh hist k r out g v :
    cd_answer eqb c hist (CGet k r) out -> out = COGot g -> c_default c = None ->
    g_res g = Ok v -> g_called g = false ->
    exists e t0, In e hist /\ stores e k v t0 /\ (r_now r - t0 <= c_exp c)%Z.
  Proof.
    intros (g' & E & H) -> Hd Hr Hc. injection E as <-.
    assert (Hna : ~ asked c r g) by (intros [A _]; congruence).
    destruct (last_info eqb c hist k) as [|v' t0|t0] eqn:El.
    - contradiction.
    - destruct (Z.leb_spec (r_now r - t0) (c_exp c)) as [Hle|Hle]; [|contradiction].
      destruct H as (_ & H & _). rewrite Hr in H. injection H as <-.
      destruct (last_value_stored _ _ El) as (e & H1 & H2). eauto.
    - destruct (c_fail c) as [f|]; [|contradiction].
      destruct (Z.leb (r_now r - t0) f); [|contradiction].
      destruct H as (_ & _ & H). unfold miss_answer in H. rewrite Hd in H. congruence.
  Qed.

  Lemma session_nth ops : forall h outs n o out,
    cd_session eqb c h ops outs -> nth_error ops n = Some o -> nth_error outs n = Some out ->
    exists past, cd_answer eqb c past o out /\
      forall e, In e past -> In e h \/
        exists m o' out', m < n /\ e = (o', out') /\ nth_error ops m = Some o' /\ nth_error outs m = Some out'.
  Proof.
    induction ops as [|o0 ops IH]; intros h outs n o out S Ho Hout.
    - destruct n; discriminate.
    - inversion S as [|h' o' out' ops' outs' A S']; subst. destruct n as [|n]; simpl in *.
      + injection Ho as <-. injection Hout as <-. exists h. split; auto.
      + destruct (IH _ _ _ _ _ S' Ho Hout) as (past & A' & Hp). exists past. split; auto.
        intros e He. destruct (Hp e He) as [[<-|Hin]|(m & o' & out1 & Hm & -> & E1 & E2)].
        * right. exists 0, o0, out'. repeat split; auto. lia.
        * auto.
        * right. exists (Datatypes.S m), o', out1. repeat split; auto. lia.
  Qed.

  Lemma session_served_fresh ops outs n k r g v :
    cd_session eqb c [] ops outs ->
    nth_error ops n = Some (CGet k r) -> nth_error outs n = Some (COGot g) ->
    c_default c = None -> g_res g = Ok v -> g_called g = false ->
    exists m o out t0, m < n /\ nth_error ops m = Some o /\ nth_error outs m = Some out /\
      stores (o, out) k v t0 /\ (r_now r - t0 <= c_exp c)%Z.
  Proof.
    intros S Ho Hout Hd Hr Hc. destruct (session_nth _ S Ho Hout) as (past & A & Hp).
    destruct (served_is_fresh A eq_refl Hd Hr Hc) as (e & t0 & He & Hs & Ht).
    destruct (Hp e He) as [[]|(m & o & out & Hm & -> & E1 & E2)].
    exists m, o, out, t0. auto.
  Qed.
End CacheDictProofs.
