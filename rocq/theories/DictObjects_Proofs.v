From Verif Require Import Prelude PreludeFacts DictObjects_Model DictObjects_Spec Writeback_Proofs.

Lemma In_dget_iff {K V : Type} (eqb : K -> K -> bool) (H : eqb_ok eqb) (d : dict K V) k v :
  dwf d -> (In (k, v) d <-> dget eqb d k = Some v).
Proof. intros W. split; [apply (In_dget H); auto|apply (dget_In H)]. Qed.

(** ** TwoWayDictionary *)
Section SideProofs.
  Context {A B : Type}.
  Variable eqA : A -> A -> bool.
  Variable eqB : B -> B -> bool.
  Hypothesis HA : eqb_ok eqA.
  Hypothesis HB : eqb_ok eqB.

  Definition inv2 (f : dict A B) (b : dict B A) : Prop :=
    dwf f /\ dwf b /\ forall k v, dget eqA f k = Some v <-> dget eqB b v = Some k.

  Lemma side_set_ok f b k v : inv2 f b ->
    match side_set eqA eqB f b k v with
    | (f', b', None) => dget eqB b v = None /\ inv2 f' b' /\
        forall k' v', In (k', v') f' <-> (k' = k /\ v' = v) \/ (In (k', v') f /\ k' <> k /\ v' <> v)
    | (f', b', Some e) => e = ValueError /\ f' = f /\ b' = b /\ exists k', dget eqA f k' = Some v
    end.
  Proof.
    intros (W1 & W2 & I). unfold side_set, dmem. destruct (dget eqB b v) as [k0|] eqn:Ev.
    - split; auto. split; auto. split; auto. exists k0. apply I; auto.
    - split; auto.
      set (b1 := match dget eqA f k with
                 | Some prev => if match dget eqB b prev with Some _ => true | None => false end
                                then ddel eqB b prev else b
                 | None => b end).
      assert (Wb1 : dwf b1).
      { unfold b1. destruct (dget eqA f k) as [prev|]; auto. destruct (dget eqB b prev); auto. apply ddel_wf; auto. }
      assert (Hb1 : forall v' k', dget eqB b1 v' = Some k' <-> (dget eqB b v' = Some k' /\ k' <> k)).
      { intros v' k'. unfold b1. destruct (dget eqA f k) as [prev|] eqn:Ek.
        - assert (Ep : dget eqB b prev = Some k) by (apply I; auto). rewrite Ep.
          rewrite (dget_ddel_if _ HB) by auto. destruct (eqB prev v') eqn:E.
          + apply HB in E. subst v'. split; [discriminate|]. intros [E1 E2]. congruence.
          + apply (eqb_false_iff HB) in E. split; [|tauto]. intros E1. split; auto. intros ->.
            apply I in E1. congruence.
        - split; [|tauto]. intros E1. split; auto. intros ->. apply I in E1. congruence. }
      assert (W1' : dwf (dset eqA f k v)) by (apply dset_wf; auto).
      assert (W2' : dwf (dset eqB b1 v k)) by (apply dset_wf; auto).
      assert (Hf : forall k' v', dget eqA (dset eqA f k v) k' = Some v' <->
                   (k' = k /\ v' = v) \/ (dget eqA f k' = Some v' /\ k' <> k /\ v' <> v)).
      { intros k' v'. rewrite (dget_dset_if _ HA). destruct (eqA k k') eqn:E.
        - apply HA in E. subst. split; [intros [= ->]; auto|]. intros [[_ ->]|(_ & ? & _)]; congruence.
        - apply (eqb_false_iff HA) in E. split.
          + intros E1. right. split; auto. split; auto. intros ->. apply I in E1. congruence.
          + intros [[? _]|(? & _)]; congruence. }
      split.
      + split; [auto|split; [auto|]]. intros k' v'. rewrite Hf. rewrite (dget_dset_if _ HB).
        destruct (eqB v v') eqn:E.
        * apply HB in E. subst. split; [intros [[-> _]|(_ & _ & ?)]; congruence|]. intros [= ->]; auto.
        * apply (eqb_false_iff HB) in E. rewrite Hb1. rewrite <- I. split.
          -- intros [[_ ?]|(? & ? & _)]; [congruence|auto].
          -- intros [? ?]. right; auto.
      + intros k' v'. rewrite !(In_dget_iff eqA HA) by auto. apply Hf.
  Qed.

  Lemma side_del_ok f b k : inv2 f b ->
    match side_del eqA eqB f b k with
    | (f', b', None) => exists v, dget eqA f k = Some v /\ inv2 f' b' /\
        forall k' v', In (k', v') f' <-> In (k', v') f /\ ~ (k' = k /\ v' = v)
    | (f', b', Some e) => e = KeyError /\ f' = f /\ b' = b /\ dget eqA f k = None
    end.
  Proof.
    intros (W1 & W2 & I). unfold side_del, dmem. destruct (dget eqA f k) as [v|] eqn:Ek; auto.
    assert (Ev : dget eqB b v = Some k) by (apply I; auto). rewrite Ev.
    assert (W1' : dwf (ddel eqA f k)) by (apply ddel_wf; auto).
    assert (W2' : dwf (ddel eqB b v)) by (apply ddel_wf; auto).
    assert (Hf : forall k' v', dget eqA (ddel eqA f k) k' = Some v' <->
                 (dget eqA f k' = Some v' /\ ~ (k' = k /\ v' = v))).
    { intros k' v'. rewrite (dget_ddel_if _ HA) by auto. destruct (eqA k k') eqn:E.
      - apply HA in E. subst. split; [discriminate|]. intros [E1 E2]. rewrite Ek in E1. injection E1 as ->. tauto.
      - apply (eqb_false_iff HA) in E. split; [|tauto]. intros E1. split; auto. intros [? _]; congruence. }
    exists v. split; auto. split.
    - split; [auto|split; [auto|]]. intros k' v'. rewrite Hf. rewrite (dget_ddel_if _ HB) by auto.
      destruct (eqB v v') eqn:E.
      + apply HB in E. subst. split; [|discriminate]. intros [E1 E2]. apply I in E1.
        rewrite Ev in E1. injection E1 as ->. tauto.
      + apply (eqb_false_iff HB) in E. rewrite <- I. split; [tauto|]. intros E1. split; auto. intros [_ ?]; congruence.
    - intros k' v'. rewrite !(In_dget_iff eqA HA) by auto. apply Hf.
  Qed.
End SideProofs.

Section TwoWayProofs.
  Context {K V : Type}.
  Variable eqK : K -> K -> bool.
  Variable eqV : V -> V -> bool.
  Hypothesis HK : eqb_ok eqK.
  Hypothesis HV : eqb_ok eqV.

  Lemma inv2_sym (f : dict K V) b : inv2 eqK eqV f b <-> inv2 eqV eqK b f.
  Proof. unfold inv2. split; intros (A & B & C); (split; [auto|split; [auto|]]); intros; symmetry; apply C. Qed.

  Lemma inv2_In (f : dict K V) b k v : inv2 eqK eqV f b -> (In (k, v) f <-> In (v, k) b).
  Proof. intros (A & B & C). rewrite (In_dget_iff eqK HK), (In_dget_iff eqV HV); auto. Qed.

  (** In a dictionary whose every value occurs under one key, the values are distinct *)
  Lemma vals_NoDup (f : dict K V) : dwf f -> (forall k k' v, In (k, v) f -> In (k', v) f -> k = k') ->
    NoDup (map snd f).
  Proof.
    unfold dwf, dkeys. induction f as [|[k v] t IH]; simpl; intros W H; constructor.
    - intros Hin. apply in_map_iff in Hin. destruct Hin as ([k' v'] & E & Hin). simpl in E. subst v'.
      assert (k = k') by (apply (H k k' v); auto). subst. inversion W; subst. apply H2.
      apply (in_map fst) in Hin. exact Hin.
    - inversion W; subst. apply IH; eauto.
  Qed.

  Lemma inv2_bij (f : dict K V) b : inv2 eqK eqV f b -> bijective f.
  Proof.
    intros I. pose proof I as (A & B & C). split; [exact A|]. apply vals_NoDup; auto.
    intros k k' v H1 H2. apply (inv2_In _ _ _ _ I) in H1. apply (inv2_In _ _ _ _ I) in H2.
    apply (In_dget_iff eqV HV _ _ _ B) in H1. apply (In_dget_iff eqV HV _ _ _ B) in H2. congruence.
  Qed.

  Lemma inv2_perm (f : dict K V) b : inv2 eqK eqV f b -> Permutation (dkeys b) (map snd f).
  Proof.
    intros I. pose proof (inv2_bij f b I) as [_ N]. pose proof I as (A & B & C). apply NoDup_Permutation; auto.
    intros v. unfold dkeys. rewrite !in_map_iff. split.
    - intros ([v' k] & E & H). simpl in E. subst. apply (inv2_In _ _ _ _ I) in H. exists (k, v). auto.
    - intros ([k v'] & E & H). simpl in E. subst. apply (inv2_In _ _ _ _ I) in H. exists (v, k). auto.
  Qed.
  Lemma inv2_length (f : dict K V) b : inv2 eqK eqV f b -> length b = length f.
  Proof.
    intros I. pose proof (Permutation_length (inv2_perm f b I)) as H. unfold dkeys in H.
    rewrite !map_length in H. auto.
  Qed.

  Lemma no_key (f : dict K V) k : dget eqK f k = None -> ~ has_key f k.
  Proof. intros E (v & H). apply (dget_None HK) in E. apply E. apply (in_map fst) in H. exact H. Qed.
  Lemma no_val (f : dict K V) b v : inv2 eqK eqV f b -> dget eqV b v = None -> ~ has_val f v.
  Proof.
    intros I E (k & H). apply (inv2_In _ _ _ _ I) in H. apply (dget_None HV) in E. apply E.
    apply (in_map fst) in H. exact H.
  Qed.

  Definition twInv (s : twd K V) : Prop := inv2 eqK eqV (tw_data s) (tw_rev s).

  Lemma tw_step_ok s o : twInv s ->
    let '(s', out) := tw_step eqK eqV s o in
    twInv s' /\ tw_spec_dev (tw_data s) o out (tw_data s').
  Proof.
    unfold twInv. intros I. pose proof I as (W1 & W2 & C). destruct s as [f b]; simpl in *.
    assert (Same : forall m : list (K * V), same_pairs m m) by (intros m e; tauto).
    assert (Dk : forall k v, (In (k, v) f <-> dget eqK f k = Some v)) by (intros; apply In_dget_iff; auto).
    destruct o as [k|k v|k|k| | | |k|v|v k|v| | |]; cbn beta iota delta [tw_step tw_spec_dev tw_data tw_rev].
    - split; auto. destruct (dget eqK f k) as [v|] eqn:E.
      + apply tw_get; auto. apply Dk; auto.
      + apply tw_get_absent; auto. apply no_key; auto.
    - pose proof (side_set_ok eqK eqV HK HV f b k v I) as H.
      destruct (side_set eqK eqV f b k v) as [[f' b'] [e|]]; simpl.
      + destruct H as (-> & -> & -> & k' & E). split; auto. split; auto.
        intros Hn. apply tw_set_taken with (k' := k'); auto. { apply Dk; auto. }
        intros ->. apply Hn. apply Dk; auto.
      + destruct H as (E & I' & P). split; auto. split.
        * intros Hin. apply (inv2_In _ _ _ _ I) in Hin. apply (In_dget_iff eqV HV _ _ _ W2) in Hin. congruence.
        * intros _. apply tw_set; auto. intros k' Hin. apply (inv2_In _ _ _ _ I) in Hin.
          apply (In_dget_iff eqV HV _ _ _ W2) in Hin. congruence.
    - pose proof (side_del_ok eqK eqV HK HV f b k I) as H.
      destruct (side_del eqK eqV f b k) as [[f' b'] [e|]]; simpl.
      + destruct H as (-> & -> & -> & E). split; auto. apply tw_del_absent; auto. apply no_key; auto.
      + destruct H as (v & E & I' & P). split; auto. apply tw_del with (v := v). split; auto. apply Dk; auto.
    - destruct (dget eqK f k) as [v|] eqn:Ek.
      + pose proof (side_del_ok eqK eqV HK HV f b k I) as H.
        destruct (side_del eqK eqV f b k) as [[f' b'] [e|]]; simpl.
        * destruct H as (_ & _ & _ & E). congruence.
        * destruct H as (v' & E & I' & P). split; auto. assert (v' = v) by congruence. subst.
          apply tw_pop. split; auto. apply Dk; auto.
      + split; auto. apply tw_pop_absent; auto. apply no_key; auto.
    - destruct f as [|[k v0] t]; [split; auto; apply tw_popitem_empty; auto|].
      destruct (dget eqK ((k, v0) :: t) k) as [v|] eqn:Ek.
      + pose proof (side_del_ok eqK eqV HK HV _ b k I) as H.
        destruct (side_del eqK eqV ((k, v0) :: t) b k) as [[f' b'] [e|]]; simpl.
        * destruct H as (_ & _ & _ & E). congruence.
        * destruct H as (v' & E & I' & P). split; auto. assert (v' = v) by congruence. subst.
          apply tw_popitem. split; auto. apply Dk; auto.
      + exfalso. simpl in Ek. rewrite (eqb_refl' HK) in Ek. discriminate.
    - split; auto. apply tw_keys; auto.
    - split; auto. apply tw_len; auto.
    - split; auto. unfold dmem. destruct (dget eqK f k) as [v|] eqn:E.
      + apply tw_contains; auto. exists v. apply Dk; auto.
      + apply tw_contains_not; auto. apply no_key; auto.
    - split; auto. destruct (dget eqV b v) as [k|] eqn:E.
      + apply tw_rget; auto. apply Dk. apply C; auto.
      + apply tw_rget_absent; auto. apply (no_val f b); auto.
    - apply inv2_sym in I. pose proof (side_set_ok eqV eqK HV HK b f v k I) as H. apply inv2_sym in I.
      destruct (side_set eqV eqK b f v k) as [[b' f'] [e|]]; simpl.
      + destruct H as (-> & -> & -> & v' & E). split; auto. split; auto. apply C in E.
        intros Hn. apply tw_rset_taken with (v' := v'); auto. { apply Dk; auto. }
        intros ->. apply Hn. apply Dk; auto.
      + destruct H as (E & I' & P). apply inv2_sym in I'. split; auto. split.
        * intros Hin. apply Dk in Hin. congruence.
        * intros _. apply tw_rset.
          -- intros v' Hin. apply Dk in Hin. congruence.
          -- intros k' v'. rewrite (inv2_In _ _ _ _ I'), (inv2_In _ _ _ _ I), P. tauto.
    - apply inv2_sym in I. pose proof (side_del_ok eqV eqK HV HK b f v I) as H. apply inv2_sym in I.
      destruct (side_del eqV eqK b f v) as [[b' f'] [e|]]; simpl.
      + destruct H as (-> & -> & -> & E). split; auto. apply tw_rdel_absent; auto. apply (no_val f b); auto.
      + destruct H as (k & E & I' & P). apply inv2_sym in I'. split; auto. apply tw_rdel with (k := k).
        split; [apply Dk; apply C; auto|].
        intros k' v'. rewrite (inv2_In _ _ _ _ I'), (inv2_In _ _ _ _ I), P. tauto.
    - split; auto. apply tw_rkeys; auto. apply inv2_perm; auto.
    - split; auto. rewrite (inv2_length f b I). apply tw_rlen; auto.
    - split; auto.
  Qed.

  Lemma tw_run_ok ops : forall s, twInv s -> tw_session_dev (tw_data s) ops (fst (tw_run eqK eqV s ops)).
  Proof.
    induction ops as [|o t IH]; intros s I; simpl; [constructor|].
    pose proof (tw_step_ok s o I) as H. destruct (tw_step eqK eqV s o) as [s1 out]. destruct H as [I1 H].
    specialize (IH s1 I1). destruct (tw_run eqK eqV s1 t) as [outs s2]. simpl in *.
    apply twd_cons with (m' := tw_data s1); auto. apply inv2_bij with (b := tw_rev s1); auto.
  Qed.

  (** the constructor *)
  Lemma build_rev (d : dict K V) : forall acc : dict V K, dwf acc ->
    let r := fold_left (fun acc e => dset eqV acc (snd e) (fst e)) d acc in
    dwf r /\ (forall v, In v (dkeys r) <-> In v (dkeys acc) \/ In v (map snd d)) /\
    length r <= length acc + length d /\
    (length r = length acc + length d ->
     NoDup (map snd d) /\ (forall v, In v (map snd d) -> ~ In v (dkeys acc)) /\
     forall v k, In (v, k) r <-> In (v, k) acc \/ In (k, v) d).
  Proof.
    induction d as [|[k v] t IH]; intros acc W; simpl.
    - split; auto. split; [tauto|]. split; [lia|]. intros _. split; [constructor|]. split; [tauto|]. intros; tauto.
    - destruct (IH (dset eqV acc v k) (dset_wf HV v k W)) as (W' & Hk & Hl & Hc). split; auto.
      split; [|split].
      + intros v'. rewrite Hk. rewrite (dset_In_keys HV). intuition congruence.
      + rewrite dset_length in Hl. destruct (dmem eqV acc v); lia.
      + intros E. rewrite dset_length in Hl, Hc. destruct (dmem eqV acc v) eqn:Em; [lia|].
        destruct Hc as (N & Fr & P); [lia|].
        assert (Hn : ~ In v (dkeys acc)) by (intros Hin; apply (dmem_In HV) in Hin; congruence).
        split; [|split].
        * constructor; auto. intros Hin. apply (Fr v Hin). apply (dset_In_keys HV). auto.
        * intros v' [<-|Hin]; auto. intros Hin2. apply (Fr v' Hin). apply (dset_In_keys HV). auto.
        * intros v' k'. rewrite P. rewrite (In_dget_iff eqV HV) by (apply dset_wf; auto).
          rewrite (dget_dset_if _ HV). destruct (eqV v v') eqn:Ev.
          -- apply HV in Ev. subst v'. split.
             ++ intros [[= ->]|H]; auto.
             ++ intros [H|[[= ->]|H]]; auto. exfalso. apply Hn. apply (in_map fst) in H. exact H.
          -- apply (eqb_false_iff HV) in Ev. rewrite <- (In_dget_iff eqV HV) by auto. intuition congruence.
  Qed.

  Lemma build_wf (l : list (K * V)) : forall acc : dict K V, dwf acc ->
    dwf (fold_left (fun acc e => dset eqK acc (fst e) (snd e)) l acc).
  Proof. induction l as [|[k v] t IH]; simpl; auto. intros acc W. apply IH. apply dset_wf; auto. Qed.

  Lemma build_nodup (d : dict K V) : forall acc : dict V K, dwf acc -> NoDup (map snd d) ->
    (forall v, In v (map snd d) -> ~ In v (dkeys acc)) ->
    length (fold_left (fun acc e => dset eqV acc (snd e) (fst e)) d acc) = length acc + length d.
  Proof.
    induction d as [|[k v] t IH]; intros acc W N F; simpl in *; [lia|]. inversion N; subst. rewrite IH; auto.
    - rewrite dset_length. destruct (dmem eqV acc v) eqn:E; [|lia].
      apply (dmem_In HV) in E. exfalso. apply (F v); auto.
    - apply dset_wf; auto.
    - intros v' Hin Hin2. apply (dset_In_keys HV) in Hin2. destruct Hin2 as [->|Hin2]; auto. apply (F v'); auto.
  Qed.

  Lemma tw_init_ok data :
    match tw_init eqK eqV data with
    | Ok s => twInv s /\ tw_data s = plain_dict eqK data
    | Err e => e = ValueError /\ ~ NoDup (map snd (plain_dict eqK data))
    end.
  Proof.
    unfold tw_init. fold (plain_dict eqK data). set (d := plain_dict eqK data).
    assert (Wd : dwf d) by (apply build_wf; constructor).
    destruct (build_rev d [] ltac:(constructor)) as (W & _ & _ & Hc).
    destruct (Nat.eqb _ _) eqn:E.
    - apply Nat.eqb_eq in E. destruct (Hc E) as (N & _ & P). simpl. split; auto. unfold twInv; simpl.
      split; [auto|split; [auto|]]. intros k v. rewrite <- (In_dget_iff eqK HK), <- (In_dget_iff eqV HV) by auto.
      rewrite P. simpl. tauto.
    - split; auto. intros N. apply Nat.eqb_neq in E. apply E.
      apply (build_nodup d [] ltac:(constructor) N). simpl; tauto.
  Qed.

  Lemma tw_session_ok data ops :
    match tw_init eqK eqV data with
    | Ok s => tw_session_dev (plain_dict eqK data) ops (fst (tw_run eqK eqV s ops))
    | Err e => e = ValueError /\ ~ NoDup (map snd (plain_dict eqK data))
    end.
  Proof.
    pose proof (tw_init_ok data) as H. destruct (tw_init eqK eqV data) as [s|e]; auto.
    destruct H as [I <-]. apply tw_run_ok; auto.
  Qed.

  Lemma tw_run_inv ops : forall s, twInv s -> twInv (snd (tw_run eqK eqV s ops)).
  Proof.
    induction ops as [|o t IH]; intros s I; simpl; auto.
    pose proof (tw_step_ok s o I) as H. destruct (tw_step eqK eqV s o) as [s1 out]. destruct H as [I1 _].
    specialize (IH s1 I1). destruct (tw_run eqK eqV s1 t) as [outs s2]. auto.
  Qed.
  Lemma tw_inverse_ok data ops s : tw_init eqK eqV data = Ok s -> forall k v,
    snd (tw_step eqK eqV (snd (tw_run eqK eqV s ops)) (TWGet k)) = TWVal v <->
    snd (tw_step eqK eqV (snd (tw_run eqK eqV s ops)) (RGet v)) = TWKey k.
  Proof.
    intros E k v. pose proof (tw_init_ok data) as H. rewrite E in H. destruct H as [I _].
    apply (tw_run_inv ops) in I. destruct I as (_ & _ & I). specialize (I k v). cbn [tw_step snd].
    destruct (dget eqK _ k) as [v'|], (dget eqV _ v) as [k'|]; split; intros H; try discriminate; injection H as ->.
    - f_equal. assert (H : Some k' = Some k) by (apply I; auto). congruence.
    - f_equal. assert (H : Some v' = Some v) by (apply I; auto). congruence.
    - assert (H : None = Some k) by (apply I; auto). discriminate.
    - assert (H : None = Some v) by (apply I; auto). discriminate.
  Qed.
End TwoWayProofs.

(** ** DirtyDict *)
Section DirtyProofs.
  Context {K V : Type}.
  Variable eqK : K -> K -> bool.
  Variable eqV : V -> V -> bool.
  Hypothesis HK : eqb_ok eqK.
  Hypothesis HV : eqb_ok eqV.

  Lemma dset_same (d : dict K V) k v : dget eqK d k = Some v -> dset eqK d k v = d.
  Proof.
    induction d as [|[k' v'] t IH]; simpl; [discriminate|]. destruct (eqK k' k).
    - intros [= ->]; auto.
    - intros H. f_equal; auto.
  Qed.
  Lemma dset_changes (d : dict K V) k v : dget eqK d k <> Some v -> dset eqK d k v <> d.
  Proof. intros H E. apply H. rewrite <- E at 1. apply (dget_dset_eq HK). Qed.
  Lemma ddel_changes (d : dict K V) k v : dget eqK d k = Some v -> ddel eqK d k <> d.
  Proof.
    intros H E. pose proof (ddel_length HK d k (dget_Some_key HK d k H)) as L. rewrite E in L.
    destruct d; [discriminate|simpl in L; lia].
  Qed.

  Lemma dd_setitem_ok (s : ddict K V) k v :
    dd_data (dd_setitem eqK eqV s k v) = dset eqK (dd_data s) k v /\
    ((dget eqK (dd_data s) k = Some v /\ dd_setitem eqK eqV s k v = s) \/
     (dget eqK (dd_data s) k <> Some v /\ dd_dirty (dd_setitem eqK eqV s k v) = true)).
  Proof.
    unfold dd_setitem. destruct (dget eqK (dd_data s) k) as [v0|] eqn:E; simpl.
    - destruct (eqV v0 v) eqn:Ev.
      + apply HV in Ev. subst. rewrite (dset_same _ _ _ E). auto.
      + apply (eqb_false_iff HV) in Ev. split; auto. right. split; auto. congruence.
    - split; auto. right. split; auto. discriminate.
  Qed.

  Lemma dd_update_ok l : forall s : ddict K V,
    let s' := fold_left (fun s e => dd_setitem eqK eqV s (fst e) (snd e)) l s in
    dd_data s' = fold_left (fun d e => dset eqK d (fst e) (snd e)) l (dd_data s) /\
    (dd_dirty s = true -> dd_dirty s' = true) /\
    (dd_data s' <> dd_data s -> dd_dirty s' = true).
  Proof.
    induction l as [|[k v] t IH]; intros s; simpl; [split; [auto|split; [auto|congruence]]|].
    destruct (dd_setitem_ok s k v) as [E [[_ Es]|[_ Ed]]].
    - rewrite <- E, Es. apply IH.
    - destruct (IH (dd_setitem eqK eqV s k v)) as (A & B & C). rewrite <- E. split; auto.
  Qed.

  Lemma update_other l : forall (d : dict K V) k, ~ In k (map fst l) ->
    dget eqK (fold_left (fun d e => dset eqK d (fst e) (snd e)) l d) k = dget eqK d k.
  Proof.
    induction l as [|[k' v'] t IH]; intros d k H; simpl in *; auto. rewrite IH by tauto.
    apply (dget_dset_neq HK). intros ->. tauto.
  Qed.

  Lemma dd_update_same l : NoDup (map fst l) -> forall s : ddict K V,
    let s' := fold_left (fun s e => dd_setitem eqK eqV s (fst e) (snd e)) l s in
    dd_data s' = dd_data s -> dd_dirty s' = dd_dirty s.
  Proof.
    induction l as [|[k v] t IH]; intros N s; simpl; auto. intros E. simpl in N. inversion N; subst.
    destruct (dd_setitem_ok s k v) as [Es [[_ Ee]|[Hn Ed]]].
    - rewrite Ee in *. apply IH; auto.
    - exfalso. apply Hn.
      destruct (dd_update_ok t (dd_setitem eqK eqV s k v)) as (A & _). rewrite A in E.
      rewrite <- E at 1. rewrite update_other by auto. rewrite Es. apply (dget_dset_eq HK).
  Qed.

  Lemma dd_step_ok (s : ddict K V) o :
    let '(s', out) := dd_step eqK eqV s o in
    plain_step eqK (dd_data s) (dd_dirty s) o = (dd_data s', out) /\
    flag_ok (dd_data s) (dd_dirty s) o (dd_data s') (dd_dirty s').
  Proof.
    destruct s as [d flag]. unfold flag_ok.
    destruct o as [k|k v|k|k| | | | | | | |k v|k|l| ];
      cbn beta iota delta [dd_step plain_step clears dd_data dd_dirty];
      try solve [split; reflexivity | split; [reflexivity|split; [auto|split; [intros; congruence|auto]]]].
    - pose proof (dd_setitem_ok {| dd_data := d; dd_dirty := flag |} k v) as [E H]. simpl in E, H. rewrite E.
      split; auto. destruct H as [[E1 ->]|[E1 ->]]; simpl.
      + rewrite (dset_same _ _ _ E1). split; [auto|split; [intros; congruence|auto]].
      + split; auto. split; auto. intros H. destruct (dset_changes _ _ _ E1 H).
    - unfold dd_delitem, dmem. cbn [dd_data]. destruct (dget eqK d k) as [v|] eqn:E; simpl.
      + split; auto. split; auto. split; auto. intros H. destruct (ddel_changes _ _ _ E H).
      + split; [reflexivity|]. split; [auto|split; [intros; congruence|auto]].
    - split; [|split; [auto|split; [intros; congruence|auto]]]. destruct d; auto.
    - destruct (dget eqK d k) as [v0|] eqn:E; simpl.
      + split; [reflexivity|]. split; [auto|split; [intros; congruence|auto]].
      + pose proof (dd_setitem_ok {| dd_data := d; dd_dirty := flag |} k v) as [E1 H]. simpl in E1, H. rewrite E1.
        split; auto. destruct H as [[E2 _]|[E2 ->]]; [congruence|]. split; auto. split; auto.
        intros H. destruct (dset_changes _ _ _ E2 H).
    - unfold dd_delitem, dmem. cbn [dd_data]. destruct (dget eqK d k) as [v|] eqn:E; simpl.
      + split; auto. split; auto. split; auto. intros H. destruct (ddel_changes _ _ _ E H).
      + split; [reflexivity|]. split; [auto|split; [intros; congruence|auto]].
    - pose proof (dd_update_ok l {| dd_data := d; dd_dirty := flag |}) as H. simpl in H.
      destruct H as (A & B & C). rewrite A. split; auto. rewrite A in C. split; auto. split; auto.
      intros E N. apply (dd_update_same l N {| dd_data := d; dd_dirty := flag |}). simpl. rewrite A. auto.
  Qed.

  Lemma dd_run_ok ops : forall s : ddict K V,
    dd_session eqK (dd_data s) (dd_dirty s) ops (fst (dd_run eqK eqV s ops)).
  Proof.
    induction ops as [|o t IH]; intros s; simpl; [constructor|].
    pose proof (dd_step_ok s o) as H. destruct (dd_step eqK eqV s o) as [s1 out]. destruct H as [A B].
    specialize (IH s1). destruct (dd_run eqK eqV s1 t) as [outs s2]. simpl in *.
    apply dds_cons with (d' := dd_data s1) (flag' := dd_dirty s1); auto.
  Qed.

  Lemma dd_session_ok (d : dict K V) ops :
    dd_session eqK d false ops (fst (dd_run eqK eqV (dd_init d) ops)).
  Proof. apply (dd_run_ok ops (dd_init d)). Qed.
End DirtyProofs.

(** ** DictionaryView *)
Section ViewProofs.
  Context {K V : Type}.
  Variable eqK : K -> K -> bool.
  Hypothesis HK : eqb_ok eqK.

  Definition all_wf (ds : list (dict K V)) : Prop := forall d, In d ds -> dwf d.

  Lemma fh_cons (d : dict K V) t k i v :
    (forall v', ~ In (k, v') d) -> first_holder t k i v -> first_holder (d :: t) k (S i) v.
  Proof.
    intros Hn [(d' & E & H) F]. split; [exists d'; auto|].
    intros [|j] d0 v' Hj Ej; simpl in Ej.
    - injection Ej as <-. apply Hn.
    - apply (F j); auto; lia.
  Qed.

  Lemma no_entry (d : dict K V) k : dget eqK d k = None -> forall v, ~ In (k, v) d.
  Proof. intros E v H. apply (dget_None HK) in E. apply E. apply (in_map fst) in H. exact H. Qed.

  Lemma dv_get_ok (ds : list (dict K V)) k :
    match dv_get eqK ds k with
    | Ok v => exists i, first_holder ds k i v
    | Err e => e = KeyError /\ nowhere ds k
    end.
  Proof.
    induction ds as [|d t IH]; simpl; [split; auto; intros d v []|].
    destruct (dget eqK d k) as [v|] eqn:E.
    - exists 0. split; [exists d; split; auto; apply (dget_In HK); auto|]. intros; lia.
    - destruct (dv_get eqK t k) as [v|e].
      + destruct IH as (i & H). exists (S i). apply fh_cons; auto. apply no_entry; auto.
      + destruct IH as [-> H]. split; auto. intros d' v [<-|Hin]; [apply no_entry; auto|apply H; auto].
  Qed.

  Lemma fh_not_nowhere (ds : list (dict K V)) k i v : first_holder ds k i v -> ~ nowhere ds k.
  Proof. intros [(d & E & H) _] N. apply (N d v); auto. eapply nth_error_In; eauto. Qed.

  Lemma dv_contains_get (ds : list (dict K V)) k :
    dv_contains eqK ds k = match dv_get eqK ds k with Ok _ => true | Err _ => false end.
  Proof. induction ds as [|d t IH]; simpl; auto. unfold dmem. destruct (dget eqK d k); auto. Qed.

  Lemma dv_at_first_ok (f : dict K V -> dict K V) ds k :
    match dv_at_first eqK f ds k with
    | Some ds' => exists i v d, first_holder ds k i v /\ nth_error ds i = Some d /\ ds' = upd ds i (f d)
    | None => nowhere ds k
    end.
  Proof.
    induction ds as [|d t IH]; simpl; [intros d v []|]. unfold dmem. destruct (dget eqK d k) as [v|] eqn:E.
    - exists 0, v, d. split; auto. split; [exists d; split; auto; apply (dget_In HK); auto|]. intros; lia.
    - destruct (dv_at_first eqK f t k) as [ds'|]; simpl.
      + destruct IH as (i & v & d' & H & Hn & ->). exists (S i), v, d'. split; auto.
        apply fh_cons; auto. apply no_entry; auto.
      + intros d' v [<-|Hin]; [apply no_entry; auto|apply IH; auto].
  Qed.

  Lemma changed_upd (ds : list (dict K V)) i k val d d' :
    nth_error ds i = Some d ->
    (forall k' v', In (k', v') d' <-> (k' <> k /\ In (k', v') d) \/ (k' = k /\ val = Some v')) ->
    changed_at ds i k val (upd ds i d').
  Proof.
    intros E H. split; [apply upd_length|]. split.
    - intros j Hj. apply nth_error_upd_neq; auto.
    - exists d, d'. split; auto. split; auto. apply nth_error_upd_eq. apply nth_error_Some. congruence.
  Qed.

  Lemma In_dset (d : dict K V) k v : dwf d ->
    forall k' v', In (k', v') (dset eqK d k v) <-> (k' <> k /\ In (k', v') d) \/ (k' = k /\ Some v = Some v').
  Proof.
    intros W k' v'. rewrite (In_dget_iff eqK HK) by (apply dset_wf; auto).
    rewrite (In_dget_iff eqK HK) by auto. rewrite (dget_dset_if _ HK). destruct (eqK k k') eqn:E.
    - apply HK in E. subst. intuition congruence.
    - apply (eqb_false_iff HK) in E. intuition congruence.
  Qed.
  Lemma In_ddel (d : dict K V) k : dwf d ->
    forall k' v', In (k', v') (ddel eqK d k) <-> (k' <> k /\ In (k', v') d) \/ (k' = k /\ None = Some v').
  Proof.
    intros W k' v'. rewrite (In_dget_iff eqK HK) by (apply ddel_wf; auto).
    rewrite (In_dget_iff eqK HK) by auto. rewrite (dget_ddel_if _ HK) by auto. destruct (eqK k k') eqn:E.
    - apply HK in E. subst. intuition congruence.
    - apply (eqb_false_iff HK) in E. intuition congruence.
  Qed.

  Lemma upd_In {A} (l : list A) i x y : In y (upd l i x) -> y = x \/ In y l.
  Proof.
    revert i; induction l as [|h t IH]; intros [|i]; simpl; auto.
    - intros [->|H]; auto.
    - intros [->|H]; auto. destruct (IH _ H); auto.
  Qed.
  Lemma upd_all_wf ds i d : all_wf ds -> dwf d -> all_wf (upd ds i d).
  Proof. intros H W d' Hin. destruct (upd_In _ _ _ _ Hin) as [->|]; auto. Qed.

  Lemma iter1_ok (ks : list K) : forall seen out seen', dv_iter1 eqK ks seen = (out, seen') ->
    NoDup seen ->
    NoDup seen' /\ seen' = seen ++ out /\ (forall k, In k seen' <-> In k seen \/ In k ks).
  Proof.
    induction ks as [|k t IH]; intros seen out seen' H N; simpl in H.
    - injection H as <- <-. rewrite app_nil_r. intuition auto. destruct H0.
    - destruct (memb eqK k seen) eqn:E.
      + apply (memb_In HK) in E. destruct (IH _ _ _ H N) as (A & B & C). split; auto. split; auto.
        intros k'. rewrite C. simpl. intuition congruence.
      + apply (memb_false HK) in E. destruct (dv_iter1 eqK t (seen ++ [k])) as [o s'] eqn:Ei.
        injection H as <- <-.
        assert (N' : NoDup (seen ++ [k])).
        { apply NoDup_Add with (a := k) (l := seen).
          - rewrite <- (app_nil_r seen) at 1. apply Add_app.
          - auto. }
        destruct (IH _ _ _ Ei N') as (A & B & C). split; auto. split.
        * rewrite B, <- app_assoc. auto.
        * intros k'. rewrite C, in_app_iff. simpl. intuition auto.
  Qed.

  Lemma iter_ok (ds : list (dict K V)) : forall seen, NoDup seen ->
    NoDup (seen ++ dv_iter eqK ds seen) /\
    forall k, In k (seen ++ dv_iter eqK ds seen) <-> In k seen \/ exists d, In d ds /\ In k (dkeys d).
  Proof.
    induction ds as [|d t IH]; intros seen N; simpl.
    - rewrite app_nil_r. split; auto. intros k. split; auto. intros [H|(d & [] & _)]; auto.
    - destruct (dv_iter1 eqK (dkeys d) seen) as [out seen'] eqn:E.
      destruct (iter1_ok _ _ _ _ E N) as (A & B & C). destruct (IH seen' A) as [D F].
      rewrite app_assoc, <- B. split; auto. intros k. rewrite F, C. split.
      + intros [[H|H]|(d' & H1 & H2)]; auto; right; [exists d|exists d']; auto.
      + intros [H|(d' & [<-|H1] & H2)]; auto. right. exists d'. auto.
  Qed.

  Lemma len1_iter1 (ks : list K) : forall seen i,
    dv_len1 eqK ks seen i = (i + length (fst (dv_iter1 eqK ks seen)), snd (dv_iter1 eqK ks seen)).
  Proof.
    induction ks as [|k t IH]; intros seen i; simpl; [f_equal; lia|].
    destruct (memb eqK k seen); auto. rewrite IH. destruct (dv_iter1 eqK t (seen ++ [k])) as [o s']; simpl.
    f_equal; lia.
  Qed.
  Lemma len_iter (ds : list (dict K V)) : forall seen i, dv_len eqK ds seen i = i + length (dv_iter eqK ds seen).
  Proof.
    induction ds as [|d t IH]; intros seen i; simpl; [lia|]. rewrite len1_iter1.
    destruct (dv_iter1 eqK (dkeys d) seen) as [o s']; simpl. rewrite IH, app_length. lia.
  Qed.

  Lemma dv_iter_all (ds : list (dict K V)) : all_keys ds (dv_iter eqK ds []).
  Proof.
    destruct (iter_ok ds [] ltac:(constructor)) as [A B]. simpl in *. split; auto. intros k. rewrite B. split.
    - intros [[]|(d & Hd & Hk)] N. destruct (dget_key_Some HK d k Hk) as [v Hv]. apply (dget_In HK) in Hv.
      apply (N d v); auto.
    - intros N. right. pose proof (dv_get_ok ds k) as G. destruct (dv_get eqK ds k) as [v|e].
      + destruct G as (i & (d & Hn & Hin) & _). exists d. split; [eapply nth_error_In; eauto|].
        apply (in_map fst) in Hin. exact Hin.
      + destruct G as [_ G]. contradiction.
  Qed.

  Lemma dv_step_ok (s : dview K V) o : dv_dicts s <> [] -> all_wf (dv_dicts s) -> not_copy o = true ->
    let '(s', out) := dv_step eqK s o in
    dv_spec (dv_propagate s) (dv_assign s) (dv_dicts s) o out (dv_dicts s') /\
    dv_dicts s' <> [] /\ all_wf (dv_dicts s') /\
    dv_propagate s' = dv_propagate s /\ dv_assign s' = dv_assign s.
  Proof.
    intros Hne W Ho. destruct s as [ds p a]; simpl in *.
    assert (Wn : forall i d, nth_error ds i = Some d -> dwf d) by (intros i d E; apply W; eapply nth_error_In; eauto).
    assert (Une : forall i d, upd ds i d <> []) by (intros [|i] d; destruct ds; simpl; congruence).
    destruct o as [k|k|k v|k| | |]; [| | | | | |discriminate]; cbn beta iota delta [dv_step dv_dicts].
    - pose proof (dv_get_ok ds k) as G. destruct (dv_get eqK ds k) as [v|e]; simpl; (split; [|auto]).
      + destruct G as (i & G). apply dvs_get with (i := i); auto.
      + destruct G as [-> G]. apply dvs_get_absent; auto.
    - split; auto. rewrite dv_contains_get. pose proof (dv_get_ok ds k) as G. destruct (dv_get eqK ds k) as [v|e].
      + destruct G as (i & G). apply dvs_contains. eapply fh_not_nowhere; eauto.
      + destruct G as [-> G]. apply dvs_contains_not; auto.
    - unfold dv_set; simpl.
      assert (M : forall d t, ds = d :: t -> dv_at_master (fun d => dset eqK d k v) ds = upd ds 0 (dset eqK d k v))
        by (intros d t ->; auto).
      assert (Master : a = false \/ nowhere ds k ->
        dv_spec p a ds (DVSet k v) DVNone (dv_at_master (fun d => dset eqK d k v) ds) /\
        dv_at_master (fun d => dset eqK d k v) ds <> [] /\ all_wf (dv_at_master (fun d => dset eqK d k v) ds) /\
        p = p /\ a = a).
      { intros Hc. destruct ds as [|d t]; [congruence|]. rewrite (M d t eq_refl). split.
        - apply dvs_set_master; auto. apply changed_upd with (d := d); auto. apply In_dset. apply W; simpl; auto.
        - split; [apply Une|]. split; auto. apply upd_all_wf; auto. apply dset_wf; auto. apply W; simpl; auto. }
      destruct a; [|apply Master; auto].
      pose proof (dv_at_first_ok (fun d => dset eqK d k v) ds k) as G. destruct (dv_at_first eqK _ ds k) as [ds'|].
      + destruct G as (i & v0 & d & F & E & ->). split.
        * apply dvs_set_same with (i := i) (v0 := v0); auto. apply changed_upd with (d := d); auto.
          apply In_dset. eauto.
        * split; [apply Une|]. split; auto. apply upd_all_wf; auto. apply dset_wf; eauto.
      + apply Master; auto.
    - unfold dv_del; simpl. destruct p.
      + pose proof (dv_at_first_ok (fun d => ddel eqK d k) ds k) as G. destruct (dv_at_first eqK _ ds k) as [ds'|]; simpl.
        * destruct G as (i & v0 & d & F & E & ->). split.
          -- apply dvs_del with (i := i) (v := v0); auto. apply changed_upd with (d := d); auto. apply In_ddel. eauto.
          -- split; [apply Une|]. split; auto. apply upd_all_wf; auto. apply ddel_wf; eauto.
        * split; auto. apply dvs_del_absent; auto.
      + destruct ds as [|d t]; [congruence|]. unfold dmem. destruct (dget eqK d k) as [v|] eqn:E; simpl.
        * split.
          -- apply dvs_del with (i := 0) (v := v); auto.
             ++ split; [exists d; split; auto; apply (dget_In HK); auto|]. intros; lia.
             ++ apply (changed_upd (d :: t) 0 k None d (ddel eqK d k)); auto. apply In_ddel. apply W; simpl; auto.
          -- split; [congruence|]. split; auto. apply (upd_all_wf (d :: t) 0 (ddel eqK d k)); auto.
             apply ddel_wf; auto. apply W; simpl; auto.
        * split; auto. apply dvs_del_absent. intros d' v' [<-|[]]. apply no_entry; auto.
    - split; auto. apply dvs_iter. apply dv_iter_all.
    - split; auto. rewrite len_iter. simpl. apply dvs_len. apply dv_iter_all.
  Qed.

  Lemma dv_run_ok ops : forall s : dview K V, dv_dicts s <> [] -> all_wf (dv_dicts s) -> forallb not_copy ops = true ->
    dv_session (dv_propagate s) (dv_assign s) (dv_dicts s) ops (dv_run eqK s ops).
  Proof.
    induction ops as [|o t IH]; intros s Hne W Ho; simpl in *; [constructor|].
    apply andb_true_iff in Ho. destruct Ho as [H1 H2].
    pose proof (dv_step_ok s o Hne W H1) as H. destruct (dv_step eqK s o) as [s1 out].
    destruct H as (A & B & C & D & E). specialize (IH s1 B C H2). rewrite D, E in IH.
    apply dvss_cons with (ds' := dv_dicts s1); auto.
  Qed.

  Lemma dv_session_ok (master : dict K V) rest p a ops :
    (forall d, In d (master :: rest) -> dwf d) -> forallb not_copy ops = true ->
    dv_session p a (master :: rest) ops (dv_run eqK (dv_init master rest p a) ops).
  Proof. intros W Ho. apply (dv_run_ok ops (dv_init master rest p a)); auto. simpl. congruence. Qed.
End ViewProofs.
