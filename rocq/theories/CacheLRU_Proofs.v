From Verif Require Import Prelude PreludeFacts CacheDict_Model CacheDict_Spec.

Set Implicit Arguments.

Section LRUProofs.
  Context {K V : Type}.
  Variable eqb : K -> K -> bool.
  Hypothesis Heqb : eqb_ok eqb.
  Variable c : cfg V.
  Variable max : nat.
  Hypothesis Hmax : c_max c = Some max.
  Hypothesis Hpos : 1 <= max.
  Local Notation rm := (remove_first eqb).
  Local Notation dget := (dget eqb).
  Local Notation without := (@without K V eqb).

  Lemma eqb_neq2 k k' : k <> k' -> eqb k k' = false.
  Proof. apply (eqb_false_iff Heqb). Qed.
  Lemma eqb_eq2 k : eqb k k = true.
  Proof. apply (eqb_refl' Heqb). Qed.

  (** the entries in LRU order *)
  Fixpoint vw (d : dict K V) (l : list K) : list (K * V) :=
    match l with
    | [] => []
    | k :: t => match dget d k with Some v => (k, v) :: vw d t | None => vw d t end
    end.
  Definition view (s : cst K V) := vw (cd_data s) (cd_lru s).

  Lemma vw_app d l1 l2 : vw d (l1 ++ l2) = vw d l1 ++ vw d l2.
  Proof. induction l1 as [|k l1 IH]; simpl; auto. destruct (dget d k); simpl; rewrite IH; auto. Qed.

  Lemma vw_keys d l k : In k (map fst (vw d l)) <-> In k l /\ In k (dkeys d).
  Proof.
    induction l as [|x l IH]; simpl; [tauto|].
    destruct (dget d x) as [v|] eqn:E; simpl; rewrite IH.
    - split; [intros [<-|H]; [|tauto]|intuition]. split; auto. eapply dget_Some_key; eauto.
    - split; [tauto|]. intros [[<-|H] H2]; auto. apply (dget_None Heqb) in E. contradiction.
  Qed.

  Lemma vw_NoDup d l : NoDup l -> NoDup (map fst (vw d l)).
  Proof.
    induction 1 as [|x l Hx Hl IH]; simpl; [constructor|].
    destruct (dget d x); simpl; auto. constructor; auto. rewrite vw_keys. tauto.
  Qed.

  Lemma vw_get d l k : In k l -> dget (vw d l) k = dget d k.
  Proof.
    induction l as [|x l IH]; simpl; [tauto|].
    destruct (eqb_dec Heqb x k) as [->|Hne].
    - intros _. destruct (dget d k) as [v|] eqn:E; simpl.
      + rewrite eqb_eq2. auto.
      + destruct (in_dec (eqb_dec Heqb) k l) as [Hin|Hin]; [rewrite IH; auto|].
        apply (dget_None Heqb). unfold dkeys. rewrite vw_keys. tauto.
    - intros [H|H]; [contradiction|]. destruct (dget d x); simpl; auto.
      rewrite eqb_neq2 by auto. auto.
  Qed.

  Lemma without_notin k l : ~ In k (map fst l) -> without k l = l.
  Proof.
    unfold CacheDict_Spec.without. induction l as [|[x v] l IH]; simpl; auto. intros H.
    rewrite eqb_neq2 by intuition. simpl. f_equal. apply IH. tauto.
  Qed.

  Lemma vw_rm d l k : NoDup l -> vw d (rm k l) = without k (vw d l).
  Proof.
    induction 1 as [|x l Hx Hl IH]; simpl; auto.
    destruct (eqb x k) eqn:E.
    - apply Heqb in E. subst x.
      assert (Hn : ~ In k (map fst (vw d l))) by (rewrite vw_keys; tauto).
      destruct (dget d k) as [v|]; simpl.
      + unfold CacheDict_Spec.without. simpl. rewrite eqb_eq2. simpl. symmetry. apply (without_notin _ _ Hn).
      + symmetry. apply without_notin; auto.
    - simpl. destruct (dget d x) as [v|]; auto. unfold CacheDict_Spec.without in *. simpl. rewrite E. simpl.
      f_equal. auto.
  Qed.

  Lemma vw_ddel d l k : dwf d -> vw (ddel eqb d k) l = without k (vw d l).
  Proof.
    intros W. induction l as [|x l IH]; simpl; auto.
    destruct (eqb_dec Heqb x k) as [->|Hne].
    - rewrite (dget_ddel_eq Heqb) by auto. rewrite IH. destruct (dget d k); auto.
      unfold CacheDict_Spec.without. simpl. rewrite eqb_eq2. auto.
    - rewrite (dget_ddel_neq Heqb) by auto. rewrite IH. destruct (dget d x); auto.
      unfold CacheDict_Spec.without. simpl. rewrite eqb_neq2 by auto. auto.
  Qed.

  Lemma vw_dset d l k v : ~ In k l -> vw (dset eqb d k v) l = vw d l.
  Proof.
    induction l as [|x l IH]; simpl; auto. intros H.
    rewrite (dget_dset_neq Heqb) by intuition. rewrite IH by tauto. auto.
  Qed.

  Lemma without_idem k l : without k (without k l) = without k l.
  Proof.
    apply without_notin. unfold CacheDict_Spec.without. rewrite in_map_iff. intros ([x v] & E & H).
    apply filter_In in H. simpl in *. destruct H as [_ H]. subst. rewrite eqb_eq2 in H. discriminate.
  Qed.

  Lemma vw_length d l : NoDup l -> dwf d -> incl (dkeys d) l -> length (vw d l) = length d.
  Proof.
    intros N W I. rewrite <- (map_length fst), <- (map_length fst d). apply Permutation_length.
    apply NoDup_Permutation; auto.
    - apply vw_NoDup; auto.
    - intros k. rewrite vw_keys. split; [tauto|]. intros H. split; auto.
  Qed.

  (** ** invariant, any calls *)
  Definition jInv (s : cst K V) : Prop :=
    NoDup (cd_lru s) /\ incl (dkeys (cd_data s)) (cd_lru s) /\ dwf (cd_data s) /\ dwf (cd_ts s) /\
    incl (dkeys (cd_data s)) (dkeys (cd_ts s)) /\ NoDup (cd_missed s) /\
    incl (cd_missed s) (dkeys (cd_ts s)) /\ (c_fail c = None -> cd_missed s = []).
  Definition fits (s : cst K V) : Prop := length (cd_data s) <= max.
  (** no key is both stored and remembered as failed *)
  Definition disj (s : cst K V) : Prop := forall k, In k (cd_missed s) -> ~ In k (dkeys (cd_data s)).

  Lemma rm_notin k l : ~ In k l -> rm k l = l.
  Proof. apply remove_first_notin; auto. Qed.
  Lemma In_rm2 k l x : NoDup l -> In x (rm k l) <-> In x l /\ x <> k.
  Proof. apply In_remove_first; auto. Qed.
  Lemma NoDup_rm k l : NoDup l -> NoDup (rm k l).
  Proof. apply NoDup_remove_first; auto. Qed.
  Lemma lru_remove_fst l k : fst (lru_remove eqb l k) = rm k l.
  Proof.
    unfold lru_remove. destruct (memb eqb k l) eqn:E; auto. simpl.
    apply (memb_false Heqb) in E. symmetry. apply rm_notin; auto.
  Qed.
  Lemma rm_idem k l : NoDup l -> rm k (rm k l) = rm k l.
  Proof. intros N. apply rm_notin. rewrite In_rm2 by auto. tauto. Qed.

  Definition invalidated (s : cst K V) (k : K) : cst K V :=
    {| cd_data := ddel eqb (cd_data s) k;
       cd_ts := if dmem eqb (cd_data s) k then ddel eqb (cd_ts s) k else cd_ts s;
       cd_missed := if dmem eqb (cd_data s) k then rm k (cd_missed s) else cd_missed s;
       cd_lru := rm k (cd_lru s); cd_pending := cd_pending s |}.

  Lemma invalidate_eq s k :
    NoDup (cd_lru s) -> incl (dkeys (cd_data s)) (dkeys (cd_ts s)) ->
    cd_invalidate eqb c s k = invalidated s k.
  Proof.
    intros N I. unfold cd_invalidate, base_invalidate, cd_delitem, invalidated. rewrite Hmax.
    unfold base_delitem. destruct (dmem eqb (cd_data s) k) eqn:E.
    - apply (dmem_In Heqb) in E.
      pose proof (I _ E) as Ht. rewrite (proj2 (dmem_In Heqb _ _) Ht).
      cbv beta iota zeta. cbn [cd_lru].
      pose proof (lru_remove_fst (cd_lru s) k) as Hl.
      destruct (lru_remove eqb (cd_lru s) k) as [l e] eqn:El. simpl in Hl. subst l.
      simpl. rewrite lru_remove_fst, rm_idem by auto. reflexivity.
    - simpl. rewrite lru_remove_fst. rewrite (ddel_notin Heqb).
      + destruct s; reflexivity.
      + intros H. apply (dmem_In Heqb) in H. congruence.
  Qed.

  Lemma invalidated_inv s k : jInv s -> jInv (invalidated s k) /\ view (invalidated s k) = without k (view s) /\
    length (cd_data (invalidated s k)) <= length (cd_data s) /\ (disj s -> disj (invalidated s k)).
  Proof.
    intros (J1 & J2 & J3 & J4 & J5 & J6 & J7 & J8).
    assert (Hd : forall x, In x (dkeys (ddel eqb (cd_data s) k)) <-> In x (dkeys (cd_data s)) /\ x <> k)
      by (intros; apply ddel_In_keys; auto).
    split; [|split; [|split]].
    - unfold jInv, invalidated; simpl. split; [apply NoDup_rm; auto|].
      split; [intros x Hx; apply Hd in Hx; apply In_rm2; intuition|].
      split; [apply ddel_wf; auto|].
      split; [destruct (dmem eqb (cd_data s) k); auto; apply ddel_wf; auto|].
      split; [intros x Hx; apply Hd in Hx; destruct (dmem eqb (cd_data s) k); [apply ddel_In_keys; intuition|apply J5; tauto]|].
      split; [destruct (dmem eqb (cd_data s) k); auto; apply NoDup_rm; auto|].
      split.
      + destruct (dmem eqb (cd_data s) k); auto. intros x Hx. apply In_rm2 in Hx; auto.
        apply ddel_In_keys; intuition.
      + intros H. rewrite J8 by auto. destruct (dmem eqb (cd_data s) k); auto.
    - unfold view, invalidated; simpl. rewrite vw_ddel by auto. rewrite vw_rm by auto. apply without_idem.
    - simpl. destruct (dmem eqb (cd_data s) k) eqn:E.
      + apply (dmem_In Heqb) in E. rewrite (ddel_length Heqb) by auto. lia.
      + rewrite (ddel_notin Heqb); auto. intros H. apply (dmem_In Heqb) in H. congruence.
    - intros D x Hx H. simpl in *. apply Hd in H. apply (D x); [|tauto].
      destruct (dmem eqb (cd_data s) k); auto. apply In_rm2 in Hx; tauto.
  Qed.

  Lemma view_length s : jInv s -> length (view s) = length (cd_data s).
  Proof. intros (J1 & J2 & J3 & _). apply vw_length; auto. Qed.

  Lemma skipn_S_tl {X} n (x : X) l : skipn (S n) (x :: l) = skipn n l.
  Proof. reflexivity. Qed.

  Lemma evict_ok s k t : jInv s -> cd_lru s = k :: t ->
    jInv (cd_evict eqb c s) /\ cd_lru (cd_evict eqb c s) = t /\
    view s = match dget (cd_data s) k with Some v => [(k, v)] | None => [] end ++ view (cd_evict eqb c s) /\
    (disj s -> disj (cd_evict eqb c s)) /\ cd_pending (cd_evict eqb c s) = cd_pending s.
  Proof.
    intros J El. pose proof J as (J1 & J2 & J3 & J4 & J5 & J6 & J7 & J8). rewrite El in *.
    inversion J1 as [|? ? Hk Nt]; subst.
    unfold cd_evict. rewrite El. simpl. rewrite invalidate_eq by (simpl; auto).
    assert (Hi : forall x, In x (dkeys (ddel eqb (cd_data s) k)) <-> In x (dkeys (cd_data s)) /\ x <> k)
      by (intros; apply ddel_In_keys; auto).
    split; [|split; [|split; [|split]]].
    - unfold jInv, invalidated; simpl. split; [apply NoDup_rm; auto|].
      split. { intros x Hx. apply Hi in Hx. apply In_rm2; auto. destruct Hx as [Hx Hne]. split; auto.
               apply J2 in Hx. destruct Hx; congruence. }
      split; [apply ddel_wf; auto|].
      split; [destruct (dmem eqb (cd_data s) k); auto; apply ddel_wf; auto|].
      split; [intros x Hx; apply Hi in Hx; destruct (dmem eqb (cd_data s) k); [apply ddel_In_keys; intuition|apply J5; tauto]|].
      split; [destruct (dmem eqb (cd_data s) k); auto; apply NoDup_rm; auto|].
      split.
      + destruct (dmem eqb (cd_data s) k); auto. intros x Hx. apply In_rm2 in Hx; auto.
        apply ddel_In_keys; intuition.
      + intros H. rewrite J8 by auto. destruct (dmem eqb (cd_data s) k); auto.
    - simpl. apply rm_notin; auto.
    - unfold view, invalidated; simpl. rewrite El. simpl. rewrite vw_ddel by auto.
      rewrite rm_notin by auto. rewrite without_notin by (rewrite vw_keys; tauto).
      destruct (dget (cd_data s) k); auto.
    - intros D x Hx H. simpl in *. apply Hi in H. apply (D x); [|tauto].
      destruct (dmem eqb (cd_data s) k); auto. apply In_rm2 in Hx; tauto.
    - reflexivity.
  Qed.

  Lemma make_room_ok fuel : forall s, jInv s -> length (cd_lru s) < fuel ->
    exists s', cd_make_room eqb c fuel max s = (s', None) /\ jInv s' /\
      view s' = room max (view s) /\ length (cd_data s') <= max - 1 /\
      (disj s -> disj s') /\ cd_pending s' = cd_pending s.
  Proof.
    induction fuel as [|f IH]; intros s J Hf; [lia|]. cbn [cd_make_room].
    pose proof (view_length J) as HL.
    destruct (Nat.ltb_spec (max - 1) (length (cd_data s))) as [H|H].
    - destruct (cd_lru s) as [|k t] eqn:El.
      { exfalso. unfold view in HL. rewrite El in HL. simpl in HL. lia. }
      destruct (evict_ok J El) as (J' & El' & Hv & D' & P').
      destruct (IH _ J') as (s' & E & J2 & V2 & L2 & D2 & P2); [rewrite El'; simpl in Hf; lia|].
      exists s'. split; auto. split; auto. split; [|repeat split; auto; congruence].
      rewrite V2. unfold room. rewrite Hv.
      destruct (dget (cd_data s) k) as [v|]; cbn [app].
      + assert (HL2 : length (view s) = S (length (view (cd_evict eqb c s)))) by (rewrite Hv; auto).
        cbn [length].
        replace (S (length (view (cd_evict eqb c s))) - (max - 1))
          with (S (length (view (cd_evict eqb c s)) - (max - 1))) by lia.
        reflexivity.
      + reflexivity.
    - exists s. repeat split; auto; try apply J. unfold room. replace (length (view s) - (max - 1)) with 0 by lia. auto.
  Qed.

  Lemma mark_eq l k : lru_mark eqb l k = rm k l ++ [k].
  Proof.
    unfold lru_mark. destruct (memb eqb k l) eqn:E; auto. apply (memb_false Heqb) in E.
    rewrite rm_notin; auto.
  Qed.

  Lemma NoDup_snoc (l : list K) k : NoDup l -> ~ In k l -> NoDup (l ++ [k]).
  Proof.
    intros N H. apply NoDup_Add with (a := k) (l := l); [|split; auto].
    rewrite <- (app_nil_r l) at 1. apply Add_app.
  Qed.

  Lemma marked_ok s k : jInv s -> jInv (set_lru s (lru_mark eqb (cd_lru s) k)) /\
    view (set_lru s (lru_mark eqb (cd_lru s) k)) = used eqb k (view s).
  Proof.
    intros J. pose proof J as (J1 & J2 & J3 & J4 & J5 & J6 & J7 & J8). rewrite mark_eq.
    split.
    - unfold jInv; simpl. split; [apply NoDup_snoc; [apply NoDup_rm; auto|rewrite In_rm2; tauto]|].
      split; [|repeat split; auto]. intros x Hx. apply J2 in Hx. apply in_app_iff.
      destruct (eqb_dec Heqb x k) as [->|Hne]; [right; left; auto|]. left. apply In_rm2; auto.
    - unfold view, used; simpl. rewrite vw_app, vw_rm by auto. f_equal. simpl.
      destruct (in_dec (eqb_dec Heqb) k (cd_lru s)) as [Hin|Hin].
      + rewrite (vw_get _ _ _ Hin). destruct (dget (cd_data s) k); auto.
      + assert (Hd : ~ In k (dkeys (cd_data s))) by (intros H; apply Hin; auto).
        rewrite (proj2 (dget_None Heqb _ _) Hd).
        rewrite (proj2 (dget_None Heqb (vw (cd_data s) (cd_lru s)) k)); auto.
        unfold dkeys. rewrite vw_keys. tauto.
  Qed.

  Lemma setitem_ok s k v t : jInv s ->
    exists s', cd_setitem eqb c s k v t = (s', None) /\ jInv s' /\ fits s' /\
      view s' = stored eqb max k v (view s) /\ (disj s -> disj s') /\ In k (cd_lru s') /\
      cd_pending s' = cd_pending s.
  Proof.
    intros J. unfold cd_setitem. rewrite Hmax.
    destruct (make_room_ok (fuel := S (length (cd_lru s))) J) as (s1 & -> & J1 & V1 & L1 & D1 & P1); [lia|].
    pose proof J1 as (N1 & I1 & W1 & W2 & I2 & N2 & I3 & F1).
    rewrite mark_eq. eexists; split; [reflexivity|].
    assert (Hdk : forall x, In x (dkeys (dset eqb (cd_data s1) k v)) <-> x = k \/ In x (dkeys (cd_data s1)))
      by (intros; apply dset_In_keys; auto).
    assert (Htk : forall x, In x (dkeys (dset eqb (cd_ts s1) k t)) <-> x = k \/ In x (dkeys (cd_ts s1)))
      by (intros; apply dset_In_keys; auto).
    assert (HL : forall x, In x (rm k (cd_lru s1) ++ [k]) <-> x = k \/ In x (cd_lru s1)).
    { intros x. rewrite in_app_iff, In_rm2 by auto. simpl.
      destruct (eqb_dec Heqb x k); intuition congruence. }
    split; [|split; [|split; [|split; [|split]]]].
    - unfold jInv; simpl. split; [apply NoDup_snoc; [apply NoDup_rm; auto|rewrite In_rm2; tauto]|].
      split; [intros x Hx; apply HL; apply Hdk in Hx; intuition|].
      split; [apply dset_wf; auto|]. split; [apply dset_wf; auto|].
      split; [intros x Hx; apply Htk; apply Hdk in Hx; intuition|].
      split; [apply NoDup_rm; auto|]. split.
      + intros x Hx. apply In_rm2 in Hx; auto. apply Htk. intuition.
      + intros H. rewrite F1 by auto. auto.
    - unfold fits. simpl. rewrite (dset_length eqb). destruct (dmem eqb (cd_data s1) k); lia.
    - unfold stored. rewrite <- V1. unfold view. simpl. rewrite vw_app. simpl.
      rewrite (dget_dset_eq Heqb). rewrite vw_dset by (rewrite In_rm2; tauto). rewrite vw_rm by auto. reflexivity.
    - intros D x Hx H. simpl in *. apply In_rm2 in Hx; auto. apply Hdk in H. destruct H as [->|H]; [tauto|].
      apply (D1 D x); tauto.
    - simpl. apply HL. auto.
    - simpl. auto.
  Qed.

  Lemma feed_ok s k v ts t : jInv s -> fits s ->
    exists s', cd_feed eqb c s k v ts t = (s', None) /\ jInv s' /\ fits s'.
  Proof.
    intros J Hfit. unfold cd_feed. rewrite Hmax.
    assert (Hpre : exists s1, (if dmem eqb (cd_data s) k then (s, None)
              else cd_make_room eqb c (S (length (cd_lru s))) max s) = (s1, None) /\ jInv s1 /\
              (dmem eqb (cd_data s1) k = true /\ length (cd_data s1) <= max \/ length (cd_data s1) <= max - 1)).
    { destruct (dmem eqb (cd_data s) k) eqn:E.
      - exists s. split; auto.
      - destruct (make_room_ok (fuel := S (length (cd_lru s))) J) as (s1 & E1 & J1 & V1 & L1 & _); [lia|].
        exists s1. auto. }
    destruct Hpre as (s1 & -> & J1 & HL). cbv beta iota zeta.
    pose proof J1 as (N1 & I1 & W1 & W2 & I2 & N2 & I3 & F1).
    eexists; split; [reflexivity|]. split.
    - unfold jInv; simpl. unfold lru_add.
      assert (Hla : forall x, In x (if memb eqb k (cd_lru s1) then cd_lru s1 else cd_lru s1 ++ [k]) <-> x = k \/ In x (cd_lru s1)).
      { intros x. destruct (memb eqb k (cd_lru s1)) eqn:E.
        - apply (memb_In Heqb) in E. intuition congruence.
        - rewrite in_app_iff. simpl. intuition. }
      split. { destruct (memb eqb k (cd_lru s1)) eqn:E; auto. apply NoDup_snoc; auto. apply (memb_false Heqb); auto. }
      split; [intros x Hx; apply Hla; apply dset_In_keys in Hx; intuition|].
      split; [apply dset_wf; auto|]. split; [apply dset_wf; auto|].
      split; [intros x Hx; apply dset_In_keys in Hx; auto; apply dset_In_keys; intuition|].
      split; auto. split; auto. intros x Hx. apply dset_In_keys; auto.
    - unfold fits; simpl. rewrite (dset_length eqb).
      destruct HL as [[-> HL]|HL]; auto. destruct (dmem eqb (cd_data s1) k); lia.
  Qed.

  Lemma on_failure_ok s k t : jInv s -> jInv (cd_on_failure eqb c s k t) /\
    length (cd_data (cd_on_failure eqb c s k t)) <= length (cd_data s) /\
    view (cd_on_failure eqb c s k t) = without k (view s) /\
    (disj s -> disj (cd_on_failure eqb c s k t)) /\ ~ In k (cd_lru (cd_on_failure eqb c s k t)) /\
    cd_pending (cd_on_failure eqb c s k t) = cd_pending s.
  Proof.
    intros J. unfold cd_on_failure. rewrite invalidate_eq by apply J.
    destruct (invalidated_inv k J) as (J' & V' & L' & D').
    assert (Hnl : ~ In k (cd_lru (invalidated s k))).
    { simpl. rewrite In_rm2 by apply J. tauto. }
    assert (Hnd : ~ In k (dkeys (cd_data (invalidated s k)))).
    { simpl. intros H. apply ddel_In_keys in H; auto; [tauto|apply J]. }
    remember (invalidated s k) as s1 eqn:Es1.
    assert (Hp : cd_pending s1 = cd_pending s) by (subst; auto). clear Es1.
    destruct (c_fail c) as [f|] eqn:Ef.
    2: { repeat split; auto; apply J'. }
    destruct J' as (N1 & I1 & W1 & W2 & I2 & N2 & I3 & F1). simpl.
    assert (Hmi : forall x, In x (if memb eqb k (cd_missed s1) then cd_missed s1 else cd_missed s1 ++ [k])
                             <-> x = k \/ In x (cd_missed s1)).
    { intros x. destruct (memb eqb k (cd_missed s1)) eqn:Em.
      - apply (memb_In Heqb) in Em. intuition congruence.
      - rewrite in_app_iff. simpl. intuition. }
    split; [|split; [auto|split; [auto|split; [|split; auto]]]].
    - unfold jInv; simpl. repeat split; auto.
      + apply dset_wf; auto.
      + intros x Hx. apply dset_In_keys; auto.
      + destruct (memb eqb k (cd_missed s1)) eqn:Em; auto. apply NoDup_snoc; auto. apply (memb_false Heqb); auto.
      + intros x Hx. apply Hmi in Hx. apply dset_In_keys; auto. intuition.
      + intros H. congruence.
    - intros D x Hx. simpl in *. apply Hmi in Hx. destruct Hx as [->|Hx]; auto.
      apply D'; auto.
  Qed.

  Lemma add_ghost_ok s k : jInv s -> ~ In k (cd_lru s) ->
    jInv (set_lru s (lru_add eqb (cd_lru s) k)) /\ view (set_lru s (lru_add eqb (cd_lru s) k)) = view s.
  Proof.
    intros J H. pose proof J as (N1 & I1 & W1 & W2 & I2 & N2 & I3 & F1).
    unfold lru_add. rewrite (proj2 (memb_false Heqb _ _) H). split.
    - unfold jInv; simpl. split; [apply NoDup_snoc; auto|]. split; [|repeat split; auto].
      intros x Hx. apply in_app_iff. auto.
    - unfold view; simpl. rewrite vw_app. simpl.
      assert (Hn : ~ In k (dkeys (cd_data s))) by (intros Hk; apply H; auto).
      rewrite (proj2 (dget_None Heqb _ _) Hn). apply app_nil_r.
  Qed.

  (** a load: everything [get_value_block] does *)
  Lemma load_ok s k r : jInv s -> fits s -> r_getter r <> Err Diverges ->
    let p := called (cd_get_value_block eqb c s k (r_getter r) (r_done r)) in
    asked c r (snd p) /\ g_res (snd p) <> Err Diverges /\ jInv (fst p) /\ fits (fst p) /\
    view (fst p) = lru_outcome eqb (stored eqb max) k (r_getter r) (view s) /\ (disj s -> disj (fst p)).
  Proof.
    intros J Hfit Hh. unfold called, cd_get_value_block. rewrite Hmax. unfold asked, miss_answer, miss_result.
    destruct (r_getter r) as [v|e] eqn:Eg; cbn [fst snd g_called g_scheduled g_res].
    - destruct (setitem_ok k v (r_done r) J) as (s' & -> & J' & F' & V' & D' & Hin & _).
      unfold lru_add. rewrite (proj2 (memb_In Heqb _ _) Hin). simpl.
      split; [auto|]. split; [discriminate|]. split; [destruct s'; apply J'|]. split; [exact F'|]. split; auto.
    - assert (Hother : e <> KeyError ->
         (true = true /\ false = false /\ @Err V e = match e with KeyError => match c_default c with Some v => Ok v | None => Err KeyError end | _ => Err e end) /\
         @Err V e <> Err Diverges /\ jInv s /\ fits s /\ view s = lru_outcome eqb (stored eqb max) k (Err e) (view s) /\
         (disj s -> disj s)).
      { intros He. split.
        - repeat split. destruct e; auto. congruence.
        - split; [congruence|]. split; auto. split; auto. split; auto. destruct e; auto. congruence. }
      destruct e; try (apply Hother; discriminate).
      destruct (on_failure_ok k (r_done r) J) as (J' & L' & V' & D' & Hn & _).
      destruct (c_default c) as [v|]; cbn [fst snd g_called g_scheduled g_res].
      + destruct (add_ghost_ok k J' Hn) as [J2 V2].
        split; auto. split; [discriminate|]. split; auto. split; [unfold fits in *; simpl; lia|].
        split; [rewrite V2; exact V'|]. intros D. exact (D' D).
      + split; auto. split; [discriminate|]. split; auto. split; [unfold fits in *; lia|]. auto.
  Qed.

  Lemma fits_set_lru s l : fits (set_lru s l) <-> fits s.
  Proof. reflexivity. Qed.

  Lemma view_get s k : jInv s -> dget (view s) k = dget (cd_data s) k.
  Proof.
    intros (J1 & J2 & _). unfold view. destruct (in_dec (eqb_dec Heqb) k (cd_lru s)) as [H|H].
    - apply vw_get; auto.
    - rewrite (proj2 (dget_None Heqb (vw _ _) k)).
      + symmetry. apply (dget_None Heqb). auto.
      + unfold dkeys. rewrite vw_keys. tauto.
  Qed.

  Definition good_out (out : cd_out K V) := ~ diverged out.

  (** one step: invariants for all calls; the LRU specification when nothing was fed *)
  Lemma lru_step_ok s o : jInv s -> fits s -> honest_getter o ->
    let '(s', out) := cd_step eqb c s o in
    jInv s' /\ fits s' /\ good_out out /\
    (disj s -> not_feed o = true ->
     disj s' /\ lru_step eqb c (stored eqb max) (view s) o out (view s')).
  Proof.
    intros J Hfit Hh. destruct o as [k r|k v t|k v ts t|k|k|k t| | |i g t]; cbn beta iota delta [cd_step].
    - simpl in Hh. unfold cd_getitem. rewrite Hmax.
      destruct (marked_ok k J) as [J1 V1]. set (s1 := set_lru s (lru_mark eqb (cd_lru s) k)) in *.
      assert (F1 : fits s1) by exact Hfit. cbv zeta.
      assert (Hload : let '(s', g) := called (cd_get_value_block eqb c s1 k (r_getter r) (r_done r)) in
        jInv s' /\ fits s' /\ good_out (COGot g) /\
        (disj s -> not_feed (CGet k r) = true ->
         disj s' /\ lru_step eqb c (stored eqb max) (view s) (CGet k r) (COGot g) (view s'))).
      { destruct (load_ok k r J1 F1 Hh) as (A & G & J2 & F2 & V2 & D2).
        destruct (called _) as [s' g]. simpl in *. split; auto. split; auto. split; auto.
        intros D _. split; [apply D2; exact D|]. rewrite V2, V1. constructor. auto. }
      destruct (negb (dmem eqb (cd_data s1) k) && negb (memb eqb k (cd_missed s1))) eqn:E0.
      { destruct (called _) as [s' g]. exact Hload. }
      assert (Hserve : forall rr s2, g_res rr <> Err Diverges -> jInv s2 -> fits s2 -> view s2 = view s1 ->
        cd_missed s2 = cd_missed s -> cd_data s2 = cd_data s -> g_called rr = false ->
        (disj s -> match dget (cd_data s) k with Some v => g_res rr = Ok v | None => g_res rr = miss_answer c end) ->
        jInv s2 /\ fits s2 /\ good_out (COGot rr) /\
        (disj s -> not_feed (CGet k r) = true ->
         disj s2 /\ lru_step eqb c (stored eqb max) (view s) (CGet k r) (COGot rr) (view s2))).
      { intros rr s2 Hnd Js Fs Vs Ms Ds Hc Hr. split; auto. split; auto. split; auto. intros D _.
        split; [unfold disj; rewrite Ms, Ds; exact D|]. rewrite Vs, V1. specialize (Hr D).
        pose proof (view_get k J) as Hg.
        destruct (dget (cd_data s) k) as [v|].
        - eapply ls_hit; eauto.
        - assert (Hu : used eqb k (view s) = view s).
          { unfold used. rewrite Hg. rewrite app_nil_r. apply without_notin. apply (dget_None Heqb). auto. }
          rewrite Hu. eapply ls_miss; eauto. }
      destruct (dget (cd_ts s1) k) as [ts|] eqn:Ets.
      2: { exfalso. apply (dget_None Heqb) in Ets. destruct J1 as (_ & _ & _ & _ & I2 & _ & I3 & _).
           destruct (dmem eqb (cd_data s1) k) eqn:Ed.
           - apply (dmem_In Heqb) in Ed. auto.
           - simpl in E0. apply negb_false_iff in E0. apply (memb_In Heqb) in E0. auto. }
      destruct (memb eqb k (cd_missed s1)) eqn:Em.
      + apply (memb_In Heqb) in Em. destruct (c_fail c) as [f|] eqn:Ef.
        * destruct (Z.ltb f (r_mono r - ts)).
          -- destruct (called _) as [s' g]. exact Hload.
          -- unfold served. apply Hserve; auto.
             ++ simpl. unfold miss_result. destruct (c_default c); discriminate.
             ++ intros D. simpl. rewrite (proj2 (dget_None Heqb _ _) (D k Em)). reflexivity.
        * destruct J1 as (_ & _ & _ & _ & _ & _ & _ & F). rewrite F in Em by auto. destruct Em.
      + assert (Ed : exists v, dget (cd_data s) k = Some v).
        { rewrite andb_true_r in E0. apply negb_false_iff in E0. unfold dmem in E0. simpl in E0.
          destruct (dget (cd_data s) k); [eauto|discriminate]. }
        destruct Ed as [v Ed].
        destruct (Z.ltb (c_exp c) (r_mono r - ts)).
        { destruct (called _) as [s' g]. exact Hload. }
        simpl (cd_data s1). rewrite Ed.
        destruct (Z.ltb (c_stale c) (r_mono r - ts)).
        * apply Hserve; auto; [discriminate|]. intros _. simpl. rewrite Ed. auto.
        * unfold served. apply Hserve; auto; [discriminate|]. intros _. simpl. rewrite Ed. auto.
    - destruct (setitem_ok k v t J) as (s' & -> & J' & F' & V' & D' & _ & _). simpl.
      split; auto. split; auto. split; [intros []|]. intros D _. split; auto. rewrite V'. constructor.
    - destruct (feed_ok k v ts t J Hfit) as (s' & -> & J' & F'). simpl. split; auto. split; auto.
      split; [intros []|]. intros _ H. discriminate.
    - (* del *)
      unfold cd_delitem. rewrite Hmax. unfold base_delitem.
      pose proof J as (J1 & J2 & J3 & J4 & J5 & J6 & J7 & J8).
      destruct (dmem eqb (cd_data s) k) eqn:E.
      + pose proof E as Ein. apply (dmem_In Heqb) in Ein.
        rewrite (proj2 (dmem_In Heqb _ _) (J5 _ Ein)). cbv zeta iota beta. cbn [cd_lru].
        unfold lru_remove. rewrite (proj2 (memb_In Heqb _ _) (J2 _ Ein)).
        destruct (invalidated_inv k J) as (J' & V' & L' & D').
        assert (Es : set_lru {| cd_data := ddel eqb (cd_data s) k; cd_ts := ddel eqb (cd_ts s) k;
                 cd_missed := rm k (cd_missed s); cd_lru := cd_lru s; cd_pending := cd_pending s |} (rm k (cd_lru s))
                 = invalidated s k).
        { unfold invalidated. rewrite E. reflexivity. }
        simpl fst. simpl snd. unfold unit_out. simpl fst. simpl snd. rewrite Es.
        split; auto. split; [unfold fits in *; lia|]. split; [intros []|]. intros D _. split; auto.
        rewrite V'. constructor. rewrite (view_get k J). unfold dmem in E. destruct (dget (cd_data s) k); congruence.
      + simpl. split; auto. split; auto. split; [intros []|]. intros D _. split; auto. constructor.
        rewrite (view_get k J). unfold dmem in E. destruct (dget (cd_data s) k); congruence.
    - rewrite invalidate_eq by apply J. destruct (invalidated_inv k J) as (J' & V' & L' & D').
      split; auto. split; [unfold fits in *; lia|]. split; [intros []|]. intros D _. split; auto.
      rewrite V'. constructor.
    - split; auto. split; auto. split; [intros []|]. intros D _. split; auto. constructor.
    - split; auto. split; auto. split; [intros []|]. intros D _. split; auto. rewrite <- (view_length J). constructor.
    - split; auto. split; auto. split; [intros []|]. intros D _. split; auto. constructor.
      apply NoDup_Permutation.
      + apply J.
      + apply vw_NoDup. apply J.
      + intros x. unfold view. rewrite vw_keys. split; [|tauto]. intros H. split; auto. apply J; auto.
    - unfold cd_complete. destruct (nth_error (cd_pending s) i) as [k|] eqn:En.
      2: { split; auto. split; auto. split; [intros []|]. intros D _. split; auto. constructor. }
      set (s1 := {| cd_data := cd_data s; cd_ts := cd_ts s; cd_missed := cd_missed s; cd_lru := cd_lru s;
                    cd_pending := del_nth i (cd_pending s) |}).
      assert (J1 : jInv s1) by exact J. assert (F1 : fits s1) by exact Hfit.
      assert (V1 : view s1 = view s) by reflexivity.
      destruct g as [v|e].
      + destruct (setitem_ok k v t J1) as (s' & -> & J' & F' & V' & D' & _ & _).
        split; auto. split; auto. split; [intros []|]. intros D _. split; [apply D'; exact D|].
        rewrite V', V1. apply (ls_complete eqb c (stored eqb max) (view s) i (Ok v) t k).
      + assert (Hother : e <> KeyError -> jInv s1 /\ fits s1 /\ good_out (CODone k) /\
            (disj s -> not_feed (CComplete (K := K) i (Err (A := V) e) t) = true ->
             disj s1 /\ lru_step eqb c (stored eqb max) (view s) (CComplete i (Err e) t) (CODone k) (view s1))).
        { intros He. split; auto. split; auto. split; [intros []|]. intros D _. split; [exact D|].
          rewrite V1. pose proof (ls_complete eqb c (stored eqb max) (view s) i (Err e) t k) as HH.
          destruct e; auto. congruence. }
        destruct e; try (apply Hother; discriminate).
        destruct (on_failure_ok k t J1) as (J' & L' & V' & D' & _ & _).
        split; auto. split; [unfold fits in *; simpl in *; lia|]. split; [intros []|]. intros D _.
        split; [apply D'; exact D|]. rewrite V', V1.
        apply (ls_complete eqb c (stored eqb max) (view s) i (Err KeyError) t k).
  Qed.

  Lemma jInv_init : jInv cd_init.
  Proof.
    unfold jInv. simpl. repeat split; auto; try apply NoDup_nil; intros x [].
  Qed.

  Lemma lru_run_capacity ops : forall s, jInv s -> fits s -> Forall honest_getter ops ->
    Forall good_out (fst (cd_run eqb c s ops)) /\ fits (snd (cd_run eqb c s ops)).
  Proof.
    induction ops as [|o t IH]; intros s J Hf Hh; simpl; auto.
    inversion Hh; subst. pose proof (@lru_step_ok s o J Hf) as Hs.
    destruct (cd_step eqb c s o) as [s1 out]. destruct Hs as (J1 & F1 & G & _); auto.
    destruct (IH s1 J1 F1) as [A B]; auto. destruct (cd_run eqb c s1 t) as [outs s2]. simpl in *. auto.
  Qed.

  Lemma lru_capacity ops : Forall honest_getter ops ->
    (forall n out, nth_error (fst (cd_run eqb c cd_init ops)) n = Some out -> ~ diverged out) /\
    length (cd_data (snd (cd_run eqb c cd_init ops))) <= max.
  Proof.
    intros H. destruct (lru_run_capacity jInv_init (ops := ops)) as [A B]; auto.
    - unfold fits. simpl. lia.
    - split; auto. intros n out Hn. rewrite Forall_forall in A. apply A. eapply nth_error_In; eauto.
  Qed.

  Lemma lru_run_ok ops : forall s, jInv s -> fits s -> disj s -> Forall honest_getter ops ->
    forallb not_feed ops = true ->
    exists l, lru_session eqb c (stored eqb max) max (view s) ops (fst (cd_run eqb c s ops)) l /\
              l = view (snd (cd_run eqb c s ops)).
  Proof.
    induction ops as [|o t IH]; intros s J Hf D Hh Hn; simpl.
    - eexists; split; [constructor|auto].
    - inversion Hh; subst. simpl in Hn. apply andb_true_iff in Hn. destruct Hn as [Hn1 Hn2].
      pose proof (@lru_step_ok s o J Hf) as Hs.
      destruct (cd_step eqb c s o) as [s1 out]. destruct Hs as (J1 & F1 & _ & Hs); auto.
      destruct (Hs D Hn1) as [D1 S1].
      destruct (IH s1 J1 F1 D1) as (l & A & B); auto.
      destruct (cd_run eqb c s1 t) as [outs s2]. simpl in *. exists l. split; auto.
      econstructor; eauto.
      + rewrite (view_length J1). exact F1.
      + apply vw_NoDup. apply J1.
  Qed.

  Lemma lru_session_ok ops : Forall honest_getter ops -> forallb not_feed ops = true ->
    exists l, lru_session eqb c (stored eqb max) max [] ops (fst (cd_run eqb c cd_init ops)) l.
  Proof.
    intros Hh Hn. destruct (lru_run_ok (s := cd_init) (ops := ops)) as (l & A & _); auto.
    - apply jInv_init.
    - unfold fits. simpl. lia.
    - intros k [].
    - exists l. exact A.
  Qed.
End LRUProofs.
