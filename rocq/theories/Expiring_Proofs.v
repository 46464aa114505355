From Verif Require Import Prelude PreludeFacts Order_Spec Heapq_Model Heapq_Proofs Heap_Model TimeHeap_Model
  TimeHeap_Spec TimeHeap_Proofs Expiring_Model Expiring_Spec.

Set Implicit Arguments.
Local Open Scope Z_scope.

Section ExpiringProofs.
  Context {K V : Type}.
  Variable ltK eqK : K -> K -> bool.
  Hypothesis Hord : total_preorder ltK.
  Hypothesis Heqb : eqb_ok eqK.
  Variable timeout : Z.
  Local Notation tInv := (tInv ltK eqK).
  Local Notation dg := (dget eqK).

  Definition status (s : exd K V) (b : book K V) (late : list K) (T : Z) (k : K) : Prop :=
    match dg b k with
    | None => dg (ex_data s) k = None /\ dg (ts_map (ex_heap s)) k = None
    | Some (v, t0) =>
      (dg (ts_map (ex_heap s)) k = Some (t0 + timeout) /\ dg (ex_data s) k = Some v) \/
      (t0 + timeout < T /\ dg (ex_data s) k = None /\
       (dg (ts_map (ex_heap s)) k = None \/
        (dg (ts_map (ex_heap s)) k = Some (t0 + timeout) /\ In k late)))
    end.
  Definition eInv (s : exd K V) b late T : Prop :=
    tInv (ex_heap s) /\ dwf (ex_data s) /\ dwf b /\ forall k, status s b late T k.

  Lemma eInv_later s b late T T' : T <= T' -> eInv s b late T -> eInv s b late T'.
  Proof.
    intros H (I1 & I2 & I3 & I4). split; auto. split; auto. split; auto. intros k. specialize (I4 k).
    unfold status in *. destruct (dg b k) as [[v t0]|]; auto. destruct I4 as [I4|(A & B)]; auto.
    right. split; auto. lia.
  Qed.
  Lemma eInv_late s b late late' T : incl late late' -> eInv s b late T -> eInv s b late' T.
  Proof.
    intros H (I1 & I2 & I3 & I4). split; auto. split; auto. split; auto. intros k. specialize (I4 k).
    unfold status in *. destruct (dg b k) as [[v t0]|]; auto. destruct I4 as [I4|(A & B & [C|(C & D)])]; [auto| |]; right; repeat split; auto.
  Qed.

  (** the map of a heap after removing the entry of k *)
  Lemma map_after_remove (h h' : tsh K) t k : tInv h -> tInv h' -> Permutation (ts_data h) ((t, k) :: ts_data h') ->
    dg (ts_map h) k = Some t /\ dg (ts_map h') k = None /\
    forall k', k' <> k -> dg (ts_map h') k' = dg (ts_map h) k'.
  Proof.
    intros I I' P.
    assert (Hk : dg (ts_map h) k = Some t).
    { apply (proj2 (proj2 (proj2 I))). eapply Permutation_in; [symmetry; exact P|left; auto]. }
    split; auto.
    assert (ND : NoDup (map snd ((t, k) :: ts_data h'))).
    { eapply Permutation_NoDup; [apply Permutation_map; exact P|apply I]. }
    simpl in ND. inversion ND as [|? ? Hnin ND']; subst.
    assert (Hget : forall k' t', k' <> k -> dg (ts_map h') k' = Some t' <-> dg (ts_map h) k' = Some t').
    { intros k' t' Hne. destruct I as (_ & _ & _ & I), I' as (_ & _ & _ & I').
      rewrite I, I'. split; intros H.
      - eapply Permutation_in; [symmetry; exact P|right; auto].
      - apply (Permutation_in _ P) in H. destruct H as [H|H]; auto. congruence. }
    split.
    - destruct (dg (ts_map h') k) as [t'|] eqn:E; auto. apply I' in E.
      elim Hnin. apply in_map_iff. exists (t', k). auto.
    - intros k' Hne. destruct (dg (ts_map h') k') as [t'|] eqn:E.
      + symmetry. apply Hget; auto.
      + destruct (dg (ts_map h) k') as [t'|] eqn:E'; auto. apply Hget in E'; auto. congruence.
  Qed.

  Lemma map_after_push (h h' : tsh K) t k : tInv h -> tInv h' ->
    (forall e, In e (ts_data h') <-> e = (t, k) \/ (In e (ts_data h) /\ snd e <> k)) ->
    dg (ts_map h') k = Some t /\ forall k', k' <> k -> dg (ts_map h') k' = dg (ts_map h) k'.
  Proof.
    intros (_ & _ & _ & I) (_ & _ & _ & I') H. split.
    - apply I'. apply H. auto.
    - intros k' Hne.
      assert (Hget : forall t', dg (ts_map h') k' = Some t' <-> dg (ts_map h) k' = Some t').
      { intros t'. rewrite I, I', H. simpl. split; [intros [E|[E _]]; auto; congruence|auto]. }
      destruct (dg (ts_map h') k') as [t'|].
      + symmetry. apply Hget; auto.
      + destruct (dg (ts_map h) k') as [t'|]; auto. apply (Hget t'). auto.
  Qed.

  (** dropping an expired entry from both structures *)
  Lemma drop_expired s b late T k v t0 h : eInv s b late T -> dg b k = Some (v, t0) -> t0 + timeout < T ->
    tInv h -> Permutation (ts_data (ex_heap s)) ((t0 + timeout, k) :: ts_data h) ->
    eInv {| ex_data := ddel eqK (ex_data s) k; ex_heap := h |} b late T.
  Proof.
    intros (I1 & I2 & I3 & I4) Hb Ht Ih P. destruct (map_after_remove I1 Ih P) as (M1 & M2 & M3).
    split; auto. split; [apply ddel_wf; auto|]. split; auto. intros k'. unfold status; simpl.
    destruct (eqb_dec Heqb k' k) as [->|Hne].
    - rewrite Hb, M2. rewrite (dget_ddel_eq Heqb) by auto. right. auto.
    - specialize (I4 k'). unfold status in I4. rewrite M3, (dget_ddel_neq Heqb) by auto. exact I4.
  Qed.

  Lemma heap_entry s b late T t k : eInv s b late T -> In (t, k) (ts_data (ex_heap s)) ->
    exists v t0, dg b k = Some (v, t0) /\ t = t0 + timeout /\
      (dg (ex_data s) k = Some v \/ (t < T /\ dg (ex_data s) k = None /\ In k late)).
  Proof.
    intros (I1 & I2 & I3 & I4) H. apply I1 in H. specialize (I4 k). unfold status in I4.
    destruct (dg b k) as [[v t0]|]; [|destruct I4; congruence].
    exists v, t0. split; auto. destruct I4 as [[A B]|(A & B & [C|(C & D)])].
    - split; [congruence|auto].
    - congruence.
    - assert (E : t = t0 + timeout) by congruence. split; [exact E|]. right. rewrite E. auto.
  Qed.

  Lemma cleanup_loop_ok fuel : forall s b T, eInv s b [] T -> (length (ts_data (ex_heap s)) <= fuel)%nat ->
    exists s', ex_cleanup_loop ltK eqK fuel T s = (s', None) /\ eInv s' b [] T /\
      forall e, In e (ts_data (ex_heap s')) -> T <= fst e.
  Proof.
    induction fuel as [|f IH]; intros s b T I Hf; cbn [ex_cleanup_loop].
    - destruct (ts_data (ex_heap s)) as [|e l] eqn:E; simpl in Hf; [|lia].
      exists s. split; auto. split; auto. rewrite E. intros e [].
    - destruct (ts_data (ex_heap s)) as [|e l] eqn:E.
      { exists s. split; auto. split; auto. rewrite E. intros e []. }
      destruct (Z.leb_spec T (fst e)) as [Hle|Hlt].
      + exists s. split; auto. split; auto. intros e' He'.
        pose proof (@heap_root_min _ (ltE ltK eqK) (ltE_ord Hord Heqb) (ts_data (ex_heap s)) e) as Hm.
        assert (fst e <= fst e'); [|lia].
        refine (min_fst (Hm _ _) _ He'); [apply I|rewrite E; reflexivity].
      + pose proof (@tsh_pop_ok _ _ _ Hord Heqb (ex_heap s) e (proj1 I)) as Hp.
        destruct Hp as (h & Ep & Ih & P); [rewrite E; reflexivity|]. rewrite Ep. destruct e as [t k].
        destruct (@heap_entry s b [] T t k I) as (v & t0 & Hb & -> & Hd); [rewrite E; left; auto|].
        destruct Hd as [Hd|(_ & _ & [])].
        assert (Hm : dmem eqK (ex_data s) k = true) by (unfold dmem; rewrite Hd; auto).
        rewrite Hm. apply IH.
        * eapply drop_expired; eauto.
        * simpl. apply Permutation_length in P. rewrite E in P. simpl in *. lia.
  Qed.

  Lemma cleanup_ok s b T : eInv s b [] T ->
    exists s', ex_cleanup ltK eqK s T = (s', None) /\ eInv s' (filter (fun e => T <=? snd (snd e) + timeout) b) [] T /\
      visible_keys eqK timeout b T (dkeys (ex_data s')).
  Proof.
    intros I. unfold ex_cleanup. destruct (@cleanup_loop_ok _ s b T I (le_n _)) as (s' & E & I' & Hmin).
    exists s'. split; auto. destruct I' as (J1 & J2 & J3 & J4). split.
    { split; auto. split; auto. split; [apply filter_wf; auto|]. intros k. specialize (J4 k). unfold status in *.
      rewrite (dget_filter Heqb) by auto. destruct (dg b k) as [[v t0]|]; auto. simpl.
      destruct (Z.leb_spec T (t0 + timeout)); auto.
      destruct J4 as [[A B]|(A & B & [C|[C []]])]; auto. apply J1 in A. apply Hmin in A. simpl in A. lia. }
    split; auto.
    intros k. specialize (J4 k). unfold visible, status in *. rewrite <- (dmem_In Heqb). unfold dmem.
    destruct (dg b k) as [[v t0]|].
    - destruct J4 as [[A B]|(A & B & C)].
      + rewrite B. apply J1 in A. apply Hmin in A. simpl in A.
        rewrite (proj2 (Z.leb_le T (t0 + timeout))) by lia. split; congruence.
      + rewrite B. rewrite (proj2 (Z.leb_gt T (t0 + timeout))) by lia. split; congruence.
    - destruct J4 as [-> _]. split; congruence.
  Qed.

  Lemma setitem_inv s b late T k v t late' : eInv s b late T -> T <= t ->
    (forall x, x <> k -> In x late -> In x late') ->
    exists s', ex_setitem ltK eqK timeout s k v t = (s', None) /\ eInv s' (dset eqK b k (v, t)) late' t.
  Proof.
    intros I Ht Hl. unfold ex_setitem.
    destruct (@tsh_push_ok _ _ _ (fun x => Ok x) Hord Heqb (ex_heap s) (t + timeout) k (proj1 I)) as (h & -> & Ih & Hin).
    eexists; split; [reflexivity|]. destruct (map_after_push (proj1 I) Ih Hin) as [M1 M2].
    destruct I as (I1 & I2 & I3 & I4).
    split; auto. split; [apply dset_wf; auto|]. split; [apply dset_wf; auto|]. intros k'. unfold status; simpl.
    destruct (eqb_dec Heqb k' k) as [->|Hne].
    - rewrite !(dget_dset_eq Heqb). left. auto.
    - rewrite !(dget_dset_neq Heqb) by auto. rewrite M2 by auto. specialize (I4 k'). unfold status in I4.
      destruct (dg b k') as [[v' t0]|]; auto. destruct I4 as [I4|(A & B & [C|(C & D)])]; solve [auto | right; (split; [lia|]); auto 8].
  Qed.

  Lemma getitem_ok s b late T k t : eInv s b late T -> T <= t ->
    exists s' r, ex_getitem eqK s k t = (s', r) /\
      r = match visible eqK timeout b k t with Some v => Ok v | None => Err KeyError end /\
      eInv s' b (if expired eqK timeout b k t then k :: late else late) t /\
      (visible eqK timeout b k t <> None -> s' = s /\ eInv s b late t).
  Proof.
    intros I Ht. apply (eInv_later Ht) in I. unfold ex_getitem, expired, visible.
    pose proof (proj2 (proj2 (proj2 I)) k) as Hs. unfold status in Hs.
    destruct (dg b k) as [[v t0]|] eqn:Eb.
    - destruct Hs as [[A B]|(A & B & C)].
      + rewrite A. destruct (Z.ltb_spec (t0 + timeout) t) as [Hlt|Hge].
        * rewrite (proj2 (Z.leb_gt t (t0 + timeout))) by lia.
          assert (Hm : dmem eqK (ex_data s) k = true) by (unfold dmem; rewrite B; auto). rewrite Hm.
          do 2 eexists. split; [reflexivity|]. split; auto. split; [|congruence].
          destruct I as (I1 & I2 & I3 & I4).
          split; auto. split; [apply ddel_wf; auto|]. split; auto. intros k'. unfold status; simpl.
          destruct (eqb_dec Heqb k' k) as [->|Hne].
          -- rewrite Eb. right. split; [lia|]. split; [apply (dget_ddel_eq Heqb); auto|]. right. auto.
          -- rewrite (dget_ddel_neq Heqb) by auto. specialize (I4 k'). unfold status in I4.
             destruct (dg b k') as [[v' t1]|]; auto. destruct I4 as [I4|(A' & B' & [C'|(C' & D')])]; solve [auto | right; (split; [lia|]); simpl; auto 8].
        * rewrite (proj2 (Z.leb_le t (t0 + timeout))) by lia. rewrite B.
          do 2 eexists. split; [reflexivity|]. split; auto.
      + rewrite (proj2 (Z.leb_gt t (t0 + timeout))) by lia.
        assert (I' : eInv s b (k :: late) t) by (eapply eInv_late; [|exact I]; intros x Hx; right; auto).
        destruct C as [C|[C D]]; rewrite C.
        * do 2 eexists. split; [reflexivity|]. split; [auto|]. split; [auto|congruence].
        * rewrite (proj2 (Z.ltb_lt (t0 + timeout) t)) by lia.
          assert (Hm : dmem eqK (ex_data s) k = false) by (unfold dmem; rewrite B; auto). rewrite Hm.
          do 2 eexists. split; [reflexivity|]. split; [auto|]. split; [auto|congruence].
    - destruct Hs as [A B]. rewrite B. do 2 eexists. split; [reflexivity|]. split; [auto|]. split; [auto|congruence].
  Qed.

  Lemma delitem_ok s b late T k t v : eInv s b late T -> T <= t ->
    visible eqK timeout b k t = Some v ->
    exists s', ex_delitem ltK eqK s k = (s', None) /\ eInv s' (ddel eqK b k) late t.
  Proof.
    intros I Ht Hv. apply (eInv_later Ht) in I. unfold visible in Hv.
    pose proof (proj2 (proj2 (proj2 I)) k) as Hs. unfold status in Hs.
    destruct (dg b k) as [[v' t0]|] eqn:Eb; [|discriminate].
    destruct (Z.leb_spec t (t0 + timeout)); [|discriminate]. injection Hv as ->.
    destruct Hs as [[A B]|(A & _)]; [|lia].
    unfold ex_delitem.
    destruct (@tsh_pop_item_ok _ _ _ Hord Heqb (ex_heap s) k (proj1 I)) as [(t' & h & -> & Ih & P)|[_ Hno]].
    - assert (Hm : dmem eqK (ex_data s) k = true) by (unfold dmem; rewrite B; auto). rewrite Hm.
      eexists; split; [reflexivity|]. destruct (map_after_remove (proj1 I) Ih P) as (M1 & M2 & M3).
      destruct I as (I1 & I2 & I3 & I4).
      split; auto. split; [apply ddel_wf; auto|]. split; [apply ddel_wf; auto|]. intros k'. unfold status; simpl.
      destruct (eqb_dec Heqb k' k) as [->|Hne].
      + rewrite !(dget_ddel_eq Heqb) by auto. auto.
      + rewrite !(dget_ddel_neq Heqb) by auto. rewrite M3 by auto. apply I4.
    - apply I in A. elim (Hno _ A).
  Qed.

  Lemma contains_ok s b late T k t : eInv s b late T -> T <= t -> ~ In k late ->
    exists s', ex_contains ltK eqK s k t =
      (s', Ok (match visible eqK timeout b k t with Some _ => true | None => false end)) /\
      eInv s' (match visible eqK timeout b k t with Some _ => b | None => ddel eqK b k end) late t.
  Proof.
    intros I Ht Hl. apply (eInv_later Ht) in I. unfold ex_contains, visible.
    assert (Hdrop : forall s', eInv s' b late t -> dg (ex_data s') k = None -> dg (ts_map (ex_heap s')) k = None ->
      eInv s' (ddel eqK b k) late t).
    { intros s' (J1 & J2 & J3 & J4) H1 H2. split; auto. split; auto. split; [apply ddel_wf; auto|].
      intros k'. unfold status. destruct (eqb_dec Heqb k' k) as [->|Hne].
      - rewrite (dget_ddel_eq Heqb) by auto. auto.
      - rewrite (dget_ddel_neq Heqb) by auto. apply J4. }
    pose proof (proj2 (proj2 (proj2 I)) k) as Hs. unfold status in Hs.
    destruct (dg b k) as [[v t0]|] eqn:Eb.
    - destruct Hs as [[A B]|(A & B & [C|[_ C]])]; [| |contradiction].
      + rewrite A. destruct (Z.ltb_spec (t0 + timeout) t) as [Hlt|Hge].
        * rewrite (proj2 (Z.leb_gt t (t0 + timeout))) by lia. unfold ex_delitem.
          destruct (@tsh_pop_item_ok _ _ _ Hord Heqb (ex_heap s) k (proj1 I)) as [(t' & h & -> & Ih & P)|[_ Hno]].
          -- assert (Hm : dmem eqK (ex_data s) k = true) by (unfold dmem; rewrite B; auto). rewrite Hm.
             eexists; split; [reflexivity|].
             destruct (map_after_remove (proj1 I) Ih P) as (M1 & M2 & _).
             assert (t' = t0 + timeout) as -> by congruence.
             apply Hdrop; simpl; auto.
             ++ eapply drop_expired; eauto.
             ++ apply (dget_ddel_eq Heqb). apply I.
          -- apply I in A. elim (Hno _ A).
        * rewrite (proj2 (Z.leb_le t (t0 + timeout))) by lia. eauto.
      + rewrite C. rewrite (proj2 (Z.leb_gt t (t0 + timeout))) by lia. eauto.
    - destruct Hs as [A B]. rewrite B. eauto 6.
  Qed.

  Lemma ex_step_ok s b late T o : eInv s b late T -> T <= fst (readings o) -> fst (readings o) <= snd (readings o) ->
    ex_safe eqK timeout b late o = true ->
    let '(s', out) := ex_step ltK eqK timeout s o in
    ex_answer eqK timeout b o out /\
    eInv s' (swept eqK timeout b o) (late_after eqK timeout b late o) (snd (readings o)).
  Proof.
    intros I HT HT2 Hs. destruct o as [k t|k d t|k v t|k t|k t|k v t t2|k t|t|t|t|k t];
      cbn beta iota delta [ex_step ex_answer swept book_after late_after readings fst snd ex_safe] in *.
    - destruct (getitem_ok k I HT) as (s' & r & -> & -> & I' & _). unfold eo_val; simpl.
      split; auto. destruct (visible _ _ _ _ _); auto.
    - destruct (getitem_ok k I HT) as (s' & r & -> & -> & I' & _).
      destruct (visible _ _ _ _ _); simpl; auto.
    - destruct (@setitem_inv s b late T k v t (filter (fun x => negb (eqK x k)) late) I HT) as (s' & -> & I').
      + intros x Hx Hin. apply filter_In. split; auto. rewrite (proj2 (eqb_false_iff Heqb x k)) by auto. auto.
      + simpl. auto.
    - destruct (visible eqK timeout b k t) as [v|] eqn:Ev; [|discriminate].
      destruct (@delitem_ok s b late T k t v I HT Ev) as (s' & -> & I'). simpl. auto.
    - destruct (getitem_ok k I HT) as (s' & r & -> & -> & I' & Hv).
      destruct (visible eqK timeout b k t) as [v|] eqn:Ev.
      + destruct (Hv ltac:(congruence)) as [-> I2].
        destruct (@delitem_ok s b late t k t v I2 ltac:(lia) Ev) as (s2 & -> & I3). split; auto.
        unfold expired. rewrite Ev. destruct (dg b k); auto.
      + simpl. split; auto.
    - destruct (getitem_ok k I HT) as (s' & r & -> & -> & I' & Hv).
      destruct (visible eqK timeout b k t) as [v0|] eqn:Ev.
      + simpl. split; auto. unfold expired in *. rewrite Ev in *. destruct (dg b k); eapply eInv_later; eauto.
      + destruct (@setitem_inv s' b (if expired eqK timeout b k t then k :: late else late) t k v t2
          (if expired eqK timeout b k t then filter (fun x => negb (eqK x k)) late else late) I' HT2) as (s2 & -> & I2).
        * intros x Hx. destruct (expired eqK timeout b k t); auto. intros [E|E]; [congruence|].
          apply filter_In. split; auto. rewrite (proj2 (eqb_false_iff Heqb x k)) by auto. auto.
        * simpl. split; auto.
    - destruct (@contains_ok s b late T k t I HT) as (s' & -> & I').
      + apply (memb_false Heqb). apply negb_true_iff. auto.
      + auto.
    - destruct late; [|discriminate]. destruct (cleanup_ok (eInv_later HT I)) as (s' & -> & I' & Hv).
      split; auto. exists (dkeys (ex_data s')). split; auto. unfold dkeys. rewrite map_length. auto.
    - destruct late; [|discriminate]. destruct (cleanup_ok (eInv_later HT I)) as (s' & -> & I' & Hv).
      split; auto. exists (dkeys (ex_data s')). split; auto.
    - destruct late; [|discriminate]. destruct (cleanup_ok (eInv_later HT I)) as (s' & -> & I' & Hv).
      simpl. auto.
    - discriminate.
  Qed.

  (** sweeping does not change what is visible from then on *)
  Definition agree (b p : book K V) (T : Z) : Prop :=
    dwf b /\ dwf p /\ forall k t, T <= t -> visible eqK timeout b k t = visible eqK timeout p k t.

  Lemma agree_later b p T T' : T <= T' -> agree b p T -> agree b p T'.
  Proof. intros H (A & B & C). split; auto. split; auto. intros k t Ht. apply C. lia. Qed.

  Lemma visible_dset (b : book K V) k v t0 k' t : visible eqK timeout (dset eqK b k (v, t0)) k' t =
    if eqK k' k then (if t <=? t0 + timeout then Some v else None) else visible eqK timeout b k' t.
  Proof.
    unfold visible. destruct (eqK k' k) eqn:E.
    - apply Heqb in E. subst. rewrite (dget_dset_eq Heqb). auto.
    - apply (eqb_false_iff Heqb) in E. rewrite (dget_dset_neq Heqb) by auto. auto.
  Qed.
  Lemma visible_ddel (b : book K V) k k' t : dwf b -> visible eqK timeout (ddel eqK b k) k' t =
    if eqK k' k then None else visible eqK timeout b k' t.
  Proof.
    intros W. unfold visible. destruct (eqK k' k) eqn:E.
    - apply Heqb in E. subst. rewrite (dget_ddel_eq Heqb); auto.
    - apply (eqb_false_iff Heqb) in E. rewrite (dget_ddel_neq Heqb) by auto. auto.
  Qed.

  Lemma visible_decr (b : book K V) k t t' : t <= t' -> visible eqK timeout b k t = None -> visible eqK timeout b k t' = None.
  Proof.
    unfold visible. intros H. destruct (dg b k) as [[v t0]|]; auto.
    destruct (Z.leb_spec t (t0 + timeout)); [discriminate|].
    intros _. rewrite (proj2 (Z.leb_gt t' (t0 + timeout))) by lia. auto.
  Qed.

  Lemma agree_step b p T o : agree b p T -> T <= fst (readings o) -> fst (readings o) <= snd (readings o) ->
    agree (book_after eqK timeout b o) (swept eqK timeout p o) (snd (readings o)).
  Proof.
    intros A H1 H2. destruct A as (W1 & W2 & A).
    assert (Hset : forall k v t0 T', T <= T' -> agree (dset eqK b k (v, t0)) (dset eqK p k (v, t0)) T').
    { intros k v t0 T' HT. split; [apply dset_wf; auto|]. split; [apply dset_wf; auto|].
      intros k' t Ht. rewrite !visible_dset. rewrite A by lia. auto. }
    assert (Hdel : forall k T', T <= T' -> agree (ddel eqK b k) (ddel eqK p k) T').
    { intros k T' HT. split; [apply ddel_wf; auto|]. split; [apply ddel_wf; auto|].
      intros k' t Ht. rewrite !visible_ddel by auto. rewrite A by lia. auto. }
    assert (Hsame : forall T', T <= T' -> agree b p T').
    { intros T' HT. apply agree_later with T; auto. split; auto. }
    assert (Hsweep : forall T', T <= T' -> agree b (filter (fun e => T' <=? snd (snd e) + timeout) p) T').
    { intros T' HT. split; auto. split; [apply filter_wf; auto|].
      intros k' t Ht. rewrite A by lia. unfold visible. rewrite (dget_filter Heqb) by auto.
      destruct (dg p k') as [[v t0]|]; auto. simpl.
      destruct (Z.leb_spec t (t0 + timeout)), (Z.leb_spec T' (t0 + timeout)); auto; try lia.
      - rewrite (proj2 (Z.leb_le t (t0 + timeout))) by lia. auto.
      - rewrite (proj2 (Z.leb_gt t (t0 + timeout))) by lia. auto. }
    destruct o as [k t|k d t|k v t|k t|k t|k v t t2|k t|t|t|t|k t];
      cbn beta iota delta [swept book_after readings fst snd] in *; auto.
    - rewrite <- (A k t) by lia. destruct (visible eqK timeout b k t); auto.
    - rewrite <- (A k t) by lia. destruct (visible eqK timeout b k t); auto.
    - rewrite <- (A k t) by lia. destruct (visible eqK timeout b k t); [apply Hsame; lia|apply Hset; lia].
    - destruct (visible eqK timeout p k t) eqn:Ev; auto.
      split; auto. split; [apply ddel_wf; auto|]. intros k' t' Ht'. rewrite A by lia. rewrite visible_ddel by auto.
      destruct (eqK k' k) eqn:E; auto. apply Heqb in E. subst k'. eapply visible_decr; eauto.
  Qed.

  Lemma answer_agree b p T o out : agree b p T -> T <= fst (readings o) -> fst (readings o) <= snd (readings o) ->
    (match o with EGetTimestamp _ _ => False | _ => True end) ->
    ex_answer eqK timeout p o out -> ex_answer eqK timeout b o out.
  Proof.
    intros (W1 & W2 & A) H1 H2 Hn H.
    assert (Hv : forall t l, T <= t -> visible_keys eqK timeout p t l -> visible_keys eqK timeout b t l).
    { intros t l Ht [N Hl]. split; auto. intros k. rewrite Hl, A by auto. tauto. }
    destruct o as [k t|k d t|k v t|k t|k t|k v t t2|k t|t|t|t|k t];
      cbn beta iota delta [ex_answer readings fst snd] in *; try rewrite A by lia; auto; try contradiction.
    - destruct H as (l & Hl & ->). eauto.
    - destruct H as (l & Hl & ->). eauto.
  Qed.

  Lemma ex_run_ok ops : forall s b p late T, eInv s p late T -> agree b p T -> clock_ok T ops ->
    ex_safe_session eqK timeout p late ops = true ->
    ex_session eqK timeout b ops (fst (ex_run ltK eqK timeout s ops)).
  Proof.
    induction ops as [|o t IH]; intros s b p late T I A Hc Hs; simpl in *.
    - constructor.
    - destruct Hc as (H1 & H2 & H3). apply andb_true_iff in Hs. destruct Hs as [Hs1 Hs2].
      pose proof (@ex_step_ok s p late T o I H1 H2 Hs1) as Hst.
      destruct (ex_step ltK eqK timeout s o) as [s1 out]. destruct Hst as [An I1].
      specialize (IH s1 _ _ _ _ I1 (@agree_step b p T o A H1 H2) H3 Hs2).
      destruct (ex_run ltK eqK timeout s1 t) as [outs s2].
      simpl. constructor; auto. eapply answer_agree; eauto. destruct o; auto. discriminate.
  Qed.

  Lemma ex_session_ok (ops : list (ex_op K V)) T : clock_ok T ops -> ex_safe_session eqK timeout [] [] ops = true ->
    ex_session eqK timeout [] ops (fst (ex_run ltK eqK timeout ex_init ops)).
  Proof.
    intros Hc Hs. eapply ex_run_ok; eauto.
    2: { split; [constructor|split; [constructor|auto]]. }
    split; [|split; [|split]].
    - split; [apply heapFrom_nil|split; [constructor|split; [constructor|]]]. simpl. intros v t. split; [discriminate|tauto].
    - constructor.
    - constructor.
    - intros k. unfold status. simpl. auto.
  Qed.
End ExpiringProofs.
