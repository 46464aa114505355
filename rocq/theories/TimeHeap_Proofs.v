From Verif Require Import Prelude PreludeFacts Order_Spec Heapq_Model Heapq_Proofs Heap_Model Heap_Proofs
  TimeHeap_Model TimeHeap_Spec.

Set Implicit Arguments.

Section TimeHeapProofs.
  Context {V : Type}.
  Variable ltV : V -> V -> bool.
  Variable eqV : V -> V -> bool.
  Variable sub1 : V -> res V.
  Hypothesis Hord : total_preorder ltV.
  Hypothesis Heqb : eqb_ok eqV.
  Local Notation ltE := (ltE ltV eqV).
  Local Notation heapFrom := (heapFrom ltE).

  Lemma ltE_ord : total_preorder ltE.
  Proof.
    assert (Hself : forall a, ltV a a = false).
    { intros a. destruct (ltV a a) eqn:E; auto. pose proof (proj1 Hord _ _ E). congruence. }
    assert (HE : forall p q, ltE p q = if Z.eqb (fst p) (fst q) then ltV (snd p) (snd q)
                                     else Z.ltb (fst p) (fst q)).
    { intros p q. unfold TimeHeap_Model.ltE. destruct (Z.eqb (fst p) (fst q)); auto.
      destruct (eqV (snd p) (snd q)) eqn:E; auto. apply Heqb in E. rewrite E. auto. }
    split.
    - intros a b. rewrite !HE. destruct (Z.eqb_spec (fst a) (fst b)) as [e|e];
        destruct (Z.eqb_spec (fst b) (fst a)) as [e'|e']; try congruence.
      + apply Hord.
      + rewrite Z.ltb_lt, Z.ltb_ge. lia.
    - intros a b c. rewrite !HE.
      destruct (Z.eqb_spec (fst b) (fst a)) as [e1|e1];
      destruct (Z.eqb_spec (fst c) (fst b)) as [e2|e2];
      destruct (Z.eqb_spec (fst c) (fst a)) as [e3|e3]; try lia; rewrite ?Z.ltb_ge; try lia.
      apply Hord.
  Qed.

  Lemma ltE_fst p q : ltE p q = false -> (fst q <= fst p)%Z.
  Proof.
    unfold TimeHeap_Model.ltE. destruct (Z.eqb_spec (fst p) (fst q)); [lia|].
    rewrite Z.ltb_ge. lia.
  Qed.

  Lemma min_fst m l : minimum_of ltE m l -> forall e, In e l -> (fst m <= fst e)%Z.
  Proof. intros H e He. apply ltE_fst. apply H; auto. Qed.

  Section Loop.
    Variable S : Type.
    Variable data_of : S -> list (entry V).
    Variable pop : S -> S * res (entry V).
    Variable Inv : S -> Prop.
    Hypothesis Inv_heap : forall s, Inv s -> heapFrom 0 (data_of s).
    Hypothesis Hpop : forall s e, Inv s -> nth_error (data_of s) 0 = Some e ->
      exists s', pop s = (s', Ok e) /\ Inv s' /\ Permutation (data_of s) (e :: data_of s').

    Lemma pop_less_ok t n : forall s, Inv s ->
      exists s' l, pop_less_loop data_of pop t n s = (s', l, None) /\ Inv s' /\
                   due_popped (data_of s) t n l (data_of s').
    Proof.
      induction n as [|n IH]; intros s Hs; cbn [pop_less_loop].
      - exists s, []. split; auto. split; auto. unfold due_popped. simpl.
        repeat split; auto; try tauto; intros; simpl in *; try tauto; lia.
      - destruct (data_of s) as [|e r] eqn:E.
        + exists s, []. split; auto. split; auto. unfold due_popped. simpl. rewrite E.
          repeat split; auto; try tauto; intros; simpl in *; try tauto; lia.
        + assert (Hmin : minimum_of ltE e (data_of s)).
          { eapply heap_root_min; [apply ltE_ord|apply Inv_heap; auto|rewrite E; auto]. }
          destruct (Z.leb_spec t (fst e)) as [Hle|Hlt].
          * exists s, []. split; auto. split; auto. rewrite <- E. unfold due_popped. simpl.
            repeat split; auto; try tauto; try (intros; lia).
            intros _ e' He'. pose proof (min_fst Hmin e' He'). lia.
          * destruct (Hpop (s := s) (e := e) Hs) as (s1 & Ep & I1 & P1); [rewrite E; auto|].
            rewrite Ep. destruct (IH s1 I1) as (s2 & l & El & I2 & D1 & D2 & D3 & D4 & D5 & D6).
            rewrite El. exists s2, (e :: l). split; auto. split; auto. rewrite <- E.
            assert (Hm : forall e', In e' (l ++ data_of s2) -> (fst e <= fst e')%Z).
            { intros e' He'. apply (min_fst Hmin). rewrite P1. right. rewrite D1. auto. }
            unfold due_popped. simpl. repeat split.
            -- rewrite P1, D1. reflexivity.
            -- intros e' He'. apply Hm. apply in_app_iff; auto.
            -- auto.
            -- intros e' [<-|He']; auto.
            -- intros e1 e2 [<-|H1] H2; auto. apply Hm. apply in_app_iff; auto.
            -- lia.
            -- intros H. apply D6. lia.
    Qed.
  End Loop.

  Lemma heap_pop_root s e : heapFrom 0 s -> nth_error s 0 = Some e ->
    exists s', heap_pop ltE s = (s', Ok e) /\ heapFrom 0 s' /\ Permutation s (e :: s').
  Proof.
    intros HF He. unfold heap_pop. destruct (heappop ltE s) as [[m d]|] eqn:E.
    - destruct (heappop_spec ltE_ord HF E) as (P & HF' & _ & Hr). rewrite Hr in He.
      injection He as <-. eauto.
    - apply heappop_None in E. subst. discriminate.
  Qed.

  Lemma find_ts t d i : find_index (fun e : entry V => Z.eqb (fst e) t) d = Some i ->
    exists v, nth_error d i = Some (t, v).
  Proof.
    intros H. destruct (find_index_Some _ _ H) as ([t' v] & H1 & H2 & _). simpl in H2.
    apply Z.eqb_eq in H2. subst. eauto.
  Qed.
  Lemma find_item v d i : find_index (fun e : entry V => eqV (snd e) v) d = Some i ->
    exists t, nth_error d i = Some (t, v).
  Proof.
    intros H. destruct (find_index_Some _ _ H) as ([t v'] & H1 & H2 & _). simpl in H2.
    apply Heqb in H2. subst. eauto.
  Qed.

  Lemma filter_partition (p : entry V -> bool) l :
    Permutation l (filter (fun e => negb (p e)) l ++ filter p l).
  Proof.
    induction l as [|x l IH]; simpl; auto. destruct (p x); simpl.
    - etransitivity; [|apply Permutation_middle]. constructor; auto.
    - constructor; auto.
  Qed.

  Lemma th_step_ok b d o :
    time_bag_safe o = true -> Permutation b d -> heapFrom 0 d ->
    let '(d', out) := th_step ltV eqV sub1 d o in
    time_bag_step b o out d' /\ heapFrom 0 d'.
  Proof.
    intros Hsafe P HF. pose proof (Permutation_sym P) as P'.
    destruct o as [ts v|now v| |t n|t|v|v| | |v| | ]; simpl; try discriminate Hsafe.
    - destruct (heappush_spec ltE_ord (ts, v) HF) as [P1 H1]. split; auto. constructor.
      unfold heap_push. rewrite P1, P. reflexivity.
    - destruct (heappush_spec ltE_ord (now, v) HF) as [P1 H1]. split; auto. constructor.
      unfold heap_push. rewrite P1, P. reflexivity.
    - unfold heap_pop. destruct (heappop ltE d) as [[m d']|] eqn:E.
      + destruct (heappop_spec ltE_ord HF E) as (P1 & HF' & Hm & _). split; auto. constructor.
        * rewrite P; auto.
        * intros e' He'. apply (min_fst Hm). rewrite <- P; auto.
      + apply heappop_None in E. subst. apply Permutation_nil in P'. split; auto.
        constructor; auto.
    - destruct (@pop_less_ok _ (fun d => d) (heap_pop ltE) (heapFrom 0)) with (t:=t) (n:=n) (s:=d)
        as (d' & l & El & HF' & D); auto.
      + intros s e Hs He. destruct (heap_pop_root Hs He) as (s' & E1 & E2 & E3). eauto.
      + rewrite El. simpl. split; auto. constructor.
        destruct D as (D1 & D2). split; auto. rewrite P; auto.
    - unfold th_pop_timestamp. destruct (find_index (fun e => Z.eqb (fst e) t) d) as [i|] eqn:E.
      + destruct (find_ts _ _ E) as [v Hv]. rewrite Hv.
        destruct (heapify_spec ltE_ord (del_nth i d)) as [P1 H1]. split; auto. constructor.
        rewrite P, P1. symmetry. apply del_nth_perm; auto.
      + split; auto. constructor; auto. intros v Hin.
        pose proof (proj1 (find_index_None _ _) E (t, v)) as H. simpl in H.
        rewrite Z.eqb_refl in H. rewrite P in Hin. specialize (H Hin). discriminate.
    - unfold th_pop_item. destruct (find_index (fun e => eqV (snd e) v) d) as [i|] eqn:E.
      + destruct (find_item _ _ E) as [t Hv]. rewrite Hv.
        destruct (heapify_spec ltE_ord (del_nth i d)) as [P1 H1]. split; auto. constructor.
        rewrite P, P1. symmetry. apply del_nth_perm; auto.
      + split; auto. constructor; auto. intros ts Hin.
        pose proof (proj1 (find_index_None _ _) E (ts, v)) as H. simpl in H.
        rewrite (eqb_refl' Heqb) in H. rewrite P in Hin. specialize (H Hin). discriminate.
    - unfold th_remove, heap_filter_map.
      destruct (heapify_spec ltE_ord (filter (fun e => negb (eqV (snd e) v)) d)) as [P1 H1].
      split; auto. apply tb_remove with (removed := filter (fun e => eqV (snd e) v) d).
      + rewrite P, P1. etransitivity; [apply (filter_partition (fun e => eqV (snd e) v))|].
        apply Permutation_app_comm.
      + intros e He. apply filter_In in He. destruct He as [_ He]. apply Heqb; auto.
      + intros e He. rewrite P1 in He. apply filter_In in He. destruct He as [_ He].
        apply negb_true_iff in He. apply (eqb_false_iff Heqb) in He. auto.
    - destruct d as [|e d'].
      + apply Permutation_nil in P'. split; auto. constructor; auto.
      + split; auto. assert (Hm : minimum_of ltE e (e :: d')).
        { eapply heap_root_min; [apply ltE_ord|exact HF|reflexivity]. }
        apply tb_peek; auto.
        * rewrite P. left; auto.
        * intros e' He'. apply (min_fst Hm). rewrite <- P; auto.
    - split; auto. constructor; auto. apply Permutation_map; auto.
    - split; auto. rewrite (Permutation_length P'). constructor; auto.
  Qed.

  Lemma th_run_ok ops : forall b d,
    forallb time_bag_safe ops = true -> Permutation b d -> heapFrom 0 d ->
    exists b', time_bag_session b ops (fst (th_run ltV eqV sub1 d ops)) b' /\
               Permutation b' (snd (th_run ltV eqV sub1 d ops)).
  Proof.
    induction ops as [|o t IH]; intros b d Hsafe P HF; simpl in *.
    - exists b. split; auto. constructor.
    - apply andb_true_iff in Hsafe. destruct Hsafe as [S1 S2].
      pose proof (@th_step_ok b d o S1 P HF) as Hs.
      destruct (th_step ltV eqV sub1 d o) as [d1 out]. destruct Hs as [Hs HF1].
      destruct (IH d1 d1 S2 (Permutation_refl _) HF1) as (b' & Hr & Pr).
      destruct (th_run ltV eqV sub1 d1 t) as [outs d2] eqn:E. simpl in *.
      exists b'. split; auto. econstructor; eauto.
  Qed.

  Lemma heapFrom_nil : heapFrom 0 [].
  Proof. intros i Hi Hp a b Ha Hb. destruct i; discriminate. Qed.

  Lemma time_heap_session_ok ops :
    forallb time_bag_safe ops = true ->
    exists b', time_bag_session [] ops (fst (th_run ltV eqV sub1 [] ops)) b' /\
               Permutation b' (snd (th_run ltV eqV sub1 [] ops)).
  Proof. intros H. apply th_run_ok; auto. apply heapFrom_nil. Qed.

  (** ** the set variant *)
  Definition tInv (s : tsh V) : Prop :=
    heapFrom 0 (ts_data s) /\ NoDup (map snd (ts_data s)) /\ dwf (ts_map s) /\
    (forall v t, dget eqV (ts_map s) v = Some t <-> In (t, v) (ts_data s)).

  Lemma NoDup_snd_In l (t t' : Z) (v : V) :
    NoDup (map snd l) -> In (t, v) l -> In (t', v) l -> t = t'.
  Proof.
    induction l as [|[a b] l IH]; simpl; intros ND; [tauto|]. inversion ND; subst.
    intros [H|H] [H'|H'].
    - congruence.
    - injection H as <- <-. elim H1. apply in_map_iff. exists (t', b). auto.
    - injection H' as <- <-. elim H1. apply in_map_iff. exists (t, b). auto.
    - auto.
  Qed.

  (** removing entry [e] from list and map keeps the invariant *)
  Lemma tInv_remove s e d' :
    tInv s -> Permutation (ts_data s) (e :: d') -> heapFrom 0 d' ->
    tInv {| ts_data := d'; ts_map := ddel eqV (ts_map s) (snd e) |} /\
    dmem eqV (ts_map s) (snd e) = true.
  Proof.
    intros (I1 & I2 & I3 & I4) P HF. destruct e as [t v].
    assert (ND : NoDup (map snd ((t, v) :: d'))).
    { eapply Permutation_NoDup; [|exact I2]. apply Permutation_map; auto. }
    simpl in ND. inversion ND as [|? ? Hn ND']; subst. split.
    - split; [auto|split; [auto|split]]; simpl.
      + apply ddel_wf; auto.
      + intros v' t'. destruct (eqb_dec Heqb v' v) as [->|Hne].
        * rewrite (dget_ddel_eq Heqb _ I3). split; [discriminate|]. intros H. elim Hn.
          apply in_map_iff. exists (t', v). auto.
        * rewrite (dget_ddel_neq Heqb) by auto. rewrite I4, P. simpl. split; auto.
          intros [H|H]; auto. congruence.
    - unfold dmem. assert (H : In (t, v) (ts_data s)) by (rewrite P; left; auto).
      apply I4 in H. simpl. rewrite H. auto.
  Qed.

  Lemma tInv_absent s v : tInv s -> dmem eqV (ts_map s) v = false -> forall t, ~ In (t, v) (ts_data s).
  Proof.
    intros (_ & _ & _ & I4) H t Hin. apply I4 in Hin. unfold dmem in H. rewrite Hin in H. discriminate.
  Qed.

  Lemma tsh_pop_item_ok s v :
    tInv s ->
    (exists t s', tsh_pop_item ltV eqV s v = (s', Ok (t, v)) /\ tInv s' /\
                  Permutation (ts_data s) ((t, v) :: ts_data s')) \/
    (tsh_pop_item ltV eqV s v = (s, Err ValueError) /\ forall t, ~ In (t, v) (ts_data s)).
  Proof.
    intros I. unfold tsh_pop_item.
    destruct (find_index (fun e => eqV (snd e) v) (ts_data s)) as [i|] eqn:E.
    - left. destruct (find_item _ _ E) as [t Hv]. rewrite Hv.
      destruct (heapify_spec ltE_ord (del_nth i (ts_data s))) as [P1 H1].
      assert (P : Permutation (ts_data s) ((t, v) :: heapify ltE (del_nth i (ts_data s)))).
      { rewrite P1. symmetry. apply del_nth_perm; auto. }
      destruct (tInv_remove I P H1) as [I' Hm]. simpl in *. rewrite Hm.
      eexists t, _. split; [reflexivity|]. split; auto.
    - right. split; auto. intros t Hin.
      pose proof (proj1 (find_index_None _ _) E (t, v) Hin) as H. simpl in H.
      rewrite (eqb_refl' Heqb) in H. discriminate.
  Qed.

  Lemma tsh_push_ok s t v :
    tInv s -> exists s', tsh_push ltV eqV s (t, v) = (s', None) /\ tInv s' /\
      (forall e, In e (ts_data s') <-> e = (t, v) \/ (In e (ts_data s) /\ snd e <> v)).
  Proof.
    intros I. unfold tsh_push. cbn [snd fst].
    assert (Hfresh : forall s1, tInv s1 -> (forall t, ~ In (t, v) (ts_data s1)) ->
      tInv {| ts_data := heap_push ltE (ts_data s1) (t, v); ts_map := dset eqV (ts_map s1) v t |} /\
      (forall e, In e (heap_push ltE (ts_data s1) (t, v)) <-> e = (t, v) \/ In e (ts_data s1))).
    { intros s1 (I1 & I2 & I3 & I4) Hn.
      destruct (heappush_spec ltE_ord (t, v) I1) as [P1 H1].
      assert (Hin : forall e, In e (heap_push ltE (ts_data s1) (t, v)) <-> e = (t, v) \/ In e (ts_data s1)).
      { intros e. unfold heap_push. rewrite P1. simpl. intuition. }
      split; auto. split; [auto|split; [|split]]; simpl.
      - eapply Permutation_NoDup; [symmetry; apply Permutation_map; apply P1|]. simpl.
        constructor; auto. rewrite in_map_iff. intros ([t' v'] & H2 & H3). simpl in H2. subst.
        apply (Hn t'); auto.
      - apply dset_wf; auto.
      - intros v' t'. rewrite Hin. destruct (eqb_dec Heqb v' v) as [->|Hne].
        + rewrite (dget_dset_eq Heqb). split; [intros H; left; congruence|].
          intros [H|H]; [congruence|]. elim (Hn _ H).
        + rewrite (dget_dset_neq Heqb) by auto. rewrite I4. split; auto.
          intros [H|H]; auto. congruence. }
    destruct (dmem eqV (ts_map s) v) eqn:E.
    - destruct (tsh_pop_item_ok v I) as [(t0 & s1 & -> & I1 & P1)|[_ Hn]].
      + assert (Hn1 : forall t, ~ In (t, v) (ts_data s1)).
        { destruct I as (_ & ND & _ & _). intros t' Hin.
          assert (ND1 : NoDup (map snd ((t0, v) :: ts_data s1))).
          { eapply Permutation_NoDup; [|exact ND]. apply Permutation_map; auto. }
          simpl in ND1. inversion ND1 as [|? ? Hni _]; subst. apply Hni. apply in_map_iff.
          exists (t', v). auto. }
        destruct (Hfresh s1 I1 Hn1) as [I2 H2].
        eexists; split; [reflexivity|]. split; auto. intros e. cbn [ts_data]. rewrite H2.
        rewrite P1. simpl. split.
        * intros [->|H]; auto. right. split; auto. intros Heq. destruct e as [te ve]. simpl in Heq.
          subst. apply (Hn1 te); auto.
        * intros [->|[[<-|H] Hne]]; auto. elim Hne; auto.
      + apply dmem_In in E; auto. apply (dget_key_Some Heqb) in E. destruct E as [t0 E].
        destruct I as (_ & _ & _ & I4). apply I4 in E. elim (Hn _ E).
    - pose proof (tInv_absent _ I E) as Hn. destruct (Hfresh s I Hn) as [I2 H2].
      eexists; split; [reflexivity|]. split; auto. intros e. cbn [ts_data]. rewrite H2.
      split; [|tauto]. intros [->|H]; auto. right. split; auto. intros Heq. destruct e as [te ve].
      simpl in Heq. subst. apply (Hn te); auto.
  Qed.

  Lemma tsh_pop_ok s e : tInv s -> nth_error (ts_data s) 0 = Some e ->
    exists s', tsh_pop ltV eqV s = (s', Ok e) /\ tInv s' /\ Permutation (ts_data s) (e :: ts_data s').
  Proof.
    intros I He. unfold tsh_pop. destruct (heappop ltE (ts_data s)) as [[m d]|] eqn:E.
    - destruct (heappop_spec ltE_ord (proj1 I) E) as (P & HF' & _ & Hr). rewrite Hr in He.
      injection He as ->. destruct (tInv_remove I P HF') as [I' Hm]. rewrite Hm. eauto.
    - apply heappop_None in E. rewrite E in He. discriminate.
  Qed.

  Lemma tsh_step_ok b s o :
    time_set_safe o = true -> Permutation b (ts_data s) -> tInv s ->
    let '(s', out) := tsh_step ltV eqV s o in
    time_set_step b o out (ts_data s') /\ tInv s'.
  Proof.
    intros Hsafe P I. pose proof (Permutation_sym P) as P'.
    destruct o as [ts v|now v| |t n|t|v|v| | |v| | ]; simpl; try discriminate Hsafe.
    - destruct (tsh_push_ok ts v I) as (s' & -> & I' & H). split; auto. constructor.
      intros e. rewrite H, P. tauto.
    - destruct (tsh_push_ok now v I) as (s' & -> & I' & H). split; auto. constructor.
      intros e. rewrite H, P. tauto.
    - destruct (nth_error (ts_data s) 0) as [e|] eqn:E.
      + destruct (tsh_pop_ok I E) as (s' & -> & I' & P1). split; auto. constructor.
        * rewrite P; auto.
        * assert (Hm : minimum_of ltE e (ts_data s)).
          { eapply heap_root_min; [apply ltE_ord|apply I|exact E]. }
          intros e' He'. apply (min_fst Hm). rewrite <- P; auto.
      + assert (Hd : ts_data s = []) by (destruct (ts_data s); [auto|discriminate]).
        unfold tsh_pop. rewrite Hd in *. simpl. apply Permutation_nil in P'.
        rewrite Hd. split; auto. constructor; auto.
    - destruct (@pop_less_ok _ (@ts_data V) (tsh_pop ltV eqV) tInv) with (t:=t) (n:=n) (s:=s)
        as (d' & l & El & HF' & D); auto.
      + intros s0 I0; apply I0.
      + intros s0 e Hs He. apply tsh_pop_ok; auto.
      + rewrite El. simpl. split; auto. constructor.
        destruct D as (D1 & D2). split; auto. rewrite P; auto.
    - unfold tsh_pop_timestamp.
      destruct (find_index (fun e => Z.eqb (fst e) t) (ts_data s)) as [i|] eqn:E.
      + destruct (find_ts _ _ E) as [v Hv]. rewrite Hv.
        destruct (heapify_spec ltE_ord (del_nth i (ts_data s))) as [P1 H1].
        assert (P2 : Permutation (ts_data s) ((t, v) :: heapify ltE (del_nth i (ts_data s)))).
        { rewrite P1. symmetry. apply del_nth_perm; auto. }
        destruct (tInv_remove I P2 H1) as [I' Hm]. cbn [snd] in *. rewrite Hm. split; auto.
        constructor. rewrite P; auto.
      + split; auto. constructor; auto. intros v Hin.
        pose proof (proj1 (find_index_None _ _) E (t, v)) as H. simpl in H.
        rewrite Z.eqb_refl in H. rewrite P in Hin. specialize (H Hin). discriminate.
    - destruct (tsh_pop_item_ok v I) as [(t & s1 & -> & I1 & P1)|[-> Hn]].
      + split; auto. constructor. rewrite P; auto.
      + split; auto. constructor; auto. intros ts. rewrite P. apply Hn.
    - split; auto. constructor; auto. apply Permutation_map; auto.
    - destruct (dget eqV (ts_map s) v) as [t|] eqn:E.
      + split; auto. constructor; auto. apply I in E. rewrite P; auto.
      + split; auto. constructor; auto. intros t. rewrite P. intros H. apply I in H. congruence.
    - split; auto. rewrite (Permutation_length P'). constructor; auto.
  Qed.

  Lemma tsh_run_ok ops : forall b s,
    forallb time_set_safe ops = true -> Permutation b (ts_data s) -> tInv s ->
    exists b', time_set_session b ops (fst (tsh_run ltV eqV s ops)) b' /\
               Permutation b' (ts_data (snd (tsh_run ltV eqV s ops))).
  Proof.
    induction ops as [|o t IH]; intros b s Hsafe P I; simpl in *.
    - exists b. split; auto. constructor.
    - apply andb_true_iff in Hsafe. destruct Hsafe as [S1 S2].
      pose proof (@tsh_step_ok b s o S1 P I) as Hs.
      destruct (tsh_step ltV eqV s o) as [s1 out]. destruct Hs as [Hs I1].
      destruct (IH (ts_data s1) s1 S2 (Permutation_refl _) I1) as (b' & Hr & Pr).
      destruct (tsh_run ltV eqV s1 t) as [outs s2] eqn:E. simpl in *.
      exists b'. split; auto. econstructor; eauto. apply I1.
  Qed.

  Lemma time_set_session_ok ops :
    forallb time_set_safe ops = true ->
    exists b', time_set_session [] ops (fst (tsh_run ltV eqV (tsh_init) ops)) b' /\
               Permutation b' (ts_data (snd (tsh_run ltV eqV (tsh_init) ops))).
  Proof.
    intros H. apply tsh_run_ok; auto.
    split; [apply heapFrom_nil|split; [constructor|split; [constructor|]]].
    simpl. intros v t. split; [discriminate|tauto].
  Qed.
End TimeHeapProofs.
