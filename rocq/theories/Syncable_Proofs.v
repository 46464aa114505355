From Verif Require Import Prelude PreludeFacts Syncable_Model Syncable_Spec.
Open Scope Z_scope.

Section SyncableProofs.
  Context {V : Type}.
  Notation E := (Z * V)%type.
  Variables span_mem span_db : Z.
  Hypothesis Hmem : 0 < span_mem.
  Hypothesis Hdb : span_mem < span_db.

  Lemma incr_app (a b : list E) : increasing (a ++ b) <->
    increasing a /\ increasing b /\ forall x y, In x a -> In y b -> fst x < fst y.
  Proof.
    induction a as [|e t IH]; simpl.
    - split; [intros H; split; [auto|split; [auto|intros x y []]]|tauto].
    - rewrite IH. split.
      + intros (H1 & H2 & H3 & H4). split; [split; auto; intros; apply H1; apply in_app_iff; auto|]. split; auto.
        intros x y [<-|Hx] Hy; [apply H1; apply in_app_iff; auto|auto].
      + intros ((H1 & H2) & H3 & H4). split.
        * intros e' He. apply in_app_iff in He. destruct He; auto.
        * split; auto.
  Qed.
  Lemma incr_filter p (l : list E) : increasing l -> increasing (filter p l).
  Proof.
    induction l as [|e t IH]; simpl; auto. intros [H1 H2]. destruct (p e); simpl; auto.
    split; auto. intros e' He. apply filter_In in He. apply H1; tauto.
  Qed.

  Lemma db_put_end (db : list E) k v : (forall e, In e db -> fst e < k) -> db_put db k v = db ++ [(k, v)].
  Proof.
    induction db as [|[k' v'] t IH]; simpl; auto. intros H.
    assert (L : k' < k) by (apply (H (k', v')); auto).
    destruct (Z.ltb_spec k k'); [lia|]. destruct (Z.eqb_spec k k'); [lia|]. rewrite IH; auto.
  Qed.
  Lemma db_put_all_app (l : list E) : forall db, increasing (db ++ l) -> db_put_all db l = db ++ l.
  Proof.
    induction l as [|[k v] t IH]; simpl; intros db H.
    - rewrite app_nil_r. auto.
    - rewrite db_put_end.
      + rewrite IH; rewrite <- app_assoc; auto.
      + intros e He. apply incr_app in H. destruct H as (_ & _ & H). apply (H e (k, v)); simpl; auto.
  Qed.

  Lemma filter_all {A} p (l : list A) : (forall x, In x l -> p x = true) -> filter p l = l.
  Proof. induction l as [|x t IH]; simpl; auto. intros H. rewrite H by auto. f_equal. auto. Qed.
  Lemma filter_none {A} p (l : list A) : (forall x, In x l -> p x = false) -> filter p l = [].
  Proof. induction l as [|x t IH]; simpl; auto. intros H. rewrite H by auto. auto. Qed.

  Lemma split_at_ok c (l : list E) : forall before, increasing l -> (exists e, In e l /\ c < fst e) ->
    split_at c before l = Some (before ++ filter (fun e => fst e <=? c) l, filter (fun e => c <? fst e) l).
  Proof.
    induction l as [|[k v] t IH]; simpl; intros before H (e & He & Hc); [tauto|]. destruct H as [H1 H2].
    destruct (Z.ltb_spec c k) as [L|L].
    - destruct (Z.leb_spec k c); [lia|].
      rewrite filter_none, app_nil_r by (intros x Hx; apply H1 in Hx; simpl in Hx; apply Z.leb_gt; lia).
      rewrite filter_all by (intros x Hx; apply H1 in Hx; simpl in Hx; apply Z.ltb_lt; lia). auto.
    - destruct (Z.leb_spec k c); [|lia]. rewrite IH; auto.
      + rewrite <- app_assoc. auto.
      + destruct He as [<-|He]; [simpl in Hc; lia|eauto].
  Qed.

  Lemma filter_split c (l : list E) : increasing l ->
    filter (fun e => fst e <=? c) l ++ filter (fun e => c <? fst e) l = l.
  Proof.
    induction l as [|[k v] t IH]; simpl; auto. intros [H1 H2].
    destruct (Z.leb_spec k c) as [L|L], (Z.ltb_spec c k) as [L2|L2]; try lia; simpl.
    - rewrite IH; auto.
    - rewrite filter_none by (intros x Hx; apply H1 in Hx; simpl in Hx; apply Z.leb_gt; lia). simpl.
      rewrite filter_all by (intros x Hx; apply H1 in Hx; simpl in Hx; apply Z.ltb_lt; lia). auto.
  Qed.

  Lemma between_ok a b (l : list E) : increasing l ->
    fst (between a b l) = filter (fun e => (a <=? fst e) && (fst e <=? b)) l /\
    (snd (between a b l) = true -> exists e, In e l /\ b < fst e).
  Proof.
    induction l as [|[k v] t IH]; simpl; [split; [auto|discriminate]|]. intros [H1 H2]. destruct (IH H2) as [A B].
    destruct (Z.ltb_spec k a); destruct (Z.leb_spec a k); try lia; simpl.
    - split; auto. intros H3. destruct (B H3) as (e & X & Y). exists e. auto.
    - destruct (Z.ltb_spec b k), (Z.leb_spec k b); try lia; simpl.
      + split.
        * symmetry. apply filter_none. intros x Hx. apply H1 in Hx. simpl in Hx.
          destruct (Z.leb_spec (fst x) b); [lia|]. apply andb_false_r.
        * intros _. exists (k, v). auto.
      + destruct (between a b t) as [r bb]. simpl in *. split; [f_equal; auto|]. intros H5.
        destruct (B H5) as (e & X & Y). exists e. auto.
  Qed.
  Lemma between_snd a b (l : list E) e : increasing l -> In e l -> a <= fst e -> b < fst e -> snd (between a b l) = true.
  Proof.
    induction l as [|[k v] t IH]; simpl; [tauto|]. intros [H1 H2] He Ha Hb.
    destruct (Z.ltb_spec k a).
    - destruct He as [<-|He]; [simpl in *; lia|auto].
    - destruct (Z.ltb_spec b k); auto. destruct (between a b t) as [r bb]. simpl in *.
      destruct He as [<-|He]; [simpl in *; lia|auto].
  Qed.

  Lemma last_of_app {A} (l : list A) x : last_of (l ++ [x]) = Some x.
  Proof.
    unfold last_of. rewrite app_length. simpl. rewrite nth_error_app2 by lia.
    replace (length l + 1 - 1 - length l)%nat with 0%nat by lia. auto.
  Qed.
  Lemma last_snoc {A} (l : list A) x d : last (l ++ [x]) d = x.
  Proof. induction l as [|y t IH]; simpl; auto. destruct t; simpl in *; auto. Qed.
  Lemma list_snoc {A} (l : list A) : l = [] \/ exists l' x, l = l' ++ [x].
  Proof.
    induction l as [|y t IH]; auto. right. destruct IH as [->|(l' & x & ->)].
    - exists [], y. auto.
    - exists (y :: l'), x. auto.
  Qed.

  Definition tight (t : series V) : Prop :=
    (volatile t = [] \/ exists l e, volatile t = l ++ [e] /\ highest t = Some (fst e)).
  Definition Inv (s : sd V) (t : series V) : Prop :=
    (sd_db s = durable t /\ sd_mem s = volatile t /\ sd_stop s = highest t /\ sd_synced s = mark t) /\
    increasing (kept t) /\
    (forall e, In e (kept t) -> exists h, highest t = Some h /\ fst e <= h) /\
    tight t /\
    match sd_start s with
    | None => kept t = [] /\ highest t = None
    | Some x => (forall e, In e (kept t) -> x <= fst e) /\ exists h, highest t = Some h /\ x <= h
    end /\
    (lost t = false -> sd_start s = key_of (first_of (kept t)) /\ highest t = key_of (last_of (kept t))).

  Lemma tight_last t e l : volatile t = e :: l -> tight t -> exists l' e', volatile t = l' ++ [e'] /\ highest t = Some (fst e').
  Proof. intros E0 [H|H]; [congruence|auto]. Qed.

  Lemma tight_last' t : volatile t <> [] -> tight t -> exists l' e', volatile t = l' ++ [e'] /\ highest t = Some (fst e').
  Proof. intros E0 [H|H]; [congruence|auto]. Qed.

  (** the loop of _cleanup_the_db *)
  Lemma cleanup_loop_ok c (l : list E) : forall s, sd_db s = l -> increasing l -> sd_mem s <> [] ->
    exists s' b, cleanup_db_loop c l s = (s', b) /\
      sd_db s' = filter (fun e => c <=? fst e) l /\ sd_mem s' = sd_mem s /\ sd_stop s' = sd_stop s /\ sd_synced s' = sd_synced s /\
      (if b then sd_db s' = [] /\ sd_start s' = first_key s else exists e t, sd_db s' = e :: t /\ sd_start s' = Some (fst e)).
  Proof.
    induction l as [|[k v] t IH]; simpl; intros s Es H Hm.
    - destruct (sd_mem s) as [|e m] eqn:Em; [congruence|]. do 2 eexists. split; [reflexivity|].
      unfold set_start, first_key; simpl. rewrite Em. repeat split; auto.
    - destruct H as [H1 H2]. destruct (Z.ltb_spec k c) as [L|L]; destruct (Z.leb_spec c k) as [L2|L2]; try lia.
      + destruct (IH (set_db s (db_delete (sd_db s) k))) as (s' & b & A & B & C & D & F & G); auto.
        * unfold set_db; simpl. rewrite Es. unfold db_delete. simpl. rewrite Z.eqb_refl. simpl.
          apply filter_all. intros x Hx. apply H1 in Hx. simpl in Hx. apply negb_true_iff. apply Z.eqb_neq. lia.
        * exists s', b. split; auto.
      + do 2 eexists. split; [reflexivity|]. unfold set_start; simpl.
        rewrite filter_all by (intros x Hx; apply H1 in Hx; simpl in Hx; apply Z.leb_le; lia).
        split; auto. split; auto. split; auto. split; auto. exists (k, v), t. auto.
  Qed.

  Lemma first_of_In {A} (l : list A) x : first_of l = Some x -> In x l.
  Proof. destruct l; simpl; [discriminate|]. intros [= ->]. auto. Qed.
  Lemma last_of_In {A} (l : list A) x : last_of l = Some x -> In x l.
  Proof. apply nth_error_In. Qed.
  Lemma last_of_app_r {A} (a b : list A) : b <> [] -> last_of (a ++ b) = last_of b.
  Proof.
    intros H. destruct (list_snoc b) as [->|(l & x & ->)]; [congruence|]. rewrite app_assoc, !last_of_app. auto.
  Qed.
  Lemma incr_last (l : list E) e x : increasing (l ++ [e]) -> In x (l ++ [e]) -> fst x <= fst e.
  Proof.
    intros H Hx. apply incr_app in H. destruct H as (_ & _ & H). apply in_app_iff in Hx.
    destruct Hx as [Hx|[<-|[]]]; [|lia]. specialize (H x e Hx (or_introl eq_refl)). lia.
  Qed.

  Lemma cleanup_db_S f (s : sd V) x e1 m1 stop : sd_start s = Some x -> sd_mem s = e1 :: m1 -> sd_stop s = Some stop ->
    sd_cleanup_db span_db (S f) s =
    if x =? fst e1 then
      match filter (fun e => stop - span_db <=? fst e) (sd_mem s) with
      | e :: _ => Some (set_start (set_mem s (filter (fun e => stop - span_db <=? fst e) (sd_mem s))) (Some (fst e)))
      | [] => Some (set_stop (set_start (set_mem s (filter (fun e => stop - span_db <=? fst e) (sd_mem s))) None) None)
      end
    else match cleanup_the_db span_db s with
         | (s', false) => Some s'
         | (s', true) => sd_cleanup_db span_db f s'
         end.
  Proof. intros E1 E2 E3. simpl. unfold first_key. rewrite E1, E2, E3. reflexivity. Qed.

  Lemma cleanup_db_ok s t : Inv s t -> exists s', sd_cleanup_db span_db 2 s = Some s' /\ Inv s' (after span_mem span_db t SCleanupDb).
  Proof.
    intros I. pose proof I as ((A1 & A2 & A3 & A4) & B & C & D & F & G).
    unfold after.
    destruct (volatile t) as [|e0 m0] eqn:Ev.
    { simpl. rewrite A2. exists s. destruct (sd_start s); (split; [auto|]); destruct (highest t); auto. }
    destruct (tight_last t e0 m0 Ev D) as (l & e & El & Eh). rewrite Eh.
    destruct (sd_start s) as [x|] eqn:Es; [|destruct F as [F _]; unfold kept in F; rewrite Ev in F; destruct (durable t); discriminate].
    rewrite <- Ev in *. clear e0 m0 Ev.
    set (c := fst e - span_db).
    assert (Vf : increasing (volatile t)) by (apply incr_app in B; apply B).
    assert (Df : increasing (durable t)) by (apply incr_app in B; apply B).
    assert (DV : forall a b, In a (durable t) -> In b (volatile t) -> fst a < fst b) by (apply incr_app in B; apply B).
    assert (Lc : c <= fst e) by (unfold c; lia).
    assert (Lm : filter (fun e => c <=? fst e) (volatile t) = filter (fun e => c <=? fst e) l ++ [e]).
    { rewrite El, filter_app. simpl. apply Z.leb_le in Lc. rewrite Lc. auto. }
    assert (K : forall s', sd_db s' = filter (fun e => c <=? fst e) (durable t) ->
                sd_mem s' = filter (fun e => c <=? fst e) (volatile t) -> sd_stop s' = Some (fst e) -> sd_synced s' = mark t ->
                sd_start s' = key_of (first_of (filter (fun e => c <=? fst e) (durable t) ++ filter (fun e => c <=? fst e) (volatile t))) ->
                Inv s' {| durable := filter (fun e => c <=? fst e) (durable t);
                          volatile := filter (fun e => c <=? fst e) (volatile t);
                          highest := Some (fst e); mark := mark t; lost := lost t |}).
    { intros s' H1 H2 H3 H4 H5.
      assert (Kf : filter (fun e => c <=? fst e) (durable t) ++ filter (fun e => c <=? fst e) (volatile t)
                   = filter (fun e => c <=? fst e) (kept t)) by (unfold kept; rewrite filter_app; auto).
      unfold Inv. unfold kept at 1 2 3 4 5 6. cbn [durable volatile highest mark lost]. split; [auto|].
      split; [rewrite Kf; apply incr_filter; auto|]. split.
      { intros x0 Hx. rewrite Kf in Hx. apply filter_In in Hx. destruct (C x0 (proj1 Hx)) as (h & Hh & L).
        rewrite Eh in Hh. injection Hh as <-. eauto. }
      split; [right; exists (filter (fun e => c <=? fst e) l), e; simpl; auto|]. split.
      - rewrite H5.
        assert (If : increasing (filter (fun e => c <=? fst e) (durable t) ++ filter (fun e => c <=? fst e) (volatile t)))
            by (rewrite Kf; apply incr_filter; auto).
        assert (Ne : filter (fun e => c <=? fst e) (durable t) ++ filter (fun e => c <=? fst e) (volatile t) <> []).
        { rewrite Lm. destruct (filter _ (durable t)); [destruct (filter _ l)|]; discriminate. }
        assert (Sb : forall y, In y (filter (fun e => c <=? fst e) (durable t) ++ filter (fun e => c <=? fst e) (volatile t)) -> fst y <= fst e).
        { intros y Hy. rewrite Kf in Hy. apply filter_In in Hy.
          destruct (C y (proj1 Hy)) as (h & Hh & L). rewrite Eh in Hh. injection Hh as <-. auto. }
        destruct (filter (fun e => c <=? fst e) (durable t) ++ filter (fun e => c <=? fst e) (volatile t)) as [|y r]; [congruence|].
        simpl. split.
        + intros x0 [<-|Hx]; [lia|]. apply If in Hx. lia.
        + exists (fst e). split; auto. apply Sb. simpl; auto.
      - intros _. split; auto. rewrite last_of_app_r by (rewrite Lm; destruct (filter _ l); discriminate).
        rewrite Lm, last_of_app. auto. }
    assert (Hc0 : exists e1 m1, volatile t = e1 :: m1) by (rewrite El; destruct l; simpl; eauto).
    destruct Hc0 as (e1 & m1 & E1). 
    assert (Em : sd_mem s = e1 :: m1) by congruence. assert (Est : sd_stop s = Some (fst e)) by congruence.
    rewrite (cleanup_db_S 1 s x e1 m1 (fst e) Es Em Est). fold c. rewrite A2.
    destruct F as [F _].
    destruct (Z.eqb_spec x (fst e1)) as [Ex|Ex].
    - (* the whole series is in memory *)
      assert (Dn : durable t = []).
      { destruct (durable t) as [|d r] eqn:Ed; auto. exfalso. 
        assert (x <= fst d) by (apply F; unfold kept; rewrite Ed; simpl; auto).
        assert (fst d < fst e1) by (apply DV; [simpl; auto|rewrite E1; simpl; auto]). lia. }
      assert (Hx : exists e2 m2, filter (fun e => c <=? fst e) (volatile t) = e2 :: m2) by (rewrite Lm; destruct (filter _ l); simpl; eauto).
      destruct Hx as (e2 & m2 & E2). eexists. split; [rewrite E2 at 1; reflexivity|]. apply K; simpl; auto.
      + rewrite A1, Dn. auto.
      + rewrite Dn. simpl. rewrite E2. auto.
    - unfold cleanup_the_db. rewrite Es, A3, Eh. fold c.
      assert (It : db_iterate (sd_db s) (Some x) = durable t).
      { simpl. rewrite A1. apply filter_all. intros y Hy. apply Z.leb_le. apply F. unfold kept. apply in_app_iff; auto. }
      rewrite It. destruct (cleanup_loop_ok c (durable t) s A1 Df) as (s' & b & L1 & L2 & L3 & L4 & L5 & L6).
      { rewrite A2, E1. discriminate. }
      rewrite L1. destruct b.
      + destruct L6 as [L6 L7]. unfold first_key in L7. rewrite A2, E1 in L7. simpl in L7.
        rewrite (cleanup_db_S 0 s' (fst e1) e1 m1 (fst e) L7 (eq_trans L3 Em) (eq_trans L4 Est)). fold c.
        rewrite Z.eqb_refl. rewrite L3, A2.
        assert (Hx : exists e2 m2, filter (fun e => c <=? fst e) (volatile t) = e2 :: m2) by (rewrite Lm; destruct (filter _ l); simpl; eauto).
        destruct Hx as (e2 & m2 & E2). eexists. split; [rewrite E2 at 1; reflexivity|]. apply K; simpl; auto.
        * congruence.
        * congruence.
        * rewrite <- L2, L6. simpl. rewrite E2. auto.
      + destruct L6 as (d & r & L6 & L7). eexists. split; [reflexivity|].
        assert (Mf : filter (fun e => c <=? fst e) (volatile t) = volatile t).
        { apply filter_all. intros y Hy. assert (Hd : In d (filter (fun e => c <=? fst e) (durable t))) by (rewrite <- L2, L6; simpl; auto).
          apply filter_In in Hd. destruct Hd as [Hd1 Hd2]. apply Z.leb_le in Hd2. specialize (DV d y Hd1 Hy). apply Z.leb_le. lia. }
        apply K; auto; try congruence. rewrite L7. rewrite <- L2, L6. auto.
  Qed.

  Lemma sync_to_db_ok s t : Inv s t -> Inv (sd_sync_to_db s) (after span_mem span_db t SSyncToDb).
  Proof.
    intros ((A1 & A2 & A3 & A4) & B & C & D & F & G). unfold after, sd_sync_to_db.
    unfold Inv, set_mem, set_db, kept; simpl. rewrite A1, A2. rewrite db_put_all_app by exact B. rewrite !app_nil_r.
    split; [auto|]. split; [auto|]. split; [auto|]. split; [left; auto|]. split; auto.
  Qed.

  Lemma cleanup_mem_ok s t : Inv s t -> Inv (sd_cleanup_mem span_mem s) (after span_mem span_db t SCleanupMem).
  Proof.
    intros I. pose proof I as ((A1 & A2 & A3 & A4) & B & C & D & F & G). unfold after, sd_cleanup_mem, first_key.
    rewrite A2, A3. destruct (volatile t) as [|e0 m0] eqn:Ev.
    - destruct (highest t) eqn:Eh; auto. simpl. rewrite app_nil_r.
      match goal with |- Inv s ?u => replace u with t; auto end.
      clear - Ev Eh. destruct t; simpl in *; congruence.
    - destruct (tight_last t e0 m0 Ev D) as (l & e & El & Eh). rewrite Eh. rewrite <- Ev.
      assert (Vf : increasing (volatile t)) by (apply incr_app in B; apply B).
      set (c := fst e - span_mem). assert (Lc : c < fst e) by (unfold c; lia).
      rewrite split_at_ok; auto. 2:{ exists e. split; [rewrite El; apply in_app_iff; simpl; auto|auto]. }
      simpl app.
      assert (Kf : (durable t ++ filter (fun e => fst e <=? c) (volatile t)) ++ filter (fun e => c <? fst e) (volatile t) = kept t).
      { rewrite <- app_assoc, filter_split by auto. auto. }
      assert (Ka : db_put_all (sd_db s) (filter (fun e => fst e <=? c) (volatile t)) = durable t ++ filter (fun e => fst e <=? c) (volatile t)).
      { rewrite A1. apply db_put_all_app. rewrite <- Kf in B. apply incr_app in B. apply B. }
      rewrite Ka. unfold Inv, set_mem, set_db; simpl. unfold kept; simpl. rewrite Kf.
      split; [rewrite A3, Eh; auto|]. split; [exact B|]. split; [rewrite <- Eh; exact C|]. split.
      { right. exists (filter (fun e => c <? fst e) l), e. simpl. split; auto. rewrite El, filter_app. simpl.
        apply Z.ltb_lt in Lc. rewrite Lc. auto. }
      rewrite <- Eh. auto.
  Qed.

  Lemma new_ok s t k v : Inv s t ->
    let '(s', out) := sd_step span_mem span_db s (SNew k v) in
    out = answer t (SNew k v) /\ Inv s' (after span_mem span_db t (SNew k v)).
  Proof.
    intros I. pose proof I as ((A1 & A2 & A3 & A4) & B & C & D & F & G). simpl. unfold sd_new, accepts. rewrite A3.
    assert (K : (forall h, highest t = Some h -> h < k) ->
                Inv (match sd_start s with
                     | None => set_start (set_stop (set_mem s (sd_mem s ++ [(k, v)])) (Some k)) (Some k)
                     | Some _ => set_stop (set_mem s (sd_mem s ++ [(k, v)])) (Some k)
                     end) {| durable := durable t; volatile := volatile t ++ [(k, v)]; highest := Some k; mark := mark t; lost := lost t |}).
    { intros Hk. unfold Inv. unfold kept at 1 2 3 4 5 6. cbn [durable volatile highest mark lost]. rewrite app_assoc. fold (kept t).
      assert (Lk : forall e, In e (kept t) -> fst e < k).
      { intros e He. destruct (C e He) as (h & Hh & L). apply Hk in Hh. lia. }
      split. { destruct (sd_start s); simpl; rewrite A2; auto. }
      split. { apply incr_app. split; auto. split; [simpl; tauto|]. intros x y Hx [<-|[]]. simpl. auto. }
      split. { intros e He. apply in_app_iff in He. exists k. split; auto. destruct He as [He|[<-|[]]]; [apply Lk in He; lia|simpl; lia]. }
      split. { right. exists (volatile t), (k, v). auto. }
      split.
      - destruct (sd_start s) as [x|] eqn:Es; simpl.
        + rewrite Es. destruct F as (F1 & h & Eh & F2). specialize (Hk h Eh). split; [|exists k; split; auto; lia].
          intros e He. apply in_app_iff in He. destruct He as [He|[<-|[]]]; [apply F1; auto|simpl; lia].
        + split; [|exists k; split; auto; lia]. destruct F as [F _]. rewrite F. intros e [<-|[]]. simpl. lia.
      - intros Hl. rewrite last_of_app. split; auto. destruct (G Hl) as [G1 G2].
        destruct (sd_start s) as [x|] eqn:Es; simpl.
        + rewrite Es. rewrite G1. destruct (kept t) as [|y r]; [discriminate|]. auto.
        + destruct F as [F _]. rewrite F. auto. }
    destruct (highest t) as [h|] eqn:Eh.
    - rewrite Z.leb_antisym. destruct (Z.ltb_spec h k); simpl; [|auto]. split; auto.
      destruct (sd_start s); apply K; intros h' [= <-]; auto.
    - simpl. split; auto. destruct (sd_start s); apply K; discriminate.
  Qed.

  Lemma archive_ok s t a b : Inv s t -> as_documented t (SArchive a b) ->
    sd_archive s a b = filter (fun e => (a <=? fst e) && (fst e <=? b)) (kept t).
  Proof.
    intros ((A1 & A2 & A3 & A4) & B & C & D & F & G) Hd. simpl in Hd. unfold sd_archive, first_key. rewrite A2.
    pose proof B as B'. apply incr_app in B'. destruct B' as (Df & Vf & DV).
    destruct (volatile t) as [|e0 m0] eqn:Ev.
    { destruct Hd as [Hd|Hd]; [congruence|]. unfold kept. rewrite Hd, Ev. auto. }
    rewrite <- Ev in *. unfold kept. rewrite filter_app. rewrite A1.
    assert (He0 : In e0 (volatile t)) by (rewrite Ev; simpl; auto).
    assert (Hmin : forall e, In e (volatile t) -> fst e0 <= fst e).
    { intros e He. rewrite Ev in He, Vf. destruct He as [<-|He]; [lia|]. apply Vf in He. lia. }
    destruct (Z.leb_spec (fst e0) a) as [L|L].
    - rewrite (proj1 (between_ok a b (volatile t) Vf)). rewrite (filter_none _ (durable t)); auto.
      intros x Hx. specialize (DV x e0 Hx He0). destruct (Z.leb_spec a (fst x)); [lia|auto].
    - simpl db_iterate.
      assert (Di : increasing (filter (fun e => a <=? fst e) (durable t))) by (apply incr_filter; auto).
      destruct (between_ok a b _ Di) as [Q1 Q2].
      assert (Q3 : filter (fun e => (a <=? fst e) && (fst e <=? b)) (filter (fun e => a <=? fst e) (durable t))
                   = filter (fun e => (a <=? fst e) && (fst e <=? b)) (durable t)).
      { clear. induction (durable t) as [|x r IH]; simpl; auto. destruct (a <=? fst x) eqn:Ea; simpl; auto.
        rewrite Ea. simpl. rewrite IH. auto. }
      destruct (between a b (filter (fun e => a <=? fst e) (durable t))) as [r bb]. simpl in Q1, Q2. rewrite Q3 in Q1.
      assert (Qm : filter (fun e => (a <=? fst e) && (fst e <=? b)) (volatile t)
                 = filter (fun e => (fst e0 <=? fst e) && (fst e <=? b)) (volatile t)).
      { apply filter_ext_in. intros x Hx. apply Hmin in Hx. destruct (Z.leb_spec a (fst x)); [|lia].
        destruct (Z.leb_spec (fst e0) (fst x)); [auto|lia]. }
      rewrite Qm, <- Q1. destruct bb.
      + destruct (Q2 eq_refl) as (y & Hy & Ly). apply filter_In in Hy. rewrite filter_none, app_nil_r; auto.
        intros x Hx. specialize (DV y x (proj1 Hy) Hx). destruct (Z.leb_spec (fst x) b); [lia|]. apply andb_false_r.
      + rewrite (proj1 (between_ok (fst e0) b (volatile t) Vf)). auto.
  Qed.

  Lemma latest_ok s t : Inv s t -> lost t = false ->
    match sd_latest s with Ok e => SOEntry e | Err e => SORaise e end = answer t SLatest.
  Proof.
    intros ((A1 & A2 & A3 & A4) & B & C & D & F & G) Hl. destruct (G Hl) as [G1 G2]. simpl. unfold sd_latest.
    rewrite A3, A2, A1. destruct (last_of (kept t)) as [e|] eqn:El; simpl in G2; rewrite G2; auto.
    destruct (volatile t) as [|e0 m0] eqn:Ev.
    - unfold kept in *. rewrite Ev, app_nil_r in *. destruct (list_snoc (durable t)) as [Ed|(l & x & Ed)]; [rewrite Ed in El; discriminate El|].
      rewrite Ed in *. rewrite last_of_app in El. injection El as ->. simpl. rewrite filter_app. simpl.
      rewrite Z.leb_refl. rewrite filter_none; auto. intros y Hy. apply incr_app in B. destruct B as (_ & _ & B).
      specialize (B y e Hy (or_introl eq_refl)). apply Z.leb_gt. auto.
    - unfold kept in El. rewrite last_of_app_r in El by (rewrite Ev; discriminate). rewrite Ev in El.
      f_equal. f_equal. destruct (list_snoc (e0 :: m0)) as [?|(l & x & E0)]; [discriminate|].
      rewrite E0, last_of_app in El. injection El as ->. destruct l as [|y l]; simpl in E0; injection E0 as -> ->; auto.
      apply last_snoc.
  Qed.

  Lemma skipn_filter c (l : list E) : increasing l -> skipn (length (filter (fun e => fst e <=? c) l)) l = filter (fun e => c <? fst e) l.
  Proof.
    intros H. rewrite <- (filter_split c l H) at 2. rewrite skipn_app, skipn_all, Nat.sub_diag. auto.
  Qed.

  Lemma sync_request_ok s t mx : Inv s t -> as_documented t (SSyncRequest mx) ->
    match sd_sync_request s mx with
    | Ok (Some l) => SOEntries l | Ok None => SONoIterator | Err e => SORaise e
    end = answer t (SSyncRequest mx).
  Proof.
    intros ((A1 & A2 & A3 & A4) & B & C & D & F & G) [Hl Hd]. destruct (G Hl) as [G1 G2].
    pose proof B as B'. apply incr_app in B'. destruct B' as (Df & Vf & DV).
    unfold sd_sync_request, sd_assert, answer, pending. rewrite A4.
    destruct Hd as [Hk|(Hv & H0 & Hm)].
    { rewrite Hk in *. rewrite G1. simpl. destruct (mark t); auto. }
    destruct (tight_last' t Hv D) as (l & e & El & Eh).
    assert (Ek : exists y r, kept t = y :: r).
    { unfold kept. rewrite El. destruct (durable t); simpl; eauto. destruct l; simpl; eauto. }
    destruct Ek as (y & r & Ek). rewrite G1, Ek. rewrite Ek in H0. simpl in H0. simpl key_of.
    rewrite A2, El, rev_app_distr. simpl rev. cbv iota beta. simpl app.
    destruct (Z.eqb_spec (fst y) 0) as [E0|E0]; [congruence|].
    assert (Ve : forall x, In x (volatile t) -> fst x <= fst e).
    { intros x Hx. rewrite El in Hx, Vf. apply (incr_last l e); auto. }
    assert (Hin : In e (volatile t)) by (rewrite El; apply in_app_iff; simpl; auto).
    destruct (mark t) as [m|] eqn:Em.
    - destruct Hm as (f & h & Hf & Hh & Hfm). rewrite Eh in Hh. injection Hh as <-.
      destruct (volatile t) as [|e0 m0] eqn:Ev; [congruence|]. simpl in Hf. injection Hf as <-. rewrite <- Ev in *.
      assert (Pk : filter (fun x => m <? fst x) (y :: r) = filter (fun x => m <? fst x) (volatile t)).
      { rewrite <- Ek. unfold kept. rewrite filter_app, filter_none; auto. intros x Hx.
        assert (fst x < fst e0) by (apply DV; [auto|rewrite Ev; simpl; auto]). apply Z.ltb_ge. lia. }
      rewrite Pk. simpl oeqb. destruct (Z.eqb_spec m (fst e)) as [Ee|Ee].
      + rewrite filter_none; auto. intros x Hx. apply Ve in Hx. apply Z.ltb_ge. lia.
      + unfold sync_rest, first_key. rewrite A2, Ev. destruct (Z.leb_spec (fst e0) m); [|lia]. rewrite <- Ev.
        rewrite skipn_filter by auto.
        assert (He : In e (filter (fun x => m <? fst x) (volatile t))) by (apply filter_In; split; auto; apply Z.ltb_lt; lia).
        destruct (filter (fun x => m <? fst x) (volatile t)) as [|p q]; [destruct He|]. destruct mx; auto.
    - simpl oeqb. cbv iota. rewrite <- Ek. unfold sync_all. simpl db_iterate. rewrite A1, A2. unfold kept in Ek |- *.
      rewrite Ek. rewrite <- Ek. destruct mx as [n|]; simpl; [|auto].
      unfold entry in *. destruct (Nat.ltb_spec (length (durable t)) n) as [L|L].
      + rewrite firstn_app. rewrite (firstn_all2 (durable t)) by lia. auto.
      + assert (n = length (durable t)) by lia. subst n. rewrite firstn_app, firstn_all, Nat.sub_diag. simpl.
        rewrite app_nil_r. auto.
  Qed.

  Lemma sd_step_ok s t o : Inv s t ->
    let '(s', out) := sd_step span_mem span_db s o in
    (as_documented t o -> out = answer t o) /\ Inv s' (after span_mem span_db t o).
  Proof.
    intros I. destruct o.
    - pose proof (new_ok s t k v I) as H. destruct (sd_step span_mem span_db s (SNew k v)). destruct H; auto.
    - split; auto. apply sync_to_db_ok; auto.
    - split; auto. apply cleanup_mem_ok; auto.
    - destruct (cleanup_db_ok s t I) as (s' & E & I'). cbn beta iota delta [sd_step]. rewrite E. auto.
    - split; auto.
    - split; auto. intros H. simpl. f_equal. apply archive_ok; auto.
    - split; auto. intros H. apply latest_ok; auto.
    - split; auto. intros H. apply sync_request_ok; auto.
    - split; auto. destruct I as ((A1 & A2 & A3 & A4) & B). split; [simpl; auto|]. exact B.
    - split; auto. intros H. simpl in *. destruct I as (_ & _ & _ & _ & _ & G). destruct (G H) as [-> _]. auto.
    - split; auto. intros _. simpl. destruct I as ((_ & _ & -> & _) & _). auto.
    - split; auto. intros _. simpl. unfold first_key. destruct I as ((_ & -> & _) & _). destruct (volatile t); auto.
    - split; auto. destruct I as ((A1 & A2 & A3 & A4) & B & C & D & F & G).
      unfold Inv, sd_init, after; simpl. unfold kept; simpl. rewrite app_nil_r.
      pose proof B as B'. apply incr_app in B'. destruct B' as (Df & Vf & DV).
      assert (Sub : forall e, In e (durable t) -> In e (kept t)) by (intros e He; unfold kept; apply in_app_iff; auto).
      split; [auto|]. split; [auto|]. split; [intros e He; apply C; auto|]. split; [left; auto|]. split.
      + destruct (sd_start s) as [x|].
        * destruct F as [F1 F2]. split; auto.
        * destruct F as [F1 F2]. split; auto. unfold kept in F1. destruct (durable t); [auto|discriminate].
      + intros Hl. apply orb_false_iff in Hl. destruct Hl as [Hl Hv]. destruct (G Hl) as [G1 G2].
        unfold kept in G1, G2. destruct (volatile t); [|discriminate]. rewrite app_nil_r in *. auto.
  Qed.

  Lemma sd_run_ok ops : forall s t, Inv s t ->
    sd_session span_mem span_db false t ops (fst (sd_run span_mem span_db s ops)) /\
    Inv (snd (sd_run span_mem span_db s ops)) (fold_left (after span_mem span_db) ops t).
  Proof.
    induction ops as [|o r IH]; intros s t I; simpl; auto.
    pose proof (sd_step_ok s t o I) as H. destruct (sd_step span_mem span_db s o) as [s1 out].
    destruct H as [A I1]. destruct (IH s1 _ I1) as [S1 I2]. destruct (sd_run span_mem span_db s1 r) as [outs s2].
    simpl in *. split; auto. split; auto. intros [?|H]; [discriminate|auto].
  Qed.

  Lemma init_inv (db : list E) synced : increasing db ->
    Inv (sd_init db (key_of (first_of db)) (key_of (last_of db)) synced) (series0 db synced).
  Proof.
    intros H. unfold Inv, sd_init, series0, kept; simpl. rewrite app_nil_r. split; [auto|]. split; [auto|].
    destruct (list_snoc db) as [->|(l & e & ->)]; simpl.
    - split; [intros e []|]. split; [left; auto|]. auto.
    - rewrite last_of_app. simpl. split; [intros x Hx; exists (fst e); split; auto; apply (incr_last l e); auto|].
      split; [left; auto|]. split; auto. unfold key_of, option_map.
      destruct (first_of (l ++ [e])) as [y|] eqn:Ey; [|destruct l; discriminate].
      assert (Ym : forall x, In x (l ++ [e]) -> fst y <= fst x).
      { intros x Hx. destruct (l ++ [e]) as [|y0 r]; [discriminate|]. injection Ey as ->. destruct Hx as [<-|Hx]; [lia|].
        apply H in Hx. lia. }
      split; auto. exists (fst e). split; auto. apply Ym. apply in_app_iff; simpl; auto.
  Qed.

  Lemma sd_session_ok (db : list E) synced ops : increasing db ->
    sd_session span_mem span_db false (series0 db synced) ops
      (fst (sd_run span_mem span_db (sd_init db (key_of (first_of db)) (key_of (last_of db)) synced) ops)).
  Proof. intros H. apply sd_run_ok. apply init_inv; auto. Qed.

  (** ** What is answered in every situation *)
  Lemma sync_really s t mx : Inv s t -> lost t = false ->
    match sd_sync_request s mx with
    | Ok (Some l) => SOEntries l | Ok None => SONoIterator | Err e => SORaise e
    end = really t (SSyncRequest mx).
  Proof.
    intros ((A1 & A2 & A3 & A4) & B & C & D & F & G) Hl. destruct (G Hl) as [G1 G2].
    pose proof B as B'. apply incr_app in B'. destruct B' as (Df & Vf & DV).
    unfold sd_sync_request, sd_assert, really. rewrite A4, G1.
    destruct (kept t) as [|y r] eqn:Ek; simpl key_of; [reflexivity|].
    destruct (volatile t) as [|f m0] eqn:Ev.
    { cbn. rewrite A2. destruct (fst y =? 0); reflexivity. }
    rewrite <- Ev in *. assert (Hv : volatile t <> []) by (rewrite Ev; discriminate).
    destruct (tight_last' t Hv D) as (l & e & El & Eh).
    cbn [first_of nth_error key_of option_map].
    rewrite A2, El, rev_app_distr, <- El. simpl rev. cbn [app].
    destruct (Z.eqb_spec (fst y) 0) as [E0|E0]; [reflexivity|]. rewrite Eh.
    destruct (mark t) as [m|].
    - simpl oeqb. destruct (Z.eqb_spec m (fst e)) as [Ee|Ee]; [reflexivity|].
      unfold sync_rest, first_key. rewrite A2, Ev. destruct (Z.leb_spec (fst f) m) as [L|L].
      + rewrite <- Ev, skipn_filter by auto. destruct mx; reflexivity.
      + rewrite G1, A1. simpl key_of. simpl db_iterate.
        rewrite filter_all.
        2:{ intros x Hx. apply Z.leb_le. assert (I : In x (y :: r)) by (rewrite <- Ek; unfold kept; apply in_app_iff; auto).
            destruct I as [<-|I]; [lia|]. apply B in I. lia. }
        assert (Q : forall l0 data, append_item mx data l0 (Some m) (f :: m0) =
                    if within (length (data ++ l0)) mx then Some (data ++ l0) else None).
        { assert (LW : forall n, less n mx = within n mx) by reflexivity.
          induction l0 as [|x l0 IH]; intros data; cbn [append_item].
          - rewrite app_nil_r, LW. destruct (within (length data) mx) eqn:W; [|reflexivity].
            cbn [append_index]. rewrite LW, W. cbn [negb].
            destruct (Z.ltb_spec m (fst f)); [|lia]. cbn [firstn]. rewrite app_nil_r. reflexivity.
          - rewrite LW, IH, <- app_assoc. cbn [app].
            destruct (within (length data) mx) eqn:W; [reflexivity|].
            assert (W2 : within (length (data ++ x :: l0)) mx = false).
            { destruct mx as [n|]; simpl in *; [|discriminate]. apply Nat.ltb_ge in W. apply Nat.ltb_ge. rewrite app_length. lia. }
            rewrite W2. reflexivity. }
        rewrite (Q (durable t) []). simpl app. unfold entry in *. destruct (within (length (durable t)) mx); reflexivity.
    - simpl oeqb. cbv iota. unfold sync_all. simpl db_iterate. rewrite A1, A2. destruct mx as [n|]; simpl; [|reflexivity].
      unfold entry in *. destruct (Nat.ltb_spec (length (durable t)) n) as [L|L]; [reflexivity|].
      replace (n - length (durable t))%nat with 0%nat by lia. simpl. rewrite app_nil_r. reflexivity.
  Qed.
  Lemma sd_really_ok (db : list E) synced ops : increasing db ->
    sd_really span_mem span_db (series0 db synced) ops
      (fst (sd_run span_mem span_db (sd_init db (key_of (first_of db)) (key_of (last_of db)) synced) ops)).
  Proof.
    intros H. generalize (init_inv db synced H). generalize (sd_init db (key_of (first_of db)) (key_of (last_of db)) synced).
    generalize (series0 db synced). clear H.
    induction ops as [|o r IH]; intros t s I; simpl; auto.
    pose proof (sd_step_ok s t o I) as H.
    assert (W : lost t = false -> snd (sd_step span_mem span_db s o) = really t o).
    { intros Hl. destruct (sd_step span_mem span_db s o) as [s1 out] eqn:Es. destruct H as [A _]. simpl.
      destruct o; try (unfold really; destruct (volatile t); apply A; simpl; auto; fail).
      - destruct (volatile t) eqn:Ev.
        + unfold really. rewrite Ev. injection Es as _ <-. unfold sd_archive, first_key.
          destruct I as ((_ & A2 & _) & _). rewrite A2, Ev. reflexivity.
        + unfold really. rewrite Ev. apply A. simpl. left. rewrite Ev. discriminate.
      - injection Es as _ <-. apply sync_really; auto. }
    destruct (sd_step span_mem span_db s o) as [s1 out]. destruct H as [_ I1]. specialize (IH _ s1 I1).
    destruct (sd_run span_mem span_db s1 r) as [outs s2]. simpl in *. split; auto.
  Qed.

  (** ** Nothing is lost *)
  Definition hi (t : series V) (x : Z) : Prop := match highest t with None => True | Some h => h <= x end.

  Lemma after_hi t o x : hi (after span_mem span_db t o) x -> hi t x.
  Proof.
    unfold hi. destruct o; simpl; auto.
    - unfold accepts. destruct (highest t) as [h|] eqn:Eh; simpl; auto. destruct (Z.ltb_spec h k); simpl; [lia|rewrite Eh; auto].
    - destruct (highest t) eqn:Eh; simpl; rewrite ?Eh; auto.
    - destruct (highest t) eqn:Eh; simpl; rewrite ?Eh; auto. destruct (volatile t); simpl; rewrite ?Eh; auto.
  Qed.
  Lemma fold_hi ops : forall t x, hi (fold_left (after span_mem span_db) ops t) x -> hi t x.
  Proof. induction ops as [|o r IH]; simpl; auto. intros t x H. apply after_hi with o. auto. Qed.

  Lemma kept_after_sub (t : series V) o e : In e (kept (after span_mem span_db t o)) -> In e (kept t) \/ (exists k v, o = SNew k v /\ accepts t k = true /\ e = (k, v)).
  Proof.
    unfold kept. destruct o; simpl; auto.
    - destruct (accepts t k) eqn:Ea; auto. simpl. rewrite !in_app_iff. simpl. intros [H|[H|[<-|[]]]]; auto. right. exists k, v. auto.
    - rewrite app_nil_r. auto.
    - destruct (highest t); auto. simpl. rewrite !in_app_iff, !filter_In. tauto.
    - destruct (highest t); auto. destruct (volatile t) eqn:Ev; [rewrite Ev; auto|]. rewrite <- Ev. cbn [durable volatile].
      rewrite !in_app_iff, !filter_In. tauto.
    - rewrite app_nil_r. rewrite in_app_iff. auto.
  Qed.

  Local Notation clean_after := (@clean_after V).
  Lemma kept_after_super (t : series V) o e x clean : (clean = true -> volatile t = []) -> (o = SRestart -> clean = true) ->
    In e (kept t) -> hi t x -> x - span_db <= fst e -> In e (kept (after span_mem span_db t o)).
  Proof.
    intros Hc Hr He Hx Hl. unfold kept in *. unfold hi in Hx. destruct o; simpl; auto.
    - destruct (accepts t k); auto. simpl. rewrite !in_app_iff in *. tauto.
    - rewrite app_nil_r. auto.
    - destruct (highest t) as [h|]; auto. simpl. rewrite !in_app_iff, !filter_In in *. rewrite Z.leb_le, Z.ltb_lt.
      destruct He as [He|He]; auto. destruct (Z_le_gt_dec (fst e) (h - span_mem)); [auto|]. right. split; auto. lia.
    - destruct (highest t) as [h|]; auto. destruct (volatile t) eqn:Ev; [rewrite Ev; auto|]. rewrite <- Ev in *. cbn [durable volatile].
      rewrite !in_app_iff, !filter_In in *. rewrite Z.leb_le. destruct He; [left|right]; split; auto; lia.
    - rewrite Hc in He by (apply Hr; auto). auto.
  Qed.
  Lemma clean_after_ok (t : series V) o clean : (clean = true -> volatile t = []) -> clean_after clean o = true ->
    volatile (after span_mem span_db t o) = [].
  Proof.
    intros Hc H. destruct o; simpl in *; auto; try discriminate.
    - destruct (highest t); auto. simpl. rewrite Hc; auto.
    - destruct (highest t); auto. rewrite Hc by auto. auto.
  Qed.

  Lemma accepted_ok ops : forall (t : series V) outs, sd_session span_mem span_db false t ops outs ->
    (forall e, In e (kept (fold_left (after span_mem span_db) ops t)) -> In e (kept t) \/ In e (accepted ops outs)) /\
    (forall clean x, (clean = true -> volatile t = []) -> orderly clean ops = true -> hi (fold_left (after span_mem span_db) ops t) x ->
      forall e, In e (kept t) \/ In e (accepted ops outs) -> x - span_db <= fst e -> In e (kept (fold_left (after span_mem span_db) ops t))).
  Proof.
    induction ops as [|o r IH]; intros t outs H; destruct outs as [|out outs]; try (destruct H; fail).
    - simpl. split; auto. intros clean x _ _ _ e [He|[]] _; auto.
    - destruct H as [A S]. destruct (IH _ _ S) as [IH1 IH2]. 
      assert (Acc : accepted (o :: r) (out :: outs) =
                    match o with SNew k v => if accepts t k then [(k, v)] else [] | _ => [] end ++ accepted r outs).
      { destruct o; auto. rewrite A by (right; simpl; auto). simpl. destruct (accepts t k); auto. }
      cbn [fold_left]. rewrite Acc. split.
      + intros e He. apply IH1 in He. rewrite in_app_iff. destruct He as [He|He]; auto. apply kept_after_sub in He.
        destruct He as [He|(k & v & -> & Ha & ->)]; auto. rewrite Ha. simpl. auto.
      + intros clean x Hc Ho Hx e He Hl. cbn [orderly] in Ho. apply andb_true_iff in Ho. destruct Ho as [Ho1 Ho2].
        apply (IH2 (clean_after clean o) x); auto.
        * apply clean_after_ok; auto.
        * rewrite in_app_iff in He. destruct He as [He|[He|He]]; auto; left.
          -- apply kept_after_super with x clean; auto.
             ++ intros ->. simpl in Ho1. auto.
             ++ apply after_hi with o. apply fold_hi with r. auto.
          -- destruct o; try destruct He. unfold after. destruct (accepts t k); [|destruct He]. unfold kept; simpl.
             destruct He as [<-|[]]. rewrite !in_app_iff; simpl; auto.
  Qed.

  Lemma sd_nothing_lost (db : list E) synced ops : increasing db -> orderly true ops = true ->
    let (outs, s) := sd_run span_mem span_db (sd_init db (key_of (first_of db)) (key_of (last_of db)) synced) ops in
    increasing (sd_db s ++ sd_mem s) /\
    (forall e, In e (sd_db s ++ sd_mem s) -> In e db \/ In e (accepted ops outs)) /\
    (forall e, In e db \/ In e (accepted ops outs) ->
       (forall h, sd_stop s = Some h -> h - span_db <= fst e) -> In e (sd_db s ++ sd_mem s)).
  Proof.
    intros H Ho. destruct (sd_run_ok ops _ _ (init_inv db synced H)) as [S I].
    destruct (sd_run span_mem span_db _ ops) as [outs s]. simpl in S, I.
    destruct (accepted_ok ops _ _ S) as [A B].
    destruct I as ((I1 & I2 & I3 & I4) & I5 & _). rewrite I1, I2, I3. split; [exact I5|]. split.
    - intros e He. apply A in He. unfold kept in He at 1. simpl in He. rewrite app_nil_r in He. auto.
    - intros e He Hh. unfold hi in B. destruct (highest (fold_left (after span_mem span_db) ops (series0 db synced))) as [h|] eqn:Eh.
      + apply (B true h); auto; [lia|]. unfold kept at 1. simpl. rewrite app_nil_r. auto.
      + apply (B true (fst e)); auto; [|lia]. unfold kept at 1. simpl. rewrite app_nil_r. auto.
  Qed.
End SyncableProofs.
