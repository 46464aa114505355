From Verif Require Import Prelude PreludeFacts MoreFacts CacheDict_Model Writeback_Model MetrCache_Model MetrCache_Spec.

Section P.
  Context {K V : Type}.
  Variable eqb : K -> K -> bool.
  Hypothesis ok : eqb_ok eqb.
  Variable c : cfg V.
  Notation run := (cd_run eqb c).
  Notation mrun := (mc_run eqb c).
  Notation cst := (cst K V).

  Lemma mc_step_same : forall s m o, fst (fst (mc_step eqb c (s, m) o)) = fst (cd_step eqb c s o) /\ snd (mc_step eqb c (s, m) o) = snd (cd_step eqb c s o).
  Proof. intros. unfold mc_step. destruct (cd_step eqb c s o). auto. Qed.
  Lemma transparent : forall ops s m, fst (mrun (s, m) ops) = fst (run s ops) /\ fst (snd (mrun (s, m) ops)) = snd (run s ops).
  Proof.
    induction ops as [|o ops IH]; intros s m; cbn [mc_run cd_run]; auto. destruct (mc_step_same s m o) as [A B].
    destruct (mc_step eqb c (s, m) o) as [[s1 m1] out]. destruct (cd_step eqb c s o) as [s2 out2]. simpl in A, B. subst.
    specialize (IH s2 m1). destruct (mrun (s2, m1) ops), (run s2 ops). simpl in *. destruct IH; subst; auto.
  Qed.
  Lemma access_step : forall s m o, let m' := snd (fst (mc_step eqb c (s, m) o)) in
    hits m' + misses m' = hits m + misses m + if is_get o then 1 else 0.
  Proof.
    intros s m o. unfold mc_step. destruct (cd_step eqb c s o) as [s' out] eqn:E. destruct o; simpl; try lia.
    - unfold count_access. destruct (cd_has_info eqb c s k (r_now r)); destruct out; simpl; try lia; unfold count_refresh; destruct (g_called g), (r_getter r); simpl; lia.
    - destruct (nth_error (cd_pending s) i), g; simpl; lia.
  Qed.
  Lemma accesses : forall ops s m, let m' := snd (snd (mrun (s, m) ops)) in hits m' + misses m' = hits m + misses m + count is_get ops.
  Proof.
    induction ops as [|o ops IH]; intros s m; cbn [mc_run]; [unfold count; simpl; lia|]. pose proof (access_step s m o) as A.
    destruct (mc_step eqb c (s, m) o) as [[s1 m1] out]. specialize (IH s1 m1). destruct (mrun (s1, m1) ops) as [outs [s2 m2]]. simpl in *. rewrite IH.
    unfold count. simpl. destruct (is_get o); simpl in *; lia.
  Qed.
  Lemma make_room_err : forall f max s s' e, cd_make_room eqb c f max s = (s', Some e) -> e = Diverges.
  Proof. induction f; intros max s s' e; simpl; destruct (Nat.ltb (max - 1) (length (cd_data s))); try congruence. apply IHf. Qed.
  Lemma setitem_err : forall s k v t s' e, cd_setitem eqb c s k v t = (s', Some e) -> e = Diverges.
  Proof.
    intros s k v t s' e. unfold cd_setitem. destruct (c_max c); [|congruence]. destruct (cd_make_room eqb c (S (length (cd_lru s))) n s) as [s1 [e1|]] eqn:E; intros H; [|discriminate]. injection H as <- <-.
    eapply make_room_err; eauto.
  Qed.
  Lemma refresh_step : forall s m o, let '((_, m'), out) := mc_step eqb c (s, m) o in
    refreshes m' = refreshes m + (if after_getter out then 1 else 0) + (if refreshed (o, out) then 1 else 0).
  Proof.
    intros s m o. unfold mc_step. destruct (cd_step eqb c s o) as [s' out] eqn:E. destruct o; simpl in E.
    - destruct (cd_getitem eqb c s k r) as [s1 g]. injection E as <- <-. simpl. unfold count_access.
      destruct (cd_has_info eqb c s k (r_now r)), (g_called g), (r_getter r); simpl; lia.
    - unfold unit_out in E. destruct (cd_setitem eqb c s k v t) as [s1 [e|]]; injection E as <- <-; simpl; lia.
    - unfold unit_out in E. destruct (cd_feed eqb c s k v timestamp t) as [s1 [e|]]; injection E as <- <-; simpl; lia.
    - unfold unit_out in E. destruct (cd_delitem eqb c s k) as [s1 [e|]]; injection E as <- <-; simpl; lia.
    - injection E as <- <-; simpl; lia.
    - injection E as <- <-; simpl; lia.
    - injection E as <- <-; simpl; lia.
    - injection E as <- <-; simpl; lia.
    - unfold cd_complete in E. destruct (nth_error (cd_pending s) i) as [k|] eqn:N; [|injection E as <- <-; simpl; lia].
      destruct g as [v|e].
      + destruct (cd_setitem eqb c _ k v t) as [s2 [e|]] eqn:S0; injection E as <- <-; simpl; try lia. apply setitem_err in S0. subst. simpl. lia.
      + destruct e; injection E as <- <-; simpl; lia.
  Qed.
  Lemma refreshes_ok : forall ops s m, let '(outs, (_, m')) := mrun (s, m) ops in
    refreshes m' = refreshes m + count after_getter outs + count refreshed (combine ops outs).
  Proof.
    induction ops as [|o ops IH]; intros s m; cbn [mc_run]; [unfold count; simpl; lia|]. pose proof (refresh_step s m o) as A.
    destruct (mc_step eqb c (s, m) o) as [[s1 m1] out]. specialize (IH s1 m1). destruct (mrun (s1, m1) ops) as [outs [s2 m2]]. rewrite IH, A.
    unfold count. cbn [combine filter]. destruct (after_getter out), (refreshed (o, out)); simpl; lia.
  Qed.

  (** the invariant: what is known about a key has a timestamp *)
  Definition tInv (s : cst) : Prop :=
    dwf (cd_data s) /\ dwf (cd_ts s) /\ NoDup (cd_missed s) /\
    (forall k, dget eqb (cd_data s) k <> None \/ In k (cd_missed s) -> dget eqb (cd_ts s) k <> None) /\
    (c_fail c = None -> cd_missed s = []).
  Lemma set_lru_inv : forall s l, tInv s -> tInv (set_lru s l).
  Proof. intros s l H. exact H. Qed.
  Lemma In_rm l (k x : K) : NoDup l -> In x (remove_first eqb k l) <-> In x l /\ x <> k.
  Proof. apply In_remove_first; auto. Qed.
  Lemma rm_nil : forall (k : K) l, l = [] -> remove_first eqb k l = [].
  Proof. intros k l ->. auto. Qed.
  Lemma base_delitem_inv : forall s k, tInv s -> tInv (fst (base_delitem eqb s k)).
  Proof.
    intros s k (A & B & C & D & E). unfold base_delitem. destruct (dmem eqb (cd_data s) k) eqn:M; [|repeat split; auto]. unfold dmem in *.
    destruct (dget eqb (cd_ts s) k) eqn:T.
    - repeat split; simpl; auto.
      + apply ddel_wf; auto.
      + apply ddel_wf; auto.
      + apply NoDup_remove_first; auto.
      + intros x H. destruct (eqb_dec ok x k) as [-> | N].
        * exfalso. destruct H as [H|H]; [apply H, (dget_ddel_eq ok); auto|]. apply (In_rm _ _ _ C) in H. tauto.
        * rewrite (dget_ddel_neq ok); auto. apply D. destruct H as [H|H]; [rewrite (dget_ddel_neq ok) in H; auto|]. apply (In_rm _ _ _ C) in H. tauto.
      + intros F. apply rm_nil. auto.
    - exfalso. destruct (dget eqb (cd_data s) k) eqn:G; [|discriminate]. apply (D k); auto. left. congruence.
  Qed.
  Lemma delitem_inv : forall s k, tInv s -> tInv (fst (cd_delitem eqb c s k)).
  Proof.
    intros s k H. pose proof (base_delitem_inv s k H) as B. unfold cd_delitem. destruct (c_max c); auto. destruct (base_delitem eqb s k) as [s' [e|]]; auto.
    destruct (lru_remove eqb (cd_lru s') k). exact B.
  Qed.
  Lemma invalidate_inv : forall s k, tInv s -> tInv (cd_invalidate eqb c s k).
  Proof. intros s k H. unfold cd_invalidate, base_invalidate. destruct (c_max c); [apply set_lru_inv|]; apply delitem_inv; auto. Qed.
  Lemma evict_inv : forall s, tInv s -> tInv (cd_evict eqb c s).
  Proof. intros s H. unfold cd_evict. destruct (lru_evict (cd_lru s)) as [l [k|e]]; auto. apply invalidate_inv. exact H. Qed.
  Lemma room_inv : forall f max s, tInv s -> tInv (fst (cd_make_room eqb c f max s)).
  Proof. induction f; intros max s H; simpl; destruct (Nat.ltb (max - 1) (length (cd_data s))); auto. apply IHf, evict_inv, H. Qed.
  Lemma base_setitem_inv : forall s k v t, tInv s -> tInv (base_setitem eqb s k v t).
  Proof.
    intros s k v t (A & B & C & D & E). unfold base_setitem. repeat split; simpl.
    - apply (dset_wf ok); auto.
    - apply (dset_wf ok); auto.
    - apply NoDup_remove_first; auto.
    - intros x H. destruct (eqb_dec ok x k) as [-> | N]; [rewrite (dget_dset_eq ok); discriminate|]. rewrite (dget_dset_neq ok); auto. apply D.
      destruct H as [H|H]; [rewrite (dget_dset_neq ok) in H; auto|]. apply (In_rm _ _ _ C) in H. tauto.
    - intros F. apply rm_nil. auto.
  Qed.
  Lemma base_feed_inv : forall s k v ts t, tInv s -> tInv (base_feed eqb s k v ts t).
  Proof.
    intros s k v ts t (A & B & C & D & E). unfold base_feed. repeat split; simpl; auto.
    - apply (dset_wf ok); auto.
    - apply (dset_wf ok); auto.
    - intros x H. destruct (eqb_dec ok x k) as [-> | N]; [rewrite (dget_dset_eq ok); discriminate|]. rewrite (dget_dset_neq ok); auto. apply D.
      destruct H as [H|H]; [rewrite (dget_dset_neq ok) in H; auto|]. auto.
  Qed.
  Lemma setitem_inv : forall s k v t, tInv s -> tInv (fst (cd_setitem eqb c s k v t)).
  Proof.
    intros s k v t H. unfold cd_setitem. destruct (c_max c) as [m|]; [|apply base_setitem_inv; auto].
    pose proof (room_inv (S (length (cd_lru s))) m s H) as R. destruct (cd_make_room eqb c (S (length (cd_lru s))) m s) as [s' [e|]]; simpl in *; auto.
    apply base_setitem_inv. exact R.
  Qed.
  Lemma feed_inv : forall s k v ts t, tInv s -> tInv (fst (cd_feed eqb c s k v ts t)).
  Proof.
    intros s k v ts t H. unfold cd_feed. destruct (c_max c) as [m|]; [|apply base_feed_inv; auto].
    assert (R : tInv (fst (if dmem eqb (cd_data s) k then (s, None) else cd_make_room eqb c (S (length (cd_lru s))) m s))).
    { destruct (dmem eqb (cd_data s) k); auto. apply room_inv; auto. }
    destruct (if dmem eqb (cd_data s) k then (s, None) else cd_make_room eqb c (S (length (cd_lru s))) m s) as [s' [e|]]; simpl in *; auto.
    apply set_lru_inv, base_feed_inv, R.
  Qed.
  Lemma failure_inv : forall s k t, tInv s -> tInv (cd_on_failure eqb c s k t).
  Proof.
    intros s k t H. unfold cd_on_failure. apply (invalidate_inv _ k) in H. destruct H as (A & B & C & D & E). destruct (c_fail c) eqn:F; [|repeat split; auto].
    set (s1 := cd_invalidate eqb c s k) in *. repeat split; simpl; auto.
    - apply (dset_wf ok); auto.
    - destruct (memb eqb k (cd_missed s1)) eqn:M; auto. apply (memb_false ok) in M. apply NoDup_app_intro; auto; [repeat constructor; auto|]. intros x I [<-|[]]; auto.
    - intros x I. destruct (eqb_dec ok x k) as [-> | N]; [rewrite (dget_dset_eq ok); discriminate|]. rewrite (dget_dset_neq ok); auto. apply D.
      destruct I as [I|I]; auto. right. destruct (memb eqb k (cd_missed s1)); auto. apply in_app_or in I as [I|[I|[]]]; congruence.
    - intros G. congruence.
  Qed.
  Lemma block_inv : forall s k g t, tInv s -> tInv (fst (cd_get_value_block eqb c s k g t)).
  Proof.
    intros s k g t H. unfold cd_get_value_block. destruct g as [v|e].
    - pose proof (setitem_inv s k v t H) as R. destruct (cd_setitem eqb c s k v t) as [s' [e|]]; simpl in *; auto. destruct (c_max c); [apply set_lru_inv|]; auto.
    - destruct e; auto. destruct (miss_result c); simpl; [destruct (c_max c); [apply set_lru_inv|]|]; apply failure_inv; auto.
  Qed.
  Lemma getitem_inv : forall s k r, tInv s -> tInv (fst (cd_getitem eqb c s k r)).
  Proof.
    intros s k r H. unfold cd_getitem. set (s0 := match c_max c with None => s | Some _ => _ end).
    assert (H0 : tInv s0) by (unfold s0; destruct (c_max c); auto). clearbody s0. clear H.
    destruct (negb (dmem eqb (cd_data s0) k) && negb (memb eqb k (cd_missed s0)))%bool; [apply block_inv; auto|].
    destruct (dget eqb (cd_ts s0) k); auto. destruct (memb eqb k (cd_missed s0)).
    - destruct (c_fail c); auto. destruct (Z.ltb z0 (r_mono r - z)); auto. apply block_inv; auto.
    - destruct (Z.ltb (c_exp c) (r_mono r - z)); [apply block_inv; auto|]. destruct (Z.ltb (c_stale c) (r_mono r - z)); exact H0.
  Qed.
  Lemma step_inv : forall s o, tInv s -> tInv (fst (cd_step eqb c s o)).
  Proof.
    intros s o H. destruct o; simpl; auto.
    - pose proof (getitem_inv s k r H). destruct (cd_getitem eqb c s k r); auto.
    - apply setitem_inv; auto.
    - apply feed_inv; auto.
    - apply delitem_inv; auto.
    - apply invalidate_inv; auto.
    - unfold cd_complete. destruct (nth_error (cd_pending s) i) as [k|]; auto. set (s1 := Build_cst _ _ _ _ _).
      assert (H1 : tInv s1) by exact H. clearbody s1. clear H. destruct g as [v|e].
      + pose proof (setitem_inv s1 k v t H1). destruct (cd_setitem eqb c s1 k v t) as [s2 [e|]]; auto.
      + destruct e; simpl; auto. apply failure_inv; auto.
  Qed.
  Lemma init_inv : tInv cd_init.
  Proof. repeat split; simpl; try constructor. intros k [H|[]]. congruence. Qed.

  (** hits *)
  Hypothesis intervals : c_fail c = None \/ c_fail c = Some (c_exp c).
  Lemma hit_is_served : forall s k r, tInv s -> r_mono r = r_now r -> cd_has_info eqb c s k (r_now r) = negb (g_called (snd (cd_getitem eqb c s k r))).
  Proof.
    intros s k r (A & B & C & D & E) Q. unfold cd_getitem. set (s0 := match c_max c with None => s | Some _ => _ end).
    assert (X1 : cd_data s0 = cd_data s) by (unfold s0; destruct (c_max c); auto). assert (X2 : cd_ts s0 = cd_ts s) by (unfold s0; destruct (c_max c); auto).
    assert (X3 : cd_missed s0 = cd_missed s) by (unfold s0; destruct (c_max c); auto). rewrite X1, X2, X3. unfold cd_has_info.
    assert (L : forall x y, negb (Z.ltb x y) = Z.leb y x) by (intros; rewrite Z.ltb_antisym, Bool.negb_involutive; auto).
    destruct (dmem eqb (cd_data s) k) eqn:M; simpl.
    - assert (T : dget eqb (cd_ts s) k <> None).
      { apply D. left. unfold dmem in M. destruct (dget eqb (cd_data s) k); congruence. }
      destruct (dget eqb (cd_ts s) k) as [ts|]; [|congruence]. rewrite <- Q. destruct (memb eqb k (cd_missed s)) eqn:N.
      + destruct intervals as [F|F]; rewrite F.
        * rewrite (E F) in N. discriminate.
        * rewrite <- L. destruct (Z.ltb (c_exp c) (r_mono r - ts)); auto.
      + rewrite <- L. destruct (Z.ltb (c_exp c) (r_mono r - ts)); auto. destruct (Z.ltb (c_stale c) (r_mono r - ts)); auto.
    - destruct (memb eqb k (cd_missed s)) eqn:N; simpl.
      + assert (T : dget eqb (cd_ts s) k <> None) by (apply D; right; apply (memb_In ok); auto).
        destruct (dget eqb (cd_ts s) k) as [ts|]; [|congruence]. rewrite <- Q. destruct intervals as [F|F]; rewrite F.
        * rewrite (E F) in N. discriminate.
        * rewrite <- L. destruct (Z.ltb (c_exp c) (r_mono r - ts)); auto.
      + destruct (c_fail c); auto.
  Qed.
  Lemma hits_step : forall s m o, tInv s -> same_clock o -> let '((_, m'), out) := mc_step eqb c (s, m) o in
    hits m' = hits m + (if at_once out then 1 else 0) /\ misses m' = misses m + (if after_getter out then 1 else 0).
  Proof.
    intros s m o H Q. unfold mc_step. destruct o; simpl.
    - pose proof (hit_is_served s k r H Q) as X. destruct (cd_getitem eqb c s k r) as [s1 g]. simpl in *. rewrite X. unfold count_access.
      destruct (g_called g), (r_getter r); simpl; lia.
    - unfold unit_out. destruct (cd_setitem eqb c s k v t) as [s1 [e|]]; simpl; lia.
    - unfold unit_out. destruct (cd_feed eqb c s k v timestamp t) as [s1 [e|]]; simpl; lia.
    - unfold unit_out. destruct (cd_delitem eqb c s k) as [s1 [e|]]; simpl; lia.
    - lia.
    - lia.
    - lia.
    - lia.
    - assert (N : forall p : cst * res K, let '(s', out) := match p with (s', Ok k) => (s', CODone k) | (s', Err e) => (s', @CORaise K V e) end in at_once out = false /\ after_getter out = false)
        by (intros [s' [k|e]]; auto).
      specialize (N (cd_complete eqb c s i g t)). destruct (match cd_complete eqb c s i g t with (s', Ok k) => _ | (s', Err e) => _ end) as [s' out]. destruct N as [-> ->].
      destruct (nth_error (cd_pending s) i), g; simpl; lia.
  Qed.
  Lemma hits_ok : forall ops s m, tInv s -> Forall same_clock ops -> let '(outs, (_, m')) := mrun (s, m) ops in
    hits m' = hits m + count at_once outs /\ misses m' = misses m + count after_getter outs.
  Proof.
    induction ops as [|o ops IH]; intros s m H Q; cbn [mc_run]; [unfold count; simpl; lia|]. apply Forall_cons_iff in Q as [Q1 Q2]. pose proof (hits_step s m o H Q1) as A.
    destruct (mc_step_same s m o) as [B _]. pose proof (step_inv s o H) as I. rewrite <- B in I.
    destruct (mc_step eqb c (s, m) o) as [[s1 m1] out]. simpl in I. specialize (IH s1 m1 I Q2). destruct (mrun (s1, m1) ops) as [outs [s2 m2]]. destruct IH as [-> ->], A as [-> ->].
    unfold count. cbn [filter]. destruct (at_once out), (after_getter out); simpl; lia.
  Qed.
End P.

Section Q.
  Context {K V : Type}.
  Variable eqb : K -> K -> bool.
  Hypothesis ok : eqb_ok eqb.
  Variable c : cfg V.
  Notation cst := (cst K V).
  (** evictions *)
  Definition keys (s : cst) : list K := dkeys (cd_data s).
  Lemma gone_In : forall b a k, In k (gone eqb b a) <-> In k b /\ ~ In k a.
  Proof. intros b a k. unfold gone. rewrite filter_In, Bool.negb_true_iff, (memb_false ok). tauto. Qed.
  Lemma gone_NoDup : forall b a, NoDup b -> NoDup (gone eqb b a).
  Proof. intros. apply NoDup_filter. auto. Qed.
  Lemma gone_trans : forall a b d, NoDup a -> length (gone eqb a d) <= length (gone eqb a b) + length (gone eqb b d).
  Proof.
    intros a b d N. rewrite <- app_length. apply NoDup_incl_length; [apply gone_NoDup; auto|]. intros k I. apply gone_In in I as [I J].
    destruct (in_dec (fun x y => eqb_dec ok x y) k b) as [X|X]; apply in_or_app; [right|left]; apply gone_In; auto.
  Qed.
  Lemma gone_one : forall a b k, NoDup a -> (forall x, In x a -> x <> k -> In x b) -> length (gone eqb a b) <= 1.
  Proof.
    intros a b k N H. change 1 with (length [k]). apply NoDup_incl_length; [apply gone_NoDup; auto|]. intros x I. apply gone_In in I as [I J]. simpl.
    destruct (eqb_dec ok x k); auto 6. 
  Qed.
  Lemma gone_refl : forall a, gone eqb a a = [].
  Proof.
    intros a. destruct (gone eqb a a) as [|k l] eqn:E; auto. exfalso. assert (I : In k (gone eqb a a)) by (rewrite E; simpl; auto). apply gone_In in I. tauto.
  Qed.
  Lemma dkeys_get : forall (d : dict K V) k, In k (dkeys d) <-> dget eqb d k <> None.
  Proof. intros d k. pose proof (dget_None ok d k) as H. destruct (dget eqb d k) eqn:E; split; intros Q; try congruence.
    - destruct (in_dec (fun x y => eqb_dec ok x y) k (dkeys d)) as [Y|Y]; auto. apply H in Y. discriminate.
    - exfalso. destruct H as [H _]. exact (H eq_refl Q).
  Qed.
  Lemma delitem_keys : forall (s : cst) k x, In x (keys s) -> x <> k -> In x (keys (fst (cd_delitem eqb c s k))).
  Proof.
    intros s k x I N. unfold keys in *. assert (B : In x (dkeys (cd_data (fst (base_delitem eqb s k))))).
    { unfold base_delitem. destruct (dmem eqb (cd_data s) k); auto. apply dkeys_get in I. destruct (dmem eqb (cd_ts s) k); simpl; apply dkeys_get; rewrite (dget_ddel_neq ok); auto. }
    unfold cd_delitem. destruct (c_max c); auto. destruct (base_delitem eqb s k) as [s' [e|]]; auto. destruct (lru_remove eqb (cd_lru s') k). exact B.
  Qed.
  Lemma evict_gone : forall s : cst, tInv eqb c s -> length (gone eqb (keys s) (keys (cd_evict eqb c s))) <= 1.
  Proof.
    intros s (W & _). unfold cd_evict. destruct (lru_evict (cd_lru s)) as [l [k|e]]; [|rewrite gone_refl; simpl; lia].
    apply gone_one with k; auto. intros x I N. unfold cd_invalidate, base_invalidate. destruct (c_max c); simpl; apply (delitem_keys (set_lru s l)); auto.
  Qed.
  Lemma room_gone : forall f max s, tInv eqb c s -> length (gone eqb (keys s) (keys (fst (cd_make_room eqb c f max s)))) <= evict_calls eqb c f max s.
  Proof.
    induction f as [|f IH]; intros max s I; cbn [cd_make_room evict_calls]; destruct (Nat.ltb (max - 1) (length (cd_data s))); cbn [fst]; try (rewrite gone_refl; simpl; lia).
    pose proof (evict_gone s I). specialize (IH max _ (evict_inv eqb ok c s I)). destruct I as (W & _). pose proof (gone_trans (keys s) (keys (cd_evict eqb c s)) (keys (fst (cd_make_room eqb c f max (cd_evict eqb c s)))) W). lia.
  Qed.
  Lemma gone_more : forall a b d, incl b d -> NoDup a -> length (gone eqb a d) <= length (gone eqb a b).
  Proof. intros a b d H N. apply NoDup_incl_length; [apply gone_NoDup; auto|]. intros x I. apply gone_In in I as [I J]. apply gone_In. auto. Qed.
  Lemma dset_keys : forall (d : dict K V) k v, incl (dkeys d) (dkeys (dset eqb d k v)).
  Proof. intros d k v x I. apply dkeys_get. apply dkeys_get in I. destruct (eqb_dec ok x k) as [-> | N]; [rewrite (dget_dset_eq ok); discriminate|]. rewrite (dget_dset_neq ok); auto. Qed.
  Lemma run_inv : forall ops s, tInv eqb c s -> tInv eqb c (snd (cd_run eqb c s ops)).
  Proof.
    induction ops as [|o ops IH]; intros s I; cbn [cd_run]; auto. pose proof (step_inv eqb ok c s o I) as J. destruct (cd_step eqb c s o) as [s1 out]. specialize (IH s1 J).
    destruct (cd_run eqb c s1 ops); auto.
  Qed.
  Lemma setitem_gone : forall s k v t, tInv eqb c s -> length (gone eqb (keys s) (keys (fst (cd_setitem eqb c s k v t)))) <= evict_calls_set eqb c s.
  Proof.
    intros s k v t I. unfold evict_calls_set, cd_setitem. destruct (c_max c) as [max|].
    - pose proof (room_gone (S (length (cd_lru s))) max s I) as R. destruct (cd_make_room eqb c (S (length (cd_lru s))) max s) as [s' [e|]]; cbn [fst] in *; auto.
      etransitivity; [|exact R]. apply gone_more; [apply dset_keys|apply I].
    - simpl. assert (G : length (gone eqb (dkeys (cd_data s)) (dkeys (dset eqb (cd_data s) k v))) <= length (gone eqb (dkeys (cd_data s)) (dkeys (cd_data s)))).
      { apply gone_more; [apply dset_keys|apply I]. } rewrite gone_refl in G. simpl in G. unfold keys. simpl. lia.
  Qed.
  Lemma feed_gone : forall s k v ts t, tInv eqb c s -> length (gone eqb (keys s) (keys (fst (cd_feed eqb c s k v ts t)))) <= if dmem eqb (cd_data s) k then 0 else evict_calls_set eqb c s.
  Proof.
    intros s k v ts t I. unfold evict_calls_set, cd_feed.
    assert (Z : forall d, incl (dkeys (cd_data s)) d -> length (gone eqb (dkeys (cd_data s)) d) <= 0).
    { intros d IN. etransitivity; [apply (gone_more _ (dkeys (cd_data s)) d IN); apply I|]. rewrite gone_refl. simpl. lia. }
    assert (B : forall s0 : cst, incl (dkeys (cd_data s0)) (dkeys (cd_data (base_feed eqb s0 k v ts t)))).
    { intros s0. unfold base_feed. repeat match goal with |- context [if ?b then _ else _] => destruct b | |- context [match ?x with Some _ => _ | None => _ end] => destruct x end; simpl; try apply dset_keys; try apply incl_refl. }
    destruct (c_max c) as [max|].
    - destruct (dmem eqb (cd_data s) k).
      + cbn [fst]. apply Z. apply B.
      + pose proof (room_gone (S (length (cd_lru s))) max s I) as R. destruct (cd_make_room eqb c (S (length (cd_lru s))) max s) as [s' [e|]]; cbn [fst] in *; auto.
        etransitivity; [|exact R]. apply gone_more; [apply B|apply I].
    - cbn [fst]. specialize (Z _ (B s)). unfold keys. destruct (dmem eqb (cd_data s) k); lia.
  Qed.
  Definition set_pending (s : cst) (p : list K) : cst := {| cd_data := cd_data s; cd_ts := cd_ts s; cd_missed := cd_missed s; cd_lru := cd_lru s; cd_pending := p |}.
  Lemma evict_pending : forall s p, cd_evict eqb c (set_pending s p) = set_pending (cd_evict eqb c s) p.
  Proof.
    intros s p. unfold cd_evict. cbn [cd_lru set_pending]. destruct (lru_evict (cd_lru s)) as [l [k|e]]; auto.
    unfold cd_invalidate, base_invalidate, cd_delitem, base_delitem, set_pending, set_lru. destruct (c_max c); simpl.
    - destruct (dmem eqb (cd_data s) k); simpl; [|reflexivity]. destruct (dmem eqb (cd_ts s) k); simpl; [|reflexivity].
      destruct (lru_remove eqb l k) as [l2 e2]; simpl; reflexivity.
    - destruct (dmem eqb (cd_data s) k); simpl; [|reflexivity]. destruct (dmem eqb (cd_ts s) k); simpl; reflexivity.
  Qed.
  Lemma calls_pending : forall f max s p, evict_calls eqb c f max (set_pending s p) = evict_calls eqb c f max s.
  Proof. induction f as [|f IH]; intros max s p; cbn [evict_calls]; auto. rewrite evict_pending, IH. reflexivity. Qed.
  Lemma store_gone : forall ops m o, storing o -> let '(s, m0) := snd (mc_run eqb c (cd_init, m) ops) in let '((s', m'), _) := mc_step eqb c (s, m0) o in
    length (gone eqb (dkeys (cd_data s)) (dkeys (cd_data s'))) <= evictions m' - evictions m0.
  Proof.
    intros ops m o ST. destruct (snd (mc_run eqb c (cd_init, m) ops)) as [s m0] eqn:E.
    assert (I : tInv eqb c s).
    { pose proof (transparent eqb c ops cd_init m) as [_ X]. rewrite E in X. simpl in X. subst s. apply run_inv, init_inv. }
    assert (N0 : forall s' : cst, cd_data s' = cd_data s -> length (gone eqb (dkeys (cd_data s)) (dkeys (cd_data s'))) = 0) by (intros s' ->; now rewrite gone_refl).
    destruct o as [k r|k v t|k v ts t|k|k|k t| | |i g t]; try contradiction; cbn [storing] in ST; unfold mc_step; cbn [cd_step].
    - (* get *)
      destruct ST as [v G]. set (s1 := match c_max c with None => s | Some _ => set_lru s (lru_mark eqb (cd_lru s) k) end).
      assert (I1 : tInv eqb c s1) by (unfold s1; destruct (c_max c); auto using set_lru_inv).
      assert (D1 : cd_data s1 = cd_data s) by (unfold s1; destruct (c_max c); reflexivity).
      assert (BL : length (gone eqb (dkeys (cd_data s)) (dkeys (cd_data (fst (cd_get_value_block eqb c s1 k (Ok v) (r_done r)))))) <= evict_calls_set eqb c s1).
      { unfold cd_get_value_block. pose proof (setitem_gone s1 k v (r_done r) I1) as SG. unfold keys in SG. rewrite D1 in SG.
        destruct (cd_setitem eqb c s1 k v (r_done r)) as [s2 [e|]]; cbn [fst] in *; auto. destruct (c_max c); auto. }
      assert (GI : exists s' g, cd_getitem eqb c s k r = (s', g) /\ ((g_called g = false /\ cd_data s' = cd_data s) \/ (g_called g = true /\ s' = fst (cd_get_value_block eqb c s1 k (Ok v) (r_done r))))).
      { unfold cd_getitem. fold s1. rewrite G. unfold called, served.
        repeat match goal with |- context [if ?b then _ else _] => destruct b | |- context [match ?x with Some _ => _ | None => _ end] => lazymatch x with c_max _ => fail | _ => destruct x end end;
        eexists; eexists; (split; [reflexivity|]); cbn; auto. }
      destruct GI as (s' & g & -> & [[C D]|[C D]]); cbn [unit_out]; rewrite C.
      + rewrite (N0 _ D). lia.
      + rewrite G. subst s'. etransitivity; [exact BL|]. cbn [count_evictions evictions]. unfold count_refresh, count_access. destruct (cd_has_info eqb c s k (r_now r)); cbn [evictions]; fold s1; lia.
    - pose proof (setitem_gone s k v t I) as SG. unfold keys in SG. destruct (cd_setitem eqb c s k v t) as [s' e]; cbn [fst] in SG. cbn. destruct e; cbn; etransitivity; try exact SG; lia.
    - pose proof (feed_gone s k v ts t I) as SG. unfold keys in SG. destruct (cd_feed eqb c s k v ts t) as [s' e]; cbn [fst] in SG. cbn. destruct e; cbn; etransitivity; try exact SG; lia.
    - destruct ST as [v ->]. unfold cd_complete. destruct (nth_error (cd_pending s) i) as [k|].
      + fold (set_pending s (del_nth i (cd_pending s))).
        assert (I1 : tInv eqb c (set_pending s (del_nth i (cd_pending s)))) by exact I.
        pose proof (setitem_gone _ k v t I1) as SG. unfold keys, evict_calls_set in SG. cbn [cd_data cd_lru set_pending] in SG.
        assert (CE : forall mx, evict_calls eqb c (S (length (cd_lru s))) mx (set_pending s (del_nth i (cd_pending s))) = evict_calls eqb c (S (length (cd_lru s))) mx s) by (intros; apply calls_pending).
        assert (CS : match c_max c with Some mx => evict_calls eqb c (S (length (cd_lru s))) mx (set_pending s (del_nth i (cd_pending s))) | None => 0 end = evict_calls_set eqb c s).
        { unfold evict_calls_set. destruct (c_max c); auto. }
        rewrite CS in SG.
        destruct (cd_setitem eqb c (set_pending s (del_nth i (cd_pending s))) k v t) as [s' [e|]]; cbn [fst] in SG; cbn [count_evictions count_refresh evictions]; lia.
      + cbn. rewrite gone_refl. cbn. lia.
  Qed.
End Q.

Section W.
  Context {K V : Type}.
  Variable eqb : K -> K -> bool.
  Hypothesis ok : eqb_ok eqb.
  Variable ske del : bool.
  Notation wrun := (mw_run eqb ske del).
  Notation wb := (wb K V).

  Lemma w_transparent : forall ops (s : wb) m, fst (wrun (s, m) ops) = fst (wb_run eqb ske del s ops) /\ fst (snd (wrun (s, m) ops)) = snd (wb_run eqb ske del s ops).
  Proof.
    induction ops as [|o ops IH]; intros s m; cbn [mw_run wb_run]; auto. unfold mw_step. destruct (wb_step eqb ske del s o) as [s1 out].
    match goal with |- context [mw_run eqb ske del (s1, ?m1) ops] => specialize (IH s1 m1); destruct (mw_run eqb ske del (s1, m1) ops) end. destruct (wb_run eqb ske del s1 ops). simpl in *. destruct IH; subst; auto.
  Qed.
  Lemma w_accesses : forall ops (s : wb) m, let m' := snd (snd (wrun (s, m) ops)) in whits m' + wmisses m' = whits m + wmisses m + count is_wget ops.
  Proof.
    induction ops as [|o ops IH]; intros s m; cbn [mw_run]; [unfold count; simpl; lia|]. unfold mw_step. destruct (wb_step eqb ske del s o) as [s1 out].
    match goal with |- context [mw_run eqb ske del (s1, ?m1) ops] => specialize (IH s1 m1); destruct (mw_run eqb ske del (s1, m1) ops) end. cbn [snd] in *. rewrite IH.
    unfold count. destruct o; simpl; auto. destruct (memb eqb k (wb_in s)), (memb eqb k (wb_in (wb_operate s))); simpl; lia.
  Qed.
  (** the number of operations since the last reset *)
  Lemma w_ops : forall (s : wb) o, wb_ops s < 100 -> wb_ops (fst (wb_step eqb ske del s o)) <= S (wb_ops s).
  Proof.
    assert (O : forall x : wb, wb_ops x < 100 -> wb_ops (wb_operate x) = S (wb_ops x)).
    { intros x L. unfold wb_operate. destruct (Nat.ltb 100 (S (wb_ops x))) eqn:E; auto. apply Nat.ltb_lt in E. lia. }
    assert (B : forall l (x : wb), wb_ops (fold_left (wb_run_nth eqb) l x) = wb_ops x).
    { induction l as [|i l IH]; intros x; simpl; auto. rewrite IH. unfold wb_run_nth. destruct (nth_error (wb_jobs x) i); auto. }
    intros s o L. destruct o; simpl.
    - assert (G : wb_ops (fst (wb_getitem eqb ske s k sched)) <= S (wb_ops s)).
      { unfold wb_getitem. assert (X : wb_ops (wb_before eqb (wb_operate s) sched) = S (wb_ops s)) by (destruct sched; simpl; rewrite ?B; auto).
        destruct (negb (memb eqb k (wb_in (wb_operate s)))); [|simpl; rewrite O; auto]. destruct (dget eqb _ k); [simpl; lia|]. destruct ske; simpl; lia. }
      destruct (wb_getitem eqb ske s k sched) as [s' [v|e]]; exact G.
    - unfold wb_setitem. rewrite O; auto.
    - assert (G : wb_ops (fst (wb_delitem eqb ske del s k)) <= S (wb_ops s)).
      { unfold wb_delitem. destruct del; simpl; auto. rewrite O; auto. } destruct (wb_delitem eqb ske del s k) as [s' [e|]]; exact G.
    - unfold wb_run_nth. destruct (nth_error (wb_jobs s) i); simpl; auto.
    - auto.
  Qed.
  Lemma w_reads : forall ops (s : wb) m, wb_ops s + length ops <= 100 -> let m' := snd (snd (wrun (s, m) ops)) in wreads m' + wmisses m = wmisses m' + wreads m.
  Proof.
    induction ops as [|o ops IH]; intros s m L; cbn [mw_run]; [simpl; lia|]. simpl in L. pose proof (w_ops s o ltac:(lia)) as U. unfold mw_step. destruct (wb_step eqb ske del s o) as [s1 out]. simpl in U.
    match goal with |- context [mw_run eqb ske del (s1, ?m1) ops] => specialize (IH s1 m1); destruct (mw_run eqb ske del (s1, m1) ops) end. cbn [snd] in *. specialize (IH ltac:(lia)).
    assert (X : wb_in (wb_operate s) = wb_in s).
    { unfold wb_operate. destruct (Nat.ltb 100 (S (wb_ops s))) eqn:E; auto. apply Nat.ltb_lt in E. lia. }
    rewrite X in IH. destruct o; auto. destruct (memb eqb k (wb_in s)); simpl in *; lia.
  Qed.
End W.

Definition plain_cfg : cfg nat := {| c_stale := 5; c_exp := 10; c_fail := Some 2%Z; c_default := None; c_max := None |}.
Definition at_time (t : Z) (g : res nat) : read nat := {| r_mono := t; r_now := t; r_getter := g; r_done := t |}.
Lemma hits_refuted : ~ (forall (K V : Type) (eqb : K -> K -> bool), eqb_ok eqb -> forall (c : cfg V) (ops : list (cd_op K V)), Forall same_clock ops ->
  let '(outs, (_, m)) := mc_run eqb c (cd_init, no_metrics) ops in hits m = count at_once outs /\ misses m = count after_getter outs).
Proof.
  intros H. specialize (H nat nat Nat.eqb Nat.eqb_eq plain_cfg [CGet 1 (at_time 0 (Err KeyError)); CGet 1 (at_time 4 (Ok 7))]).
  assert (F : Forall (@same_clock nat nat) [CGet 1 (at_time 0 (Err KeyError)); CGet 1 (at_time 4 (Ok 7))]) by (repeat constructor).
  specialize (H F). vm_compute in H. destruct H. discriminate.
Qed.
Definition lru_cfg : cfg nat := {| c_stale := 5; c_exp := 10; c_fail := None; c_default := Some 0; c_max := Some 2 |}.
Lemma evictions_refuted : ~ (forall (K V : Type) (eqb : K -> K -> bool), eqb_ok eqb -> forall (c : cfg V) (ops : list (cd_op K V)) k v t,
  let '(s, m0) := snd (mc_run eqb c (cd_init, no_metrics) ops) in let '((s', m'), _) := mc_step eqb c (s, m0) (CSet k v t) in
  length (gone eqb (dkeys (cd_data s)) (dkeys (cd_data s'))) = evictions m' - evictions m0).
Proof.
  intros H. specialize (H nat nat Nat.eqb Nat.eqb_eq lru_cfg [CGet 1 (at_time 0 (Err KeyError)); CSet 2 20 0; CSet 3 30 0] 4 40 0%Z). vm_compute in H. discriminate.
Qed.
Definition many : list (wb_op nat nat) := WGet 1 None :: map (fun i => WSet 5 i) (seq 0 99) ++ [WGet 1 None].
Lemma wreads_refuted : ~ (forall (K V : Type) (eqb : K -> K -> bool), eqb_ok eqb -> forall ske del (store : dict K V) (ops : list (wb_op K V)),
  let m := snd (snd (mw_run eqb ske del (wb_init store, no_wmetrics) ops)) in wreads m = wmisses m).
Proof. intros H. specialize (H nat nat Nat.eqb Nat.eqb_eq true true [] many). vm_compute in H. discriminate. Qed.
Lemma waiting_refuted : ~ (forall (K V : Type) (eqb : K -> K -> bool), eqb_ok eqb -> forall ske del (store : dict K V) (ops : list (wb_op K V)),
  let s := snd (wb_run eqb ske del (wb_init store) ops) in snapshot (entries_waiting (wb_init store)) s = Ok (Some (length (wb_jobs s)))).
Proof. intros H. specialize (H nat nat Nat.eqb Nat.eqb_eq true true [] [WSet 1 1]). vm_compute in H. discriminate. Qed.
