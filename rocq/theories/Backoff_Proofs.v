From Verif Require Import Prelude PreludeFacts MoreFacts Backoff_Model Backoff_Spec.
Local Open Scope Z_scope.

Section Fixed.
  Variables (st lm : Z) (grace : nat).
  Hypothesis Hst : 0 < st.
  Hypothesis Hlm : st <= lm.
  Notation wt := (wait st lm grace).

  Lemma wait_first : wt (S grace) = st.
  Proof.
    unfold wait. destruct (S grace <=? grace)%nat eqn:E; [apply Nat.leb_le in E; lia|].
    replace (S grace - grace - 1)%nat with 0%nat by lia. simpl. lia.
  Qed.
  Lemma wait_pos k : (grace < k)%nat -> 0 < wt k.
  Proof.
    intros H. unfold wait. destruct (k <=? grace)%nat eqn:E; [apply Nat.leb_le in E; lia|].
    assert (0 < 2 ^ Z.of_nat (k - grace - 1)) by (apply Z.pow_pos_nonneg; lia). nia.
  Qed.
  Lemma wait_next k : (grace < k)%nat -> wt (S k) = Z.min lm (wt k * 2).
  Proof.
    intros H. unfold wait. destruct (k <=? grace)%nat eqn:E; [apply Nat.leb_le in E; lia|].
    destruct (S k <=? grace)%nat eqn:E2; [apply Nat.leb_le in E2; lia|].
    replace (S k - grace - 1)%nat with (S (k - grace - 1)) by lia.
    rewrite Nat2Z.inj_succ, Z.pow_succ_r by lia.
    assert (0 < 2 ^ Z.of_nat (k - grace - 1)) by (apply Z.pow_pos_nonneg; lia). 
    set (p := 2 ^ Z.of_nat (k - grace - 1)) in *. assert (0 < st * p) by nia.
    replace (st * (2 * p)) with (2 * (st * p)) by ring. lia.
  Qed.

  Definition inv (b : backoff) (h : history) (read : Z) : Prop :=
    start b = st /\ limit b = lm /\ grace_amount b = Z.of_nat grace /\
    ((failures h <= grace)%nat /\ grace_counter b = Z.of_nat (failures h) /\ counter b = 0 /\ unavailable_until b = None \/
     (grace < failures h)%nat /\ grace_counter b = Z.of_nat grace /\ counter b = wt (failures h) /\
       (unavailable_until b = Some (last_failure h + wt (failures h)) \/
        unavailable_until b = None /\ last_failure h + wt (failures h) < read)).

  Lemma inv_later b h r r' : inv b h r -> r <= r' -> inv b h r'.
  Proof. unfold inv. intros (H1 & H2 & H3 & H4) Hr. repeat split; auto. intuition lia. Qed.

  Lemma failed_inv b h r now : inv b h r -> inv (failed b now) (mk_history (S (failures h)) now) now.
  Proof.
    intros (H1 & H2 & H3 & H4). unfold failed, inv. rewrite H3.
    destruct H4 as [(F & G & C & U)|(F & G & C & U)]; rewrite G.
    - destruct (Z.of_nat grace =? Z.of_nat (failures h)) eqn:E.
      + apply Z.eqb_eq in E. assert (failures h = grace) by lia. rewrite C. simpl. repeat split; auto.
        right. rewrite H1. replace (S (failures h)) with (S grace) by lia. rewrite wait_first. repeat split; auto; lia.
      + apply Z.eqb_neq in E. simpl. repeat split; auto. left. repeat split; auto; lia.
    - rewrite Z.eqb_refl. simpl. repeat split; auto. right.
      pose proof (wait_pos (failures h) F) as Hp. rewrite C.
      destruct (wt (failures h) =? 0) eqn:E; [apply Z.eqb_eq in E; lia|].
      rewrite H2, <- wait_next by lia. repeat split; auto; lia.
  Qed.

  Lemma step_ok b h r o : inv b h r -> rising r (reading o) ->
    snd (backoff_step b o) = answer st lm grace h o /\
    inv (fst (backoff_step b o)) (after h o) (last (reading o) r).
  Proof.
    intros I Hr. destruct o as [now| | |now|now|]; cbn [backoff_step answer after reading last].
    - split; auto. cbn [fst]. eapply failed_inv; eauto.
    - split; auto. destruct I as (H1 & H2 & H3 & H4). unfold inv, success. simpl. repeat split; auto.
      left. repeat split; auto. lia.
    - split; auto. simpl. destruct I as (H1 & H2 & H3 & H4). unfold sleep. destruct H4 as [(F & G & C & U)|(F & G & C & U)]; rewrite C; auto.
      unfold wait. destruct (failures h <=? grace)%nat eqn:E; auto. apply Nat.leb_gt in E. lia.
    - destruct Hr as [Hr _]. pose proof (inv_later _ _ _ _ I Hr) as I2.
      destruct I2 as (H1 & H2 & H3 & H4). unfold time_until_next_check, waiting.
      destruct H4 as [(F & G & C & U)|(F & G & C & U)].
      + rewrite U. destruct (failures h <=? grace)%nat eqn:E; [|apply Nat.leb_gt in E; lia].
        simpl. split; auto. unfold inv. intuition.
      + destruct (failures h <=? grace)%nat eqn:E; [apply Nat.leb_le in E; lia|]. simpl.
        destruct U as [U|[U U2]]; rewrite U.
        * destruct (last_failure h + wt (failures h) <? now) eqn:L.
          { apply Z.ltb_lt in L. destruct (now <=? last_failure h + wt (failures h)) eqn:L2; [apply Z.leb_le in L2; lia|].
            simpl. split; auto. unfold inv. simpl. intuition. }
          { apply Z.ltb_ge in L. destruct (now <=? last_failure h + wt (failures h)) eqn:L2; [|apply Z.leb_gt in L2; lia].
            simpl. split; auto. unfold inv. intuition. }
        * destruct (now <=? last_failure h + wt (failures h)) eqn:L2; [apply Z.leb_le in L2; lia|].
          simpl. split; auto. unfold inv. intuition.
    - destruct Hr as [Hr _]. pose proof (inv_later _ _ _ _ I Hr) as I2.
      destruct I2 as (H1 & H2 & H3 & H4). unfold ready_for_next_check, waiting.
      destruct H4 as [(F & G & C & U)|(F & G & C & U)].
      + rewrite U. destruct (failures h <=? grace)%nat eqn:E; [|apply Nat.leb_gt in E; lia].
        simpl. split; auto. unfold inv. intuition.
      + destruct (failures h <=? grace)%nat eqn:E; [apply Nat.leb_le in E; lia|]. simpl.
        destruct U as [U|[U U2]]; rewrite U.
        * destruct (last_failure h + wt (failures h) <? now) eqn:L.
          { apply Z.ltb_lt in L. destruct (now <=? last_failure h + wt (failures h)) eqn:L2; [apply Z.leb_le in L2; lia|].
            simpl. split; auto. unfold inv. simpl. intuition. }
          { apply Z.ltb_ge in L. destruct (now <=? last_failure h + wt (failures h)) eqn:L2; [|apply Z.leb_gt in L2; lia].
            simpl. split; auto. unfold inv. intuition. }
        * destruct (now <=? last_failure h + wt (failures h)) eqn:L2; [apply Z.leb_le in L2; lia|].
          simpl. split; auto. unfold inv. intuition.
    - split; auto. simpl. unfold available. destruct I as (H1 & H2 & H3 & H4).
      destruct H4 as [(F & G & C & U)|(F & G & C & U)]; rewrite C.
      + destruct (failures h <=? grace)%nat eqn:E; auto. apply Nat.leb_gt in E. lia.
      + pose proof (wait_pos _ F). destruct (failures h <=? grace)%nat eqn:E; [apply Nat.leb_le in E; lia|].
        destruct (wt (failures h) =? 0) eqn:E2; auto. apply Z.eqb_eq in E2. lia.
  Qed.

  Lemma rising_app r l1 l2 : rising r (l1 ++ l2) <-> rising r l1 /\ rising (last l1 r) l2.
  Proof.
    revert r. induction l1 as [|x t IH]; intros r; simpl; [tauto|].
    rewrite IH. destruct t as [|y t]; [simpl; tauto|].
    replace (last (y :: t) x) with (last (y :: t) r); [tauto|].
    clear. revert y. induction t as [|z t IH]; intros y; [reflexivity|]. exact (IH z).
  Qed.

  Lemma run_ok ops : forall b h r, inv b h r -> rising r (flat_map reading ops) ->
    fst (backoff_run b ops) = answers st lm grace h ops.
  Proof.
    induction ops as [|o t IH]; intros b h r I H; simpl in *; auto.
    apply rising_app in H. destruct H as [H1 H2]. destruct (step_ok b h r o I H1) as [E I'].
    destruct (backoff_step b o) as [b' out]. simpl in E, I'. specialize (IH _ _ _ I' H2).
    destruct (backoff_run b' t). simpl in *. congruence.
  Qed.

  Lemma new_inv r t0 : inv (new_backoff st lm (Z.of_nat grace)) (mk_history 0 t0) r.
  Proof. unfold inv. simpl. repeat split; auto. left. repeat split; auto. lia. Qed.

  Lemma session_ok ops t0 : clock_rises ops ->
    fst (backoff_run (new_backoff st lm (Z.of_nat grace)) ops) = answers st lm grace (mk_history 0 t0) ops.
  Proof.
    intros H. unfold clock_rises in H. destruct (flat_map reading ops) as [|t l] eqn:E.
    - apply (run_ok ops _ _ 0). { apply new_inv. } rewrite E. exact I.
    - apply (run_ok ops _ _ t). { apply new_inv. } rewrite E. simpl. split; [lia|exact H].
  Qed.

  Lemma launched_from {R} (times : list Z) (r : R) rest : forall b h t slept, inv b h t ->
    exists b', launched b (map Failed times ++ Returned r :: rest) slept =
      (Some (Ok r), b', slept ++ map wt (seq (S (failures h)) (length times))) /\ b' = new_backoff st lm (Z.of_nat grace).
  Proof.
    induction times as [|x l IH]; intros b h t slept I; simpl.
    - exists (success b). rewrite app_nil_r. split; auto. destruct I as (H1 & H2 & H3 & _). unfold success, new_backoff. congruence.
    - pose proof (failed_inv _ _ _ x I) as I'. destruct (IH _ _ _ (slept ++ [sleep (failed b x)]) I') as (b' & E & Eb).
      exists b'. split; auto. simpl in E |- *. rewrite E.
      assert (Es : sleep (failed b x) = wt (S (failures h))).
      { destruct I' as (_ & _ & _ & H4). unfold sleep. simpl in H4. destruct H4 as [(F & _ & C & _)|(F & _ & C & _)]; rewrite C; auto.
        unfold wait. destruct (S (failures h) <=? grace)%nat eqn:E2; auto. apply Nat.leb_gt in E2. lia. }
      rewrite Es, <- app_assoc. reflexivity.
  Qed.
  Lemma launched_ok {R} (times : list Z) (r : R) rest :
    launched (new_backoff st lm (Z.of_nat grace)) (map Failed times ++ Returned r :: rest) [] =
    (Some (Ok r), new_backoff st lm (Z.of_nat grace), map wt (seq 1 (length times))).
  Proof.
    destruct (launched_from times r rest _ (mk_history 0 0) 0 [] (new_inv 0 0)) as (b' & E & ->). exact E.
  Qed.
  Lemma launched_raise {R} (times : list Z) e rest : forall b slept,
    fst (fst (launched b (map Failed times ++ @Raised R e :: rest) slept)) = Some (Err e).
  Proof. induction times as [|x l IH]; intros b slept; simpl; auto. Qed.

  Lemma wait_loop_ok turns : forall b timeout began waited b' ws,
    wait_loop b timeout began turns waited = (Some (Ok tt), b', ws) ->
    unavailable_until b' = None /\
    (unavailable_until b = None \/ (exists t, In t turns /\ notified t = true) \/
     exists t u, In t turns /\ unavailable_until b = Some u /\ u < at_check t).
  Proof.
    induction turns as [|t rest IH]; intros b timeout began waited b' ws H; simpl in H; [discriminate|].
    destruct (match timeout with None => false | Some limit => limit <=? at_timeouted t - began end); [discriminate|].
    unfold time_until_next_check in H. destruct (unavailable_until b) as [u|] eqn:E.
    - destruct (u <? at_check t) eqn:L.
      + injection H as <- _. simpl. split; auto. right. right. exists t, u. apply Z.ltb_lt in L. simpl. auto.
      + destruct (IH _ _ _ _ _ _ H) as [H1 H2]. split; auto. destruct (notified t) eqn:N.
        * right. left. exists t. simpl. auto.
        * rewrite E in H2. destruct H2 as [H2|[(t' & H2 & H3)|(t' & u' & H2 & H3 & H4)]]; [discriminate| |].
          { right. left. exists t'. simpl. auto. }
          { right. right. exists t', u'. simpl. auto. }
    - injection H as <- _. auto.
  Qed.
  Lemma wait_loop_err turns : forall b timeout began waited b' ws e,
    wait_loop b timeout began turns waited = (Some (Err e), b', ws) ->
    e = WouldWaitMore /\ exists l t, timeout = Some l /\ In t turns /\ l <= at_timeouted t - began.
  Proof.
    induction turns as [|t rest IH]; intros b timeout began waited b' ws e H; simpl in H; [discriminate|].
    destruct timeout as [l|].
    - destruct (l <=? at_timeouted t - began) eqn:E.
      + injection H as <- _ _. apply Z.leb_le in E. split; auto. exists l, t. simpl. auto.
      + destruct (time_until_next_check b (at_check t)) as [b1 [tn|]]; [|discriminate].
        destruct (IH _ _ _ _ _ _ _ H) as (H1 & l' & t' & H2 & H3 & H4). split; auto. exists l', t'. simpl. auto.
    - destruct (time_until_next_check b (at_check t)) as [b1 [tn|]]; [|discriminate].
      destruct (IH _ _ _ _ _ _ _ H) as (H1 & l' & t' & H2 & H3 & H4). discriminate.
  Qed.
End Fixed.
