From Verif Require Import Prelude PreludeFacts MoreFacts Futures_Model Futures_Spec.

Section P.
  Variable V : Type.
  Variable none : V.

  Definition st (b : bool) : fstate := if b then RUNNING else PENDING.
  Definition cst (b : bool) : fstate := if b then CANCELLED_AND_NOTIFIED else CANCELLED.
  Definition rel_stage (wrapped : bool) (f : future V) (s : stage V) : Prop :=
    match s with
    | Open b => exception_ f = None /\ if wrapped then source f = Some (st b) /\ is_over (own f) = false else source f = None /\ own f = st b
    | Cancelled n => exception_ f = None /\ if wrapped then source f = Some (cst n) else source f = None /\ own f = cst n
    | Completed r => own f = FINISHED /\ get_result f = r /\ if wrapped then source f = Some FINISHED else source f = None
    end.
  Record rel (wrapped : bool) (f : future V) (s : promise V) : Prop := {
    rel_pre : pre f = before s; rel_done : done f = after s; rel_st : rel_stage wrapped f (stage_ s) }.

  Lemma state_open : forall w f b, rel_stage w f (Open b) -> get_state f = st b.
  Proof. intros w f b [_ H]. unfold get_state. destruct w; destruct H as [H1 H2]; rewrite H1; [destruct b; reflexivity|assumption]. Qed.
  Lemma state_cancelled : forall w f b, rel_stage w f (Cancelled b) -> get_state f = cst b.
  Proof. intros w f b [_ H]. unfold get_state. destruct w; [rewrite H; destruct b; reflexivity|]. destruct H as [H1 H2]. rewrite H1. assumption. Qed.
  Lemma state_completed : forall w f r, rel_stage w f (Completed r) -> get_state f = FINISHED.
  Proof. intros w f r [H1 [H2 H3]]. unfold get_state. destruct w; rewrite H3; assumption. Qed.

  Definition same (f f' : future V) : Prop :=
    own f' = own f /\ source f' = source f /\ pre f' = pre f /\ done f' = done f.
  Lemma same_refl : forall f, same f f. Proof. unfold same. auto. Qed.
  Lemma same_trans : forall a b c, same a b -> same b c -> same a c.
  Proof. unfold same. intros a b c [H1 [H2 [H3 H4]]] [K1 [K2 [K3 K4]]]. rewrite K1, K2, K3, K4. auto. Qed.
  Lemma same_state : forall f f', same f f' -> get_state f' = get_state f.
  Proof. unfold same, get_state. intros f f' [H1 [H2 _]]. rewrite H1, H2. reflexivity. Qed.

  Lemma play_raised : forall s f, alone s -> play none f true s = (f, []).
  Proof. induction s as [|[o a] t IH]; intros f H; [reflexivity|]. destruct H as [H1 H2]. subst o. simpl. apply IH. assumption. Qed.

  Lemma play_pre : forall s f r, get_state f = PRE_FINISHED -> get_result f = r -> plain_script r s ->
    exists f', play none f false s = (f', snd (replay r s)) /\ same f f' /\ get_result f' = fst (replay r s).
  Proof.
    induction s as [|[o a] t IH]; intros f r Hs Hr Hp.
    - exists f. simpl. auto using same_refl.
    - destruct Hp as [Ho Hp]. subst o. cbn [play negb andb replay].
      destruct a as [|v|e| |].
      + destruct (IH f r Hs Hr Hp) as [f' [H1 [H2 H3]]]. exists f'. rewrite H1.
        unfold result. rewrite Hs, Hr. destruct (replay r t) as [r' ev]. simpl in *. auto.
      + destruct Hp as [[v0 Hv0] Hp]. unfold set_inside. rewrite Hs.
        set (f1 := put_result f v).
        assert (Hsame : same f f1) by (unfold same, f1; simpl; auto).
        assert (Hg : get_result f1 = Ok v).
        { rewrite Hv0 in Hr. unfold get_result in *. unfold f1. simpl. destruct (exception_ f); [discriminate|reflexivity]. }
        destruct (IH f1 (Ok v)) as [f' [H1 [H2 H3]]].
        * rewrite (same_state _ _ Hsame). assumption.
        * assumption.
        * assumption.
        * exists f'. eauto using same_trans.
      + unfold set_inside. rewrite Hs. set (f1 := put_exception (put_result f none) e).
        assert (Hsame : same f f1) by (unfold same, f1; simpl; auto).
        destruct (IH f1 (Err e)) as [f' [H1 [H2 H3]]].
        * rewrite (same_state _ _ Hsame). assumption.
        * reflexivity.
        * assumption.
        * exists f'. eauto using same_trans.
      + destruct Hp.
      + rewrite play_raised by assumption. exists f. simpl. auto using same_refl.
  Qed.
  Lemma pre_all : forall w cbs f r, get_state f = PRE_FINISHED -> get_result f = r -> plain_scripts r w cbs ->
    exists f', invoke_pre_callbacks none f w cbs = (f', snd (replay_all r w cbs)) /\ same f f' /\ get_result f' = fst (replay_all r w cbs).
  Proof.
    intros w. induction cbs as [|c t IH]; intros f r Hs Hr Hp.
    - exists f. simpl. auto using same_refl.
    - destruct Hp as [Hp Ht]. destruct (play_pre (w c) f r Hs Hr Hp) as [f1 [H1 [H2 H3]]].
      cbn [invoke_pre_callbacks replay_all]. rewrite H1.
      assert (Hs1 : get_state f1 = PRE_FINISHED) by (rewrite (same_state _ _ H2); assumption).
      destruct (IH f1 _ Hs1 H3 Ht) as [f' [G1 [G2 G3]]]. exists f'. rewrite G1.
      destruct (replay r (w c)) as [r1 ev1]. simpl in *. destruct (replay_all r1 w t) as [r' ev]. simpl in *. eauto using same_trans.
  Qed.

  Lemma play_over : forall s f r, is_over (get_state f) = true -> result f = r -> alone s ->
    play none f false s = (f, look r s).
  Proof.
    induction s as [|[o a] t IH]; intros f r Hs Hr Hp; [reflexivity|].
    destruct Hp as [Ho Hp]. subst o. cbn [play negb andb look].
    assert (Hn : forall x, set_inside none f x = None) by (intros; unfold set_inside; destruct (get_state f); try discriminate; reflexivity).
    destruct a as [|v|e| |].
    - rewrite (IH f r Hs Hr Hp). rewrite Hr. reflexivity.
    - rewrite Hn. apply play_raised. assumption.
    - rewrite Hn. apply play_raised. assumption.
    - assert (Hc : exists b, cancel f = (f, b, [])).
      { unfold cancel, cancel_own. destruct (source f) as [s|] eqn:E.
        - unfold get_state in Hs. unfold get_state. rewrite E in *. destruct s; simpl in *; try discriminate.
          + rewrite E. simpl. eexists. reflexivity.
          + rewrite E. simpl. eexists. reflexivity.
          + destruct (own f) eqn:Eo; simpl in *; try discriminate; rewrite E; simpl; eexists; reflexivity.
        - unfold get_state in Hs. unfold get_state. rewrite E in *. destruct (own f); simpl in *; try discriminate; eexists; reflexivity. }
      destruct Hc as [b Hc]. rewrite Hc. rewrite (IH f r Hs Hr Hp). reflexivity.
    - apply play_raised. assumption.
  Qed.

  Lemma invoke_completed : forall (f : future V) (r : res V) cb, result f = r -> get_result f = r -> invoke f cb = tell r cb.
  Proof.
    intros f r [k c] H1 H2. unfold get_result in H2.
    destruct k; simpl; rewrite ?H1; destruct (exception_ f) as [e|]; rewrite <- H2; reflexivity.
  Qed.
  Lemma flat_map_eq : forall (S T : Type) (g h : S -> list T) l, (forall x, In x l -> g x = h x) -> flat_map g l = flat_map h l.
  Proof. intros S T g h l H. induction l as [|x l IH]; [reflexivity|]. simpl. rewrite H by (left; reflexivity). rewrite IH; [reflexivity|]. intros; apply H; right; assumption. Qed.

  (** completing a future that is open (the state of the wrapped one is already FINISHED) *)
  Lemma complete_ok : forall (wrapped : bool) (f : future V) (r : res V) w,
    exception_ f = None -> is_over (get_state f) = false -> source f = (if wrapped then Some FINISHED else None) ->
    plain_scripts r w (pre f) ->
    exists f', complete none f r w =
      (f', Ok tt, snd (replay_all r w (pre f)) ++ flat_map (tell (fst (replay_all r w (pre f)))) (done f)) /\
      pre f' = pre f /\ done f' = done f /\ rel_stage wrapped f' (Completed (fst (replay_all r w (pre f)))).
  Proof.
    intros wrapped f r w He Ho Hsrc Hp. unfold complete. rewrite Ho.
    set (f1 := match r with Ok v => put_result f v | Err e => put_exception f e end).
    assert (Hf1 : pre f1 = pre f /\ done f1 = done f /\ source f1 = source f /\ get_result f1 = r).
    { unfold f1. destruct r as [v|e]; simpl; repeat split; unfold get_result; simpl; rewrite ?He; reflexivity. }
    destruct Hf1 as [P1 [P2 [P3 P4]]].
    assert (Hst : get_state (set_state f1 PRE_FINISHED) = PRE_FINISHED).
    { unfold get_state. simpl. rewrite P3, Hsrc. destruct wrapped; reflexivity. }
    destruct (pre_all w (pre f) (set_state f1 PRE_FINISHED) r Hst P4 Hp) as [f2 [G1 [[S1 [S2 [S3 S4]]] G3]]].
    rewrite G1. simpl in S1, S2, S3, S4.
    exists (set_state f2 FINISHED).
    assert (Hrel : rel_stage wrapped (set_state f2 FINISHED) (Completed (fst (replay_all r w (pre f))))).
    { simpl. repeat split; [exact G3|]. rewrite S2, P3, Hsrc. destruct wrapped; reflexivity. }
    split.
    - f_equal. f_equal. unfold invoke_callbacks. simpl. rewrite S4, P2. apply flat_map_eq. intros cb _.
      apply invoke_completed; [|exact G3]. unfold result. rewrite (state_completed _ _ _ Hrel). exact G3.
    - simpl. rewrite S3, S4. auto.
  Qed.

  Lemma tell_cancelled_ok : forall (f : future V) k c, exception_ f = None -> result f = Err CancelledExn -> no_success k ->
    invoke f (k, c) = tell_cancelled V (k, c).
  Proof. intros f k c He Hr [H|H]; subst k; simpl; [rewrite Hr|rewrite He]; reflexivity. Qed.

  Lemma replay_split : forall (r : res V) w cbs, replay_all r w cbs = (fst (replay_all r w cbs), snd (replay_all r w cbs)).
  Proof. intros. destruct (replay_all r w cbs). reflexivity. Qed.
  Lemma set_ok : forall (wrapped : bool) (f : future V) (s : promise V) r w, rel wrapped f s ->
    match stage_ s with Open _ => plain_scripts r w (before s) | _ => True end ->
    exists f' a ev, (if wrapped then source_completed none f r w else complete none f r w) = (f', a, ev) /\
      snd (spec_set s r w) = (AUnit a, ev) /\ rel wrapped f' (fst (spec_set s r w)).
  Proof.
    intros wrapped f s r w [H1 H2 H3] Hp. unfold spec_set. destruct (stage_ s) as [b|n|r0] eqn:Es.
    - pose proof (state_open _ _ _ H3) as Hst. destruct H3 as [He H3]. rewrite <- H1, <- H2 in *.
      rewrite (replay_split r w (pre f)). cbn [fst snd]. destruct wrapped.
      + destruct H3 as [Hs Ho]. unfold source_completed.
        destruct (complete_ok true (set_source f FINISHED) r w) as [f' [G1 [G2 [G3 G4]]]]; try reflexivity; try assumption.
        rewrite G1, Hs. exists f', (Ok tt), (snd (replay_all r w (pre f)) ++ flat_map (tell (fst (replay_all r w (pre f)))) (done f)).
        split; [destruct b; reflexivity|]. split; [reflexivity|]. constructor; assumption.
      + destruct H3 as [Hs Ho].
        destruct (complete_ok false f r w) as [f' [G1 [G2 [G3 G4]]]]; try assumption.
        { rewrite Hst. destruct b; reflexivity. }
        exists f', (Ok tt), (snd (replay_all r w (pre f)) ++ flat_map (tell (fst (replay_all r w (pre f)))) (done f)).
        split; [assumption|]. split; [reflexivity|]. constructor; assumption.
    - pose proof (state_cancelled _ _ _ H3) as Hst. exists f, (Err InvalidStateExn), []. split.
      + destruct H3 as [He H3]. destruct wrapped.
        * unfold source_completed. rewrite H3. destruct n; reflexivity.
        * unfold complete. rewrite Hst. destruct n; reflexivity.
      + split; [reflexivity|]. constructor; try assumption. simpl. rewrite Es. assumption.
    - pose proof (state_completed _ _ _ H3) as Hst. exists f, (Err InvalidStateExn), []. split.
      + destruct H3 as [He [Hr H3]]. destruct wrapped.
        * unfold source_completed. rewrite H3. reflexivity.
        * unfold complete. rewrite Hst. reflexivity.
      + split; [reflexivity|]. constructor; try assumption. simpl. rewrite Es. assumption.
  Qed.

  Lemma failure_only : forall (f : future V) l, exception_ f = None -> Forall (fun cb : kind * nat => fst cb = DFailure) l ->
    flat_map (invoke f) l = [] /\ flat_map (tell_cancelled V) l = [].
  Proof.
    intros f l He H. induction H as [|[k c] l Hk Hl IH]; [split; reflexivity|]. simpl in Hk. subst k.
    simpl. rewrite He. exact IH.
  Qed.

  Lemma cancel_ok : forall wrapped (f : future V) (s : promise V), rel wrapped f s -> proper_op wrapped s FCancel ->
    exists f' b ev, cancel f = (f', b, ev) /\ snd (spec_cancel s) = (ABool (Ok b), ev) /\ rel wrapped f' (fst (spec_cancel s)).
  Proof.
    intros wrapped f s [H1 H2 H3] Hp. unfold spec_cancel. simpl in Hp. unfold cancel, cancel_own.
    destruct (stage_ s) as [b|n|r0] eqn:Es.
    - rewrite (state_open _ _ _ H3). destruct H3 as [He H3]. destruct b.
      + exists f, false, []. destruct wrapped; destruct H3 as [Hs Ho]; rewrite Hs; simpl; rewrite ?Hs; (split; [reflexivity|]; split; [reflexivity|];
          constructor; try assumption; simpl; rewrite Es; simpl; auto).
      + destruct Hp as [Hb Hf]. destruct wrapped; destruct H3 as [Hs Ho]; rewrite Hs; simpl; rewrite ?Hs.
        * eexists _, _, _. split; [reflexivity|]. unfold invoke_callbacks. simpl. rewrite H2.
          destruct (failure_only (set_state f CANCELLED) (after s) He Hf) as [F1 F2]. rewrite F1, F2.
          split; [reflexivity|]. constructor; simpl; auto.
        * eexists _, _, _. split; [reflexivity|]. unfold invoke_callbacks. simpl. rewrite H2.
          split.
          { f_equal. apply flat_map_eq. intros [k c] Hi. rewrite Forall_forall in Hf. specialize (Hf _ Hi). simpl in Hf. symmetry.
            apply tell_cancelled_ok; try assumption. unfold result, get_state. simpl. rewrite Hs. reflexivity. }
          constructor; simpl; auto.
    - rewrite (state_cancelled _ _ _ H3). destruct H3 as [He H3]. exists f, true, [].
      split.
      + destruct wrapped.
        * rewrite H3. destruct n; simpl; rewrite H3; reflexivity.
        * destruct H3 as [Hs Ho]. rewrite Hs. destruct n; reflexivity.
      + split; [reflexivity|]. constructor; try assumption. simpl. rewrite Es. simpl. auto.
    - rewrite (state_completed _ _ _ H3). exists f, false, []. split.
      + destruct H3 as [Ho [Hr Hs]]. destruct wrapped; rewrite Hs; simpl; rewrite ?Hs; reflexivity.
      + split; [reflexivity|]. constructor; try assumption. simpl. rewrite Es. assumption.
  Qed.

  Lemma step_ok : forall (wrapped : bool) (f : future V) (s : promise V) (o : future_op V), rel wrapped f s -> proper_op wrapped s o ->
    snd (future_step none f o) = snd (spec_step s o) /\ rel wrapped (fst (future_step none f o)) (fst (spec_step s o)).
  Proof.
    intros wrapped f s o Hr Hp. destruct o as [c sc|k c|r w| | | | |r w|].
    - (* add_pre *)
      destruct Hr as [H1 H2 H3]. simpl in Hp. unfold future_step, add_pre_done_callback, spec_step. destruct (stage_ s) as [b|n|r0] eqn:Es.
      + rewrite (state_open _ _ _ H3). destruct b; simpl; (split; [reflexivity|]); constructor; simpl; try (rewrite H1; reflexivity); assumption.
      + assert (Ho : is_over (get_state f) = true) by (rewrite (state_cancelled _ _ _ H3); destruct n; reflexivity).
        rewrite Ho. rewrite (play_over sc f (Err CancelledExn) Ho); [| |assumption].
        * simpl. split; [reflexivity|]. constructor; try assumption. rewrite Es. assumption.
        * unfold result. rewrite (state_cancelled _ _ _ H3). destruct n; reflexivity.
      + assert (Ho : is_over (get_state f) = true) by (rewrite (state_completed _ _ _ H3); reflexivity).
        rewrite Ho. rewrite (play_over sc f r0 Ho); [| |assumption].
        * simpl. split; [reflexivity|]. constructor; try assumption. rewrite Es. assumption.
        * unfold result. rewrite (state_completed _ _ _ H3). apply H3.
    - destruct Hr as [H1 H2 H3]. simpl in Hp. unfold future_step, add_done_callback, spec_step. destruct (stage_ s) as [b|n|r0] eqn:Es.
      + rewrite (state_open _ _ _ H3). destruct b; simpl; (split; [reflexivity|]); constructor; simpl; try (rewrite H2; reflexivity); assumption.
      + rewrite (state_cancelled _ _ _ H3). replace (is_over (cst n)) with true by (destruct n; reflexivity).
        cbn [fst snd]. rewrite tell_cancelled_ok; [| | |assumption].
        * split; [reflexivity|]. constructor; try assumption. rewrite Es. assumption.
        * apply H3.
        * unfold result. rewrite (state_cancelled _ _ _ H3). destruct n; reflexivity.
      + rewrite (state_completed _ _ _ H3). cbn [is_over fst snd]. rewrite (invoke_completed f r0).
        * split; [reflexivity|]. constructor; try assumption. rewrite Es. assumption.
        * unfold result. rewrite (state_completed _ _ _ H3). apply H3.
        * apply H3.
    - destruct Hp as [Hw Hp]. subst wrapped. destruct (set_ok false f s r w Hr Hp) as [f' [a [ev [G1 [G2 G3]]]]].
      unfold future_step. rewrite G1. simpl. rewrite G2. auto.
    - destruct (cancel_ok wrapped f s Hr Hp) as [f' [b [ev [G1 [G2 G3]]]]]. unfold future_step. rewrite G1. simpl. rewrite G2. auto.
    - destruct Hr as [H1 H2 H3]. unfold future_step, set_running_or_notify_cancel, spec_step. destruct (stage_ s) as [b|n|r0] eqn:Es; simpl in H3.
      + destruct H3 as [He H3]. destruct wrapped; destruct H3 as [Hs Ho]; rewrite Hs.
        * destruct b; simpl; (split; [reflexivity|]); constructor; simpl; auto. rewrite Es. simpl. auto.
        * rewrite Ho. destruct b; simpl; (split; [reflexivity|]); constructor; simpl; auto. rewrite Es. simpl. auto.
      + destruct H3 as [He H3]. destruct wrapped.
        * rewrite H3. destruct n; simpl; (split; [reflexivity|]); constructor; simpl; auto. rewrite Es. simpl. auto.
        * destruct H3 as [Hs Ho]. rewrite Hs, Ho. destruct n; simpl; (split; [reflexivity|]); constructor; simpl; auto. rewrite Es. simpl. auto.
      + destruct H3 as [Ho [Hr Hs]]. destruct wrapped; rewrite Hs; [|rewrite Ho]; simpl; (split; [reflexivity|]); constructor; auto; rewrite Es; simpl; auto.
    - simpl. split; [|assumption]. destruct Hr as [H1 H2 H3]. unfold result. destruct (stage_ s) as [b|n|r0].
      + rewrite (state_open _ _ _ H3). destruct b; reflexivity.
      + rewrite (state_cancelled _ _ _ H3). destruct n; reflexivity.
      + rewrite (state_completed _ _ _ H3). destruct H3 as [_ [H3 _]]. rewrite H3. reflexivity.
    - simpl. split; [|assumption]. destruct Hr as [H1 H2 H3]. unfold exception. destruct (stage_ s) as [b|n|r0].
      + rewrite (state_open _ _ _ H3). destruct b; reflexivity.
      + rewrite (state_cancelled _ _ _ H3). destruct n; reflexivity.
      + rewrite (state_completed _ _ _ H3). destruct H3 as [_ [H3 _]]. unfold get_result in H3.
        destruct (exception_ f); subst r0; reflexivity.
    - destruct Hp as [Hw Hp]. subst wrapped. destruct (set_ok true f s r w Hr Hp) as [f' [a [ev [G1 [G2 G3]]]]].
      unfold future_step. rewrite G1. simpl. rewrite G2. auto.
    - destruct Hp as [Hw Hp]. subst wrapped. destruct Hr as [H1 H2 H3].
      unfold future_step, source_cancelled, spec_step, spec_cancel. destruct (stage_ s) as [b|n|r0] eqn:Es; simpl in H3.
      + destruct H3 as [He [Hs Ho]]. rewrite Hs. destruct b; simpl.
        * split; [reflexivity|]. constructor; auto. rewrite Es. simpl. auto.
        * destruct Hp as [Hb Hf]. destruct (failure_only f (after s) He Hf) as [_ F2]. rewrite F2.
          split; [reflexivity|]. constructor; simpl; auto.
      + destruct H3 as [He Hs]. rewrite Hs. destruct n; simpl; (split; [reflexivity|]); constructor; auto; rewrite Es; simpl; auto.
      + destruct H3 as [Ho [Hr Hs]]. rewrite Hs. simpl. split; [reflexivity|]. constructor; auto. rewrite Es. simpl. auto.
  Qed.

  Lemma run_ok : forall wrapped (ops : list (future_op V)) f s, rel wrapped f s -> proper wrapped s ops ->
    fst (future_run none f ops) = spec_run s ops.
  Proof.
    intros wrapped. induction ops as [|o t IH]; intros f s Hr Hp; [reflexivity|].
    simpl in Hp. destruct Hp as [Hp Ht]. destruct (step_ok wrapped f s o Hr Hp) as [E Hr'].
    cbn [future_run spec_run].
    destruct (future_step none f o) as [f' out]. destruct (spec_step s o) as [s' out'].
    simpl in *. subst out'. specialize (IH f' s' Hr' Ht). destruct (future_run none f' t). simpl in *. rewrite IH. reflexivity.
  Qed.
  (** what is finished stays as it is, whatever callbacks and other threads do *)
  Lemma play_finished : forall sc (f : future V) b, own f = FINISHED -> source f = None -> fst (play none f b sc) = f.
  Proof.
    induction sc as [|[o a] t IH]; intros f b Ho Hs; [reflexivity|]. cbn [play].
    destruct (negb o && b); [apply IH; assumption|].
    assert (Hn : forall x, set_inside none f x = None) by (intros; unfold set_inside, get_state; rewrite Hs, Ho; reflexivity).
    destruct a; rewrite ?Hn; try (apply IH; assumption).
    - specialize (IH f b Ho Hs). destruct (play none f b t). exact IH.
    - destruct o; [apply IH; assumption|]. unfold cancel, cancel_own, get_state. rewrite Hs, Ho.
      specialize (IH f b Ho Hs). destruct (play none f b t). exact IH.
  Qed.
  Lemma step_finished : forall (f : future V) o, own f = FINISHED -> source f = None -> fst (future_step none f o) = f.
  Proof.
    intros f o Ho Hs. assert (Hst : get_state f = FINISHED) by (unfold get_state; rewrite Hs; assumption).
    destruct o; unfold future_step, add_pre_done_callback, add_done_callback, complete, cancel, cancel_own, set_running_or_notify_cancel,
      source_completed, source_cancelled; rewrite ?Hst, ?Hs, ?Ho; try reflexivity.
    cbn [is_over]. pose proof (play_finished s f false Ho Hs) as H. destruct (play none f false s). exact H.
  Qed.
  Lemma run_finished : forall ops (f : future V), own f = FINISHED -> source f = None -> snd (future_run none f ops) = f.
  Proof.
    induction ops as [|o t IH]; intros f Ho Hs; [reflexivity|]. cbn [future_run].
    pose proof (step_finished f o Ho Hs) as E. destruct (future_step none f o) as [f' out]. simpl in E. subst f'.
    specialize (IH f Ho Hs). destruct (future_run none f t). exact IH.
  Qed.
  Lemma set_finishes : forall (f : future V) r w f' ev, source f = None -> complete none f r w = (f', Ok tt, ev) ->
    own f' = FINISHED.
  Proof.
    intros f r w f' ev Hs. unfold complete. destruct (is_over (get_state f)); [discriminate|].
    destruct (invoke_pre_callbacks none _ w (pre f)) as [f2 ev2]. intros H. inversion H. reflexivity.
  Qed.
  Lemma play_source : forall sc (f : future V) b, source f = None -> source (fst (play none f b sc)) = None.
  Proof.
    induction sc as [|[o a] t IH]; intros f b Hs; [assumption|]. cbn [play].
    destruct (negb o && b); [apply IH; assumption|]. unfold set_inside.
    destruct a.
    - specialize (IH f b Hs). destruct (play none f b t). exact IH.
    - destruct (get_state f); apply IH; assumption.
    - destruct (get_state f); apply IH; assumption.
    - destruct o; [apply IH; assumption|].
      assert (Hc : source (fst (fst (cancel f))) = None).
      { unfold cancel, cancel_own. rewrite Hs. destruct (get_state f); simpl; assumption. }
      destruct (cancel f) as [[f1 b1] ev1]. simpl in Hc. specialize (IH f1 b Hc). destruct (play none f1 b t). exact IH.
    - apply IH. assumption.
  Qed.
  Lemma set_keeps_source : forall (f : future V) r w, source f = None -> source (fst (fst (complete none f r w))) = None.
  Proof.
    intros f r w Hs. unfold complete. destruct (is_over (get_state f)); [assumption|].
    set (f0 := set_state _ PRE_FINISHED).
    assert (H0 : source f0 = None) by (unfold f0; destruct r; simpl; assumption).
    assert (H : forall cbs g, source g = None -> source (fst (invoke_pre_callbacks none g w cbs)) = None).
    { induction cbs as [|c t IH]; intros g Hg; [assumption|]. cbn [invoke_pre_callbacks].
      pose proof (play_source (w c) g false Hg) as H. destruct (play none g false (w c)) as [f1 ev1]. simpl in H.
      specialize (IH f1 H). destruct (invoke_pre_callbacks none f1 w t). exact IH. }
    specialize (H (pre f) f0 H0). destruct (invoke_pre_callbacks none f0 w (pre f)) as [f2 ev2]. exact H.
  Qed.
  Lemma set_once : forall (f : future V) r w f' ev, source f = None -> complete none f r w = (f', Ok tt, ev) ->
    (forall ops, result (snd (future_run none f' ops)) = result f') /\
    forall ops r' w', complete none (snd (future_run none f' ops)) r' w' = (f', Err InvalidStateExn, []).
  Proof.
    intros f r w f' ev Hs E. pose proof (set_finishes f r w f' ev Hs E) as Ho.
    pose proof (set_keeps_source f r w Hs) as Hs'. rewrite E in Hs'. simpl in Hs'.
    split; intros; rewrite (run_finished ops f' Ho Hs'); [reflexivity|].
    unfold complete, get_state. rewrite Hs', Ho. reflexivity.
  Qed.

  Lemma coll_results_ok : forall (fs : list (future V)) vs, coll_results fs = Ok vs <-> Forall2 (fun f v => result f = Ok v) fs vs.
  Proof.
    induction fs as [|f t IH]; intros vs; simpl.
    - split; [intros H; inversion H; constructor|intros H; inversion H; reflexivity].
    - destruct (result f) as [v|e] eqn:E.
      + destruct (coll_results t) as [vs'|e].
        * split; intros H.
          { inversion H; subst. constructor; [assumption|]. apply IH. reflexivity. }
          { inversion H as [|? ? ? l ? Hl]; subst. apply IH in Hl. inversion Hl. congruence. }
        * split; intros H; [discriminate|]. inversion H as [|? ? ? l ? Hl]; subst. apply IH in Hl. discriminate.
      + split; intros H; [discriminate|]. inversion H; subst. congruence.
  Qed.
  Lemma coll_results_err : forall (fs : list (future V)) e, coll_results fs = Err e <->
    exists pre f post, fs = pre ++ f :: post /\ (forall g, In g pre -> exists v, result g = Ok v) /\ result f = Err e.
  Proof.
    induction fs as [|f t IH]; intros e; simpl.
    - split; [discriminate|]. intros [p [f [q [H _]]]]. destruct p; discriminate.
    - destruct (result f) as [v|e0] eqn:E.
      + assert (H : coll_results t = Err e <-> (match coll_results t with Ok vs => Ok (v :: vs) | Err e1 => Err e1 end) = Err e).
        { destruct (coll_results t); split; intro H; congruence. }
        rewrite <- H, IH. split.
        * intros [p [g [q [H1 [H2 H3]]]]]. exists (f :: p), g, q. subst t. split; [reflexivity|]. split; [|assumption].
          intros x [Hx|Hx]; [subst; eauto|auto].
        * intros [p [g [q [H1 [H2 H3]]]]]. destruct p as [|x p]; simpl in H1; inversion H1; subst; [congruence|].
          exists p, g, q. split; [reflexivity|]. split; [|assumption]. intros; apply H2; right; assumption.
      + split.
        * intros H. inversion H; subst. exists [], f, t. split; [reflexivity|]. split; [intros ? []|assumption].
        * intros [p [g [q [H1 [H2 H3]]]]]. destruct p as [|x p]; simpl in H1; inversion H1; subst; [congruence|].
          destruct (H2 x (or_introl eq_refl)). congruence.
  Qed.
  Lemma coll_result_ok : forall (fs : list (future V)) vs, coll_result fs = Ok vs <-> Forall2 (fun f v => result f = Ok v) fs vs.
  Proof.
    intros. rewrite <- coll_results_ok. unfold coll_result. destruct (coll_results fs) as [v|e]; [reflexivity|].
    split; intros H; [destruct e; discriminate|discriminate].
  Qed.
  Lemma coll_result_err : forall (fs : list (future V)) pre f post e, fs = pre ++ f :: post ->
    (forall g, In g pre -> exists v, result g = Ok v) -> result f = Err e -> coll_result fs = Err (match e with TimeoutExn => WouldWaitMore | e => e end).
  Proof.
    intros fs p f q e H1 H2 H3. unfold coll_result. replace (coll_results fs) with (Err e : res (list V)); [destruct e; reflexivity|].
    symmetry. apply coll_results_err. exists p, f, q. auto.
  Qed.
  Lemma coll_exception_none : forall (fs : list (future V)), coll_exception fs = Ok None <-> Forall (fun f => exception f = Ok None) fs.
  Proof.
    intros fs. assert (H : coll_exceptions fs = Ok None <-> Forall (fun f => exception f = Ok None) fs).
    { induction fs as [|f t IH]; simpl; [split; auto|]. destruct (exception f) as [[e|]|e] eqn:E.
      - split; intros H; [discriminate|inversion H; congruence].
      - rewrite IH. split; intros H; [constructor; auto|inversion H; auto].
      - split; intros H; [discriminate|inversion H; congruence]. }
    rewrite <- H. unfold coll_exception. destruct (coll_exceptions fs) as [v|e]; [reflexivity|]. split; intros K; [destruct e; discriminate|discriminate].
  Qed.
  Lemma coll_exception_first : forall (fs : list (future V)) pre f post e, fs = pre ++ f :: post ->
    (forall g, In g pre -> exception g = Ok None) -> exception f = Ok (Some e) -> coll_exception fs = Ok (Some e).
  Proof.
    intros fs p f q e H1 H2 H3. subst fs. unfold coll_exception.
    assert (H : coll_exceptions (p ++ f :: q) = Ok (Some e)).
    { induction p as [|g p IH]; simpl; [rewrite H3; reflexivity|]. rewrite H2 by (left; reflexivity). apply IH. intros; apply H2; right; assumption. }
    rewrite H. reflexivity.
  Qed.
  Lemma plain_nothing : forall (r : res V) cbs, plain_scripts r (fun _ => []) cbs /\ fst (replay_all r (fun _ => []) cbs) = r.
  Proof.
    intros r. induction cbs as [|c t [IH1 IH2]]; [split; [exact I|reflexivity]|]. simpl. split; [auto|].
    destruct (replay_all r (fun _ => []) t). exact IH2.
  Qed.
  Lemma coll_set_ok : forall r (fs : list (future V)),
    Forall (fun f => source f = None /\ exception_ f = None /\ (own f = PENDING \/ own f = RUNNING)) fs ->
    exists fs', coll_set none r fs = (fs', Ok tt) /\ length fs' = length fs /\ Forall (fun f => result f = r) fs'.
  Proof.
    intros r fs H. induction H as [|f t Hf0 Ht IH].
    - exists []. simpl. auto.
    - assert (Hf : exists b, rel_stage false f (Open b)).
      { destruct Hf0 as [F1 [F2 [F3|F3]]]; [exists false|exists true]; simpl; auto. }
      destruct Hf as [b Hf]. destruct IH as [t' [I1 [I2 I3]]]. cbn [coll_set].
      destruct (plain_nothing r (pre f)) as [P1 P2].
      destruct (complete_ok false f r (fun _ => [])) as [f' [G1 [_ [_ G4]]]].
      + apply Hf.
      + rewrite (state_open _ _ _ Hf). destruct b; reflexivity.
      + apply Hf.
      + assumption.
      + rewrite G1, I1. exists (f' :: t'). split; [reflexivity|]. simpl. split; [congruence|]. constructor; [|assumption].
        unfold result. rewrite (state_completed _ _ _ G4). destruct G4 as [_ [G4 _]]. rewrite P2 in G4. assumption.
  Qed.
  (** cancel(): as far as the first future that refuses *)
  Lemma coll_cancel_false : forall (fs : list (future V)), coll_cancel false fs = (fs, false).
  Proof. induction fs as [|f t IH]; [reflexivity|]. simpl. rewrite IH. reflexivity. Qed.
  Lemma coll_cancel_all : forall (fs : list (future V)), Forall (fun f => snd (fst (cancel f)) = true) fs ->
    coll_cancel true fs = (map (fun f => fst (fst (cancel f))) fs, true).
  Proof.
    intros fs H. induction H as [|f t Hf Ht IH]; [reflexivity|]. simpl. destruct (cancel f) as [[f' b] ev]. simpl in Hf. subst b.
    rewrite IH. reflexivity.
  Qed.
  Lemma coll_cancel_stops : forall (p : list (future V)) f q, Forall (fun f => snd (fst (cancel f)) = true) p ->
    snd (fst (cancel f)) = false ->
    coll_cancel true (p ++ f :: q) = (map (fun f => fst (fst (cancel f))) (p ++ [f]) ++ q, false).
  Proof.
    intros p f q H Hf. induction H as [|x t Hx Ht IH]; simpl.
    - destruct (cancel f) as [[f' b] ev]. simpl in Hf. subst b. rewrite coll_cancel_false. reflexivity.
    - destruct (cancel x) as [[x' b] ev]. simpl in Hx. subst b. rewrite IH. reflexivity.
  Qed.
  Lemma coll_running_true : forall (fs : list (future V)), coll_set_running true fs = (fs, Ok true).
  Proof. induction fs as [|f t IH]; [reflexivity|]. simpl. rewrite IH. reflexivity. Qed.
  Lemma coll_running_stops : forall (p : list (future V)) f q,
    Forall (fun f => snd (set_running_or_notify_cancel f) = Ok false) p -> snd (set_running_or_notify_cancel f) = Ok true ->
    coll_set_running false (p ++ f :: q) = (map (fun f => fst (set_running_or_notify_cancel f)) (p ++ [f]) ++ q, Ok true).
  Proof.
    intros p f q H Hf. induction H as [|x t Hx Ht IH]; simpl.
    - destruct (set_running_or_notify_cancel f) as [f' b]. simpl in Hf. subst b. rewrite coll_running_true. reflexivity.
    - destruct (set_running_or_notify_cancel x) as [x' b]. simpl in Hx. subst b. rewrite IH. reflexivity.
  Qed.
  Lemma coll_running_none : forall (p : list (future V)),
    Forall (fun f => snd (set_running_or_notify_cancel f) = Ok false) p ->
    coll_set_running false p = (map (fun f => fst (set_running_or_notify_cancel f)) p, Ok false).
  Proof.
    intros p H. induction H as [|x t Hx Ht IH]; [reflexivity|]; simpl.
    destruct (set_running_or_notify_cancel x) as [x' b]. simpl in Hx. subst b. rewrite IH. reflexivity.
  Qed.

  Lemma new_rel : rel false (new_future none) (new_promise V false).
  Proof. constructor; simpl; auto. Qed.
  Lemma wrapping_rel : forall b, rel true (wrapping_future none b) (new_promise V b).
  Proof. intros b. constructor; simpl; auto. destruct b; auto. Qed.
End P.
