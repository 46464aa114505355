From Verif Require Import Prelude PreludeFacts MoreFacts Deferred_Model Deferred_Spec.

Lemma nth_upd_cases {X} (l : list X) i x t th : nth_error (upd l i x) t = Some th -> (t = i /\ th = x) \/ (t <> i /\ nth_error l t = Some th).
Proof.
  intros H. destruct (Nat.eq_dec t i) as [->|N].
  - left. split; auto. assert (i < length l) by (rewrite <- (upd_length l i x); apply nth_error_Some; rewrite H; discriminate).
    rewrite nth_error_upd_eq in H by auto. congruence.
  - right. split; auto. rewrite nth_error_upd_neq in H; auto.
Qed.
Lemma nth_lt {X} (l : list X) t x : nth_error l t = Some x -> t < length l.
Proof. intros H. apply nth_error_Some. rewrite H. discriminate. Qed.
Lemma Forall_upd {X} (P : X -> Prop) l t x : Forall P l -> P x -> Forall P (upd l t x).
Proof. intros H Hx. revert t. induction H as [|a l Ha Hl IH]; intros [|t]; simpl; constructor; auto. Qed.
Lemma Forall_nth {X} (P : X -> Prop) l t x : Forall P l -> nth_error l t = Some x -> P x.
Proof. intros H E. eapply Forall_forall; [exact H|eapply nth_error_In; eauto]. Qed.
(** counting over threads *)
Fixpoint sumf {X} (f : X -> nat) (l : list X) : nat := match l with [] => 0 | x :: r => f x + sumf f r end.
Lemma sumf_upd {X} (f : X -> nat) l t x y : nth_error l t = Some x -> sumf f (upd l t y) + f x = sumf f l + f y.
Proof. revert t. induction l as [|a l IH]; intros [|t] E; simpl in *; try discriminate; [injection E as ->; lia|specialize (IH _ E); lia]. Qed.
Lemma sumf_le {X} (f : X -> nat) l t x : nth_error l t = Some x -> f x <= sumf f l.
Proof. revert t. induction l as [|a l IH]; intros [|t] E; simpl in *; try discriminate; [injection E as ->; lia|specialize (IH _ E); lia]. Qed.

Section DeferredProofs.
  Context {V : Type}.
  Notation st := (dstate V). Notation thr := (dthread V).
  Variable all : list V.
  (** ** only values that were given *)
  Definition planned (o : dop V) : Prop := match o with SetValue v => In v all | _ => True end.
  Definition good (has : bool) (th : thr) : Prop :=
    Forall planned (todo th) /\ match at_ th with Writing v => In v all | Signalling v => In v all /\ has = true | Reading => has = true | _ => True end /\
    (forall v, In (Value v) (results th) -> In v all) /\ ~ In Blank (results th) /\ (forall v, In (WasSet v) (results th) -> In v all).
  Definition isset {X} (o : option X) : bool := match o with Some _ => true | None => false end.
  Definition GInv (c : st) : Prop :=
    (forall v, val c = Some v -> In v all) /\ (event_set c = true -> isset (val c) = true) /\ Forall (good (isset (val c))) (dthreads c).
  Lemma good_mono th b : good b th -> good true th.
  Proof. intros (H1 & H2 & H3). split; [auto|split; auto]. destruct (at_ th); tauto. Qed.
  Lemma good_res b th p r : good b th -> match p with Writing v => In v all | Signalling v => In v all /\ b = true | Reading => b = true | _ => True end ->
    (forall v, r = [Value v] -> In v all) -> r <> [Blank] -> (forall v, r = [WasSet v] -> In v all) -> length r <= 1 -> forall rest, Forall planned rest -> good b (mk_dthread rest p (results th ++ r)).
  Proof.
    intros (H1 & H2 & H3 & H4 & H5) Hp R1 R2 R3 R4 rest Hr. split; [auto|]. split; [auto|]. simpl. destruct r as [|a [|b' r]]; [rewrite app_nil_r; auto| |simpl in R4; lia].
    repeat split.
    - intros v K. apply in_app_or in K. destruct K as [K|[->|[]]]; auto.
    - intros K. apply in_app_or in K. destruct K as [K|[->|[]]]; auto.
    - intros v K. apply in_app_or in K. destruct K as [K|[->|[]]]; auto.
  Qed.
  Lemma GInv_step c e : GInv c -> GInv (dstep c e).
  Proof.
    intros HI. pose proof HI as (I1 & I2 & I3). destruct e as [t|t]; simpl.
    - unfold dturn. destruct (nth_error (dthreads c) t) as [th|] eqn:E; auto. pose proof (Forall_nth _ _ _ _ I3 E) as G. pose proof G as (G1 & G2 & G3 & G4 & G5).
      assert (forall th', good (isset (val c)) th' -> GInv (mk_dstate (val c) (event_set c) (upd (dthreads c) t th'))) as Hgo.
      { intros th' Hth. split; [auto|split; [auto|]]. simpl. apply Forall_upd; auto. }
      destruct (at_ th) as [|v|v|b|] eqn:Ea.
      + destruct (todo th) as [|[v|b] rest] eqn:Et; auto; inversion G1; subst; destruct (val c) as [w|] eqn:Ev; apply Hgo; unfold finish, goto; simpl.
        * apply (good_res true th); simpl; auto; discriminate.
        * rewrite <- (app_nil_r (results th)). apply (good_res false th); simpl; auto; discriminate.
        * rewrite <- (app_nil_r (results th)). apply (good_res true th); simpl; auto; discriminate.
        * rewrite <- (app_nil_r (results th)). apply (good_res false th); simpl; auto; discriminate.
      + split; [intros w K; injection K as <-; auto|split; [auto|]]. simpl. apply Forall_upd.
        * eapply Forall_impl; [|exact I3]. intros a. apply good_mono.
        * unfold goto. simpl. rewrite <- (app_nil_r (results th)). apply (good_res true th); simpl; auto; try discriminate. eapply good_mono; eauto.
      + destruct G2 as [G2 G2']. split; [auto|split; [auto|]]. simpl. apply Forall_upd; auto. apply (good_res _ th); simpl; auto; try discriminate. intros w K. injection K as <-. auto.
      + destruct (event_set c) eqn:Ee; auto. apply Hgo. unfold goto. rewrite <- (app_nil_r (results th)). apply (good_res _ th); simpl; auto; discriminate.
      + apply Hgo. apply (good_res _ th); simpl; auto; destruct (val c) as [w|] eqn:Ev; try discriminate. intros u K. injection K as <-. auto.
    - unfold dexpire. destruct (nth_error (dthreads c) t) as [th|] eqn:E; auto. destruct (at_ th) as [|v|v|[|]|] eqn:Ea; auto. destruct (event_set c) eqn:Ee; auto.
      pose proof (Forall_nth _ _ _ _ I3 E) as G. split; [auto|split; [auto|]]. simpl. apply Forall_upd; auto. pose proof G as (G1 & _). apply (good_res _ th); simpl; auto; discriminate.
  Qed.
  Lemma GInv_exec es : forall c, GInv c -> GInv (dexec c es).
  Proof. induction es as [|e es IH]; simpl; auto using GInv_step. Qed.
End DeferredProofs.
Lemma GInv_start {V} (programs : list (list (dop V))) : GInv (given programs) (dstart programs).
Proof.
  split; [discriminate|split; [discriminate|]]. simpl. apply Forall_forall. intros th Hth. apply in_map_iff in Hth. destruct Hth as (p & <- & Hp).
  split; [|simpl; intuition]. simpl. apply Forall_forall. intros o Ho. unfold planned. destruct o as [v|b]; auto. unfold given. apply in_flat_map. exists (SetValue v). split; [|left; auto].
  apply in_concat. exists p. auto.
Qed.
Lemma only_given {V} (programs : list (list (dop V))) es t th : nth_error (dthreads (dexec (dstart programs) es)) t = Some th ->
  ~ In Blank (results th) /\ forall v, In (Value v) (results th) -> In v (given programs).
Proof. intros E. destruct (GInv_exec _ es _ (GInv_start programs)) as (_ & _ & H). destruct (Forall_nth _ _ _ _ H E) as (_ & _ & H1 & H2 & _). auto. Qed.

Section Once.
  Context {V : Type}.
  Notation st := (dstate V). Notation thr := (dthread V).
  Definition wr (th : thr) : nat := match at_ th with Writing _ => 1 | _ => 0 end.
  Definition sg (th : thr) : nat := match at_ th with Signalling _ => 1 | _ => 0 end + length (sets (results th)).
  Definition seen (x : V) (th : thr) : Prop := (forall v, at_ th = Signalling v -> v = x) /\ (forall v, In v (sets (results th) ++ gets (results th)) -> v = x).
  Definition unseen (th : thr) : Prop := sets (results th) ++ gets (results th) = [].
  (** the value never changes once written *)
  Definition MInv (c : st) : Prop :=
    match val c with
    | None => event_set c = false /\ sumf wr (dthreads c) <= 1 /\ sumf sg (dthreads c) = 0 /\ Forall unseen (dthreads c) /\ Forall (fun th => at_ th <> Reading) (dthreads c)
    | Some x => sumf wr (dthreads c) = 0 /\ sumf sg (dthreads c) <= 1 /\ Forall (seen x) (dthreads c)
    end.
  Lemma sets_app (a b : list (dresult V)) : sets (a ++ b) = sets a ++ sets b.
  Proof. apply flat_map_app. Qed.
  Lemma gets_app (a b : list (dresult V)) : gets (a ++ b) = gets a ++ gets b.
  Proof. apply flat_map_app. Qed.
  Lemma MInv_step c e : MInv c -> (forall t th v rest, e = Turn t -> nth_error (dthreads c) t = Some th -> at_ th = Outside -> todo th = SetValue v :: rest -> val c = None -> sumf wr (dthreads c) = 0) ->
    MInv (dstep c e).
  Proof.
    intros HI Hq. destruct e as [t|t]; simpl.
    - unfold dturn. destruct (nth_error (dthreads c) t) as [th|] eqn:E; auto.
      assert (forall th', wr th' = wr th -> sg th' = sg th -> sets (results th') = sets (results th) -> gets (results th') = gets (results th) -> (forall v, at_ th' = Signalling v -> at_ th = Signalling v) ->
        (at_ th' = Reading -> at_ th = Reading \/ val c <> None) -> MInv (mk_dstate (val c) (event_set c) (upd (dthreads c) t th'))) as Hgo.
      { intros th' H1 H2 H3 H4 H5 H6. unfold MInv in *. simpl. pose proof (sumf_upd wr _ _ _ th' E). pose proof (sumf_upd sg _ _ _ th' E).
        destruct (val c) as [x|].
        - destruct HI as (J1 & J2 & J3). split; [lia|split; [lia|]]. apply Forall_upd; auto. destruct (Forall_nth _ _ _ _ J3 E) as [K1 K2]. split; [auto|]. rewrite H3, H4. auto.
        - destruct HI as (J0 & J1 & J2 & J3 & J4). split; [auto|split; [lia|split; [lia|split]]]; apply Forall_upd; auto.
          + pose proof (Forall_nth _ _ _ _ J3 E). unfold unseen in *. rewrite H3, H4. auto.
          + intros K. pose proof (Forall_nth _ _ _ _ J4 E). simpl in *. destruct (H6 K); congruence. }
      pose proof HI as HI'. unfold MInv in HI.
      destruct (at_ th) as [|v|v|b|] eqn:Ea.
      + destruct (todo th) as [|[v|b] rest] eqn:Et; auto.
        * destruct (val c) as [x|] eqn:Ev.
          -- apply Hgo; unfold wr, sg; simpl; rewrite ?Ea, ?sets_app, ?gets_app, ?app_nil_r, ?app_length; simpl; auto; try lia; discriminate.
          -- specialize (Hq t th v rest eq_refl E Ea Et eq_refl). destruct HI as (J0 & J1 & J2 & J3 & J4). unfold MInv. simpl.
             set (th' := goto (mk_dthread rest Outside (results th)) (Writing v)). pose proof (sumf_upd wr _ _ _ th' E) as S1. pose proof (sumf_upd sg _ _ _ th' E) as S2.
             unfold wr in S1 at 2 4. unfold sg in S2 at 2 4. unfold th' in S1, S2. simpl in S1, S2. rewrite Ea in S1, S2. fold th' in S1, S2.
             split; [auto|split; [lia|split; [lia|split]]]; apply Forall_upd; auto; [apply (Forall_nth _ _ _ _ J3 E)|discriminate].
        * destruct (val c) as [x|] eqn:Ev; apply Hgo; unfold wr, sg; simpl; rewrite ?Ea; simpl; auto; try discriminate. intros _. right. congruence.
      + (* Writing *)
        unfold MInv. simpl. set (th' := goto th (Signalling v)). pose proof (sumf_upd wr _ _ _ th' E) as S1. pose proof (sumf_upd sg _ _ _ th' E) as S2. pose proof (sumf_le wr _ _ _ E) as L1.
        unfold wr in S1 at 2 4, L1 at 1. unfold sg in S2 at 2 4. unfold th' in S1, S2. simpl in S1, S2. rewrite Ea in S1, S2, L1. fold th' in S1, S2.
        destruct (val c) as [x|] eqn:Ev; [exfalso; lia|]. destruct HI as (J0 & J1 & J2 & J3 & J4). split; [lia|split; [lia|]]. apply Forall_forall. intros a Ha. apply In_nth_error in Ha. destruct Ha as (u & Eu).
        apply nth_upd_cases in Eu. destruct Eu as [[-> ->]|[N Eu]].
        * split; [unfold th'; simpl; intros w K; congruence|]. pose proof (Forall_nth _ _ _ _ J3 E) as K. unfold unseen in K. unfold th'. simpl. rewrite K. intros w [].
        * split; [|pose proof (Forall_nth _ _ _ _ J3 Eu) as K; unfold unseen in K; rewrite K; intros w []].
          intros w Hw. pose proof (sumf_le sg _ _ _ Eu) as L2. unfold sg in L2 at 1. rewrite Hw in L2. lia.
      + (* Signalling *)
        set (th' := finish th (WasSet v)). pose proof (sumf_upd wr _ _ _ th' E) as S1. pose proof (sumf_upd sg _ _ _ th' E) as S2. pose proof (sumf_le sg _ _ _ E) as L1.
        unfold wr in S1 at 2 4. unfold sg in S2 at 2 4, L1 at 1. unfold th' in S1, S2. simpl in S1, S2. rewrite Ea in S1, S2, L1. rewrite sets_app, app_length in S2. simpl in S2. fold th' in S1, S2.
        unfold MInv. simpl. destruct (val c) as [x|] eqn:Ev; [|exfalso; lia]. destruct HI as (J1 & J2 & J3). split; [lia|split; [lia|]]. apply Forall_upd; auto. destruct (Forall_nth _ _ _ _ J3 E) as [K1 K2].
        split; [discriminate|]. simpl. rewrite sets_app, gets_app. simpl. intros w K. rewrite app_nil_r in K. rewrite !in_app_iff in K. simpl in K. destruct K as [[K|[K|[]]]|K]; [apply K2; apply in_or_app; auto| |apply K2; apply in_or_app; auto].
        rewrite <- K. apply K1. auto.
      + destruct (event_set c) eqn:Ee; auto. destruct (val c) as [x|] eqn:Ev; [|destruct HI; congruence].
        unfold MInv. simpl. destruct HI as (J1 & J2 & J3). set (th' := goto th Reading). pose proof (sumf_upd wr _ _ _ th' E) as S1. pose proof (sumf_upd sg _ _ _ th' E) as S2.
        unfold wr in S1 at 2 4. unfold sg in S2 at 2 4. unfold th' in S1, S2. simpl in S1, S2. rewrite Ea in S1, S2. fold th' in S1, S2. split; [lia|split; [lia|]]. apply Forall_upd; auto.
        destruct (Forall_nth _ _ _ _ J3 E) as [K1 K2]. split; [discriminate|exact K2].
      + destruct (val c) as [x|] eqn:Ev.
        * set (th' := finish th (Value x)). pose proof (sumf_upd wr _ _ _ th' E) as S1. pose proof (sumf_upd sg _ _ _ th' E) as S2.
          unfold wr in S1 at 2 4. unfold sg in S2 at 2 4. unfold th' in S1, S2. simpl in S1, S2. rewrite Ea in S1, S2. rewrite sets_app, app_length in S2. simpl in S2. fold th' in S1, S2.
          unfold MInv. simpl. destruct HI as (J1 & J2 & J3). split; [lia|split; [lia|]]. apply Forall_upd; auto. destruct (Forall_nth _ _ _ _ J3 E) as [K1 K2].
          split; [discriminate|]. simpl. rewrite sets_app, gets_app. simpl. intros w K. rewrite app_nil_r in K. rewrite !in_app_iff in K. simpl in K. destruct K as [K|[K|[K|[]]]]; auto; apply K2; apply in_or_app; auto.
        * destruct HI as (_ & _ & _ & _ & J4). pose proof (Forall_nth _ _ _ _ J4 E). simpl in *. congruence.
    - unfold dexpire. destruct (nth_error (dthreads c) t) as [th|] eqn:E; auto. destruct (at_ th) as [|v|v|[|]|] eqn:Ea; auto. destruct (event_set c) eqn:Ee; auto.
      unfold MInv in *. simpl. set (th' := finish th WouldWait). pose proof (sumf_upd wr _ _ _ th' E) as S1. pose proof (sumf_upd sg _ _ _ th' E) as S2.
      unfold wr in S1 at 2 4. unfold sg in S2 at 2 4. unfold th' in S1, S2. simpl in S1, S2. rewrite Ea in S1, S2. rewrite sets_app, app_length in S2. simpl in S2. fold th' in S1, S2.
      assert (sets (results th') ++ gets (results th') = sets (results th) ++ gets (results th)) as Hsame by (unfold th'; simpl; rewrite sets_app, gets_app; simpl; rewrite !app_nil_r; auto).
      destruct (val c) as [x|].
      + destruct HI as (J1 & J2 & J3). split; [lia|split; [lia|]]. apply Forall_upd; auto. destruct (Forall_nth _ _ _ _ J3 E) as [K1 K2]. split; [discriminate|rewrite Hsame; auto].
      + destruct HI as (J0 & J1 & J2 & J3 & J4). split; [auto|split; [lia|split; [lia|split]]]; apply Forall_upd; auto; [|discriminate]. unfold unseen. rewrite Hsame. apply (Forall_nth _ _ _ _ J3 E).
  Qed.
  Lemma in_all (c : st) v : In v (sets (all_results c) ++ gets (all_results c)) <-> exists t th, nth_error (dthreads c) t = Some th /\ In v (sets (results th) ++ gets (results th)).
  Proof.
    unfold all_results. assert (forall l : list thr, In v (sets (flat_map (@results V) l) ++ gets (flat_map (@results V) l)) <-> exists th, In th l /\ In v (sets (results th) ++ gets (results th))) as H.
    { induction l as [|a l IH]; [simpl; split; [intros []|intros (th & [] & _)]|]. simpl. rewrite sets_app, gets_app. rewrite !in_app_iff in *. split.
      - intros [[K|K]|[K|K]]; try (exists a; split; [auto|rewrite in_app_iff; auto]; fail).
        + destruct (proj1 IH (or_introl K)) as (th & H1 & H2). exists th. auto.
        + destruct (proj1 IH (or_intror K)) as (th & H1 & H2). exists th. auto.
      - intros (th & [<-|H1] & H2); rewrite in_app_iff in *; [tauto|]. assert (In v (sets (flat_map (@results V) l)) \/ In v (gets (flat_map (@results V) l))) by (apply IH; exists th; rewrite in_app_iff; auto). tauto. }
    rewrite H. split.
    - intros (th & H1 & H2). apply In_nth_error in H1. destruct H1 as (t & H1). eauto.
    - intros (t & th & H1 & H2). exists th. split; auto. eapply nth_error_In; eauto.
  Qed.
  Lemma sets_count (l : list thr) : length (sets (flat_map (@results V) l)) <= sumf sg l.
  Proof. induction l as [|a l IH]; simpl; auto. rewrite sets_app, app_length. unfold sg at 1. lia. Qed.
  Lemma MInv_once c : MInv c -> set_once c.
  Proof.
    intros H. unfold MInv in H. split.
    - pose proof (sets_count (dthreads c)). unfold all_results. destruct (val c); lia.
    - intros v w Hv Hw. apply in_all in Hv. apply in_all in Hw. destruct Hv as (t & th & E & Hv). destruct Hw as (u & uth & Eu & Hw). destruct (val c) as [x|].
      + destruct H as (_ & _ & H). destruct (Forall_nth _ _ _ _ H E) as [_ K1]. destruct (Forall_nth _ _ _ _ H Eu) as [_ K2]. rewrite (K1 _ Hv), (K2 _ Hw). auto.
      + destruct H as (_ & _ & _ & H & _). pose proof (Forall_nth _ _ _ _ H E) as K. unfold unseen in K. rewrite K in Hv. destruct Hv.
  Qed.
  Lemma sumf_zero {X} (f : X -> nat) l : (forall t x, nth_error l t = Some x -> f x = 0) -> sumf f l = 0.
  Proof. induction l as [|a l IH]; intros H; simpl; auto. rewrite (H 0 a eq_refl), IH; auto. intros t x E. apply (H (S t)). auto. Qed.
  Lemma MInv_start programs : MInv (dstart programs).
  Proof.
    unfold MInv. simpl. assert (forall f : thr -> nat, (forall p, f (mk_dthread p Outside []) = 0) -> sumf f (map (fun p => mk_dthread p Outside []) programs) = 0) as H by (intros f Hf; induction programs as [|p ps IH]; simpl; rewrite ?Hf; auto).
    rewrite !H by reflexivity. split; [auto|split; [auto|split; [auto|split]]]; apply Forall_forall; intros th Hth; apply in_map_iff in Hth; destruct Hth as (p & <- & Hp); [reflexivity|discriminate].
  Qed.
  Lemma MInv_undisturbed es : forall c : st, MInv c -> undisturbed c es -> MInv (dexec c es).
  Proof.
    induction es as [|e es IH]; simpl; auto. intros c HI [H1 H2]. apply IH; auto. apply MInv_step; auto.
    intros t th v rest -> E Ea Et Ev. apply sumf_zero. intros u uth Eu. unfold wr. destruct (at_ uth) eqn:Eau; auto. specialize (H1 _ _ _ Eu Eau). injection H1 as <-. congruence.
  Qed.
  Lemma once_undisturbed (programs : list (list (dop V))) es : undisturbed (dstart programs) es -> set_once (dexec (dstart programs) es).
  Proof. intros H. apply MInv_once, MInv_undisturbed; auto using MInv_start. Qed.

  (** one setter *)
  Definition pend (th : thr) : nat := length (filter is_set (todo th)) + wr th + sg th.
  Lemma pend_step (c : st) e : MInv c -> sumf pend (dthreads (dstep c e)) <= sumf pend (dthreads c).
  Proof.
    intros HI. assert (forall t th th', nth_error (dthreads c) t = Some th -> pend th' <= pend th -> sumf pend (upd (dthreads c) t th') <= sumf pend (dthreads c)) as Hgo.
    { intros t th th' E H. pose proof (sumf_upd pend _ _ _ th' E). lia. }
    destruct e as [t|t]; simpl.
    - unfold dturn. destruct (nth_error (dthreads c) t) as [th|] eqn:E; auto. destruct (at_ th) as [|v|v|b|] eqn:Ea.
      + destruct (todo th) as [|[v|b] rest] eqn:Et; auto; destruct (val c); apply (Hgo _ _ _ E); unfold pend, wr, sg; simpl; rewrite Et, Ea; simpl; rewrite ?sets_app, ?app_length; simpl; lia.
      + apply (Hgo _ _ _ E); unfold pend, wr, sg; simpl; rewrite Ea; lia.
      + apply (Hgo _ _ _ E); unfold pend, wr, sg; simpl; rewrite Ea, sets_app, app_length; simpl; lia.
      + destruct (event_set c); auto. apply (Hgo _ _ _ E); unfold pend, wr, sg; simpl; rewrite Ea; lia.
      + apply (Hgo _ _ _ E); unfold pend, wr, sg; simpl. rewrite Ea, sets_app, app_length. destruct (val c); simpl; lia.
    - unfold dexpire. destruct (nth_error (dthreads c) t) as [th|] eqn:E; auto. destruct (at_ th) as [|v|v|[|]|] eqn:Ea; auto. destruct (event_set c); auto. apply (Hgo _ _ _ E); unfold pend, wr, sg; simpl; rewrite Ea, sets_app, app_length; simpl; lia.
  Qed.
  Lemma sumf_sum {X} (f g : X -> nat) l : (forall x, g x <= f x) -> sumf g l <= sumf f l.
  Proof. intros H. induction l as [|a l IH]; simpl; auto. specialize (H a). lia. Qed.
  Lemma MInv_one_setter es : forall c : st, MInv c -> sumf pend (dthreads c) <= 1 -> MInv (dexec c es).
  Proof.
    induction es as [|e es IH]; simpl; auto. intros c HI Hp. apply IH; [|pose proof (pend_step c e HI); lia]. apply MInv_step; auto.
    intros t th v rest -> E Ea Et Ev. assert (wr th = 0) as Hw by (unfold wr; rewrite Ea; auto).
    set (th0 := mk_dthread [] Outside (@nil (dresult V))). pose proof (sumf_upd pend _ _ _ th0 E) as S1. pose proof (sumf_upd wr _ _ _ th0 E) as S2.
    assert (pend th0 = 0) as Z1 by reflexivity. assert (wr th0 = 0) as Z2 by reflexivity. rewrite Z1 in S1. rewrite Z2 in S2.
    assert (1 <= pend th) by (unfold pend; rewrite Et; simpl; lia). assert (sumf wr (upd (dthreads c) t th0) <= sumf pend (upd (dthreads c) t th0)) by (apply sumf_sum; intros x; unfold pend; lia). lia.
  Qed.
  Lemma once_one_setter (programs : list (list (dop V))) es : one_setter programs -> set_once (dexec (dstart programs) es).
  Proof.
    intros H. apply MInv_once, MInv_one_setter; [apply MInv_start|]. unfold one_setter in H. simpl.
    assert (sumf pend (map (fun p => mk_dthread p Outside []) programs) = length (filter is_set (concat programs))) as -> by (clear H; induction programs as [|p ps IH]; simpl; auto; rewrite filter_app, app_length, <- IH; unfold pend, wr, sg; simpl; lia). auto.
  Qed.

  (** ** progress *)
  Definition weight (th : thr) : nat := 4 * length (todo th) + match at_ th with Outside => 0 | Writing _ => 2 | Signalling _ => 1 | Waiting _ => 2 | Reading => 1 end.
  Lemma turn_less (c : st) t th : event_set c = true -> nth_error (dthreads c) t = Some th -> ~ over th -> sumf weight (dthreads (dturn c t)) < sumf weight (dthreads c) /\ event_set (dturn c t) = true.
  Proof.
    intros He E Hl. unfold dturn. rewrite E.
    assert (forall v s th', weight th' < weight th -> s = true -> sumf weight (dthreads (mk_dstate v s (upd (dthreads c) t th'))) < sumf weight (dthreads c) /\ event_set (mk_dstate v s (upd (dthreads c) t th')) = true) as Hgo.
    { intros v s th' H Hs. simpl. pose proof (sumf_upd weight _ _ _ th' E). split; [lia|auto]. }
    destruct (at_ th) as [|v|v|b|] eqn:Ea.
    - destruct (todo th) as [|[v|b] rest] eqn:Et; [exfalso; apply Hl; split; auto| |]; destruct (val c); apply Hgo; auto; unfold weight; simpl; rewrite Et, Ea; simpl; lia.
    - apply Hgo; auto; unfold weight; simpl; rewrite Ea; simpl; lia.
    - apply Hgo; auto; unfold weight; simpl; rewrite Ea; simpl; lia.
    - rewrite He. apply Hgo; auto; unfold weight; simpl; rewrite Ea; simpl; lia.
    - apply Hgo; auto; unfold weight; simpl; rewrite Ea; simpl; lia.
  Qed.
  Lemma find_live (l : list thr) : Forall (@over V) l \/ exists t th, nth_error l t = Some th /\ ~ over th.
  Proof.
    induction l as [|a l [IH|(t & th & E & H)]]; [left; constructor| |right; exists (S t), th; auto].
    destruct (todo a) eqn:Et; [|right; exists 0, a; split; auto; intros [K _]; congruence].
    destruct (at_ a) eqn:Ea; try (right; exists 0, a; split; auto; intros [_ K]; congruence). left. constructor; auto. split; auto.
  Qed.
  Lemma finish_from n : forall c : st, sumf weight (dthreads c) <= n -> event_set c = true -> exists es, Forall (@over V) (dthreads (dexec c es)).
  Proof.
    induction n as [|n IH]; intros c Hn He; (destruct (find_live (dthreads c)) as [K|(t & th & E & Hl)]; [exists []; exact K|]); destruct (turn_less c t th He E Hl) as [H1 H2]; [lia|].
    destruct (IH (dturn c t)) as (es & Hes); auto; [lia|]. exists (Turn t :: es). exact Hes.
  Qed.
  Definition EInv (c : st) : Prop := event_set c = true \/ Forall (fun th => sets (results th) = []) (dthreads c).
  Lemma EInv_step (c : st) e : EInv c -> EInv (dstep c e).
  Proof.
    intros [He|HI].
    - left. destruct e as [t|t]; simpl; [unfold dturn|unfold dexpire]; destruct (nth_error (dthreads c) t) as [th|]; auto; destruct (at_ th); auto; repeat (match goal with |- context [match ?X with _ => _ end] => destruct X eqn:? end; simpl; auto); congruence.
    - assert (forall t th th' v s, nth_error (dthreads c) t = Some th -> sets (results th') = sets (results th) -> EInv (mk_dstate v s (upd (dthreads c) t th'))) as Hgo.
      { intros t th th' v s E H. right. simpl. apply Forall_upd; auto. rewrite H. apply (Forall_nth _ _ _ _ HI E). }
      assert (EInv c) as HC by (right; auto).
      destruct e as [t|t]; simpl; [unfold dturn|unfold dexpire]; destruct (nth_error (dthreads c) t) as [th|] eqn:E; auto; destruct (at_ th) eqn:Ea; auto;
        try (left; reflexivity); repeat (match goal with |- context [match ?X with _ => _ end] => destruct X eqn:? end; auto); apply (Hgo _ _ _ _ _ E); simpl; rewrite ?sets_app; simpl; rewrite ?app_nil_r; auto.
  Qed.
  Lemma dexec_app a : forall (c : st) b, dexec c (a ++ b) = dexec (dexec c a) b.
  Proof. induction a as [|e a IH]; simpl; auto. Qed.
  Lemma set_frees (programs : list (list (dop V))) es v : In (WasSet v) (all_results (dexec (dstart programs) es)) -> exists more, Forall (@over V) (dthreads (dexec (dstart programs) (es ++ more))).
  Proof.
    intros H. assert (forall es c, EInv c -> EInv (dexec c es)) as Hx by (intros l; induction l; simpl; auto using EInv_step).
    destruct (Hx es (dstart programs)) as [He|Hn].
    - right. apply Forall_forall. intros th Hth. apply in_map_iff in Hth. destruct Hth as (p & <- & _). reflexivity.
    - destruct (finish_from _ _ (le_n _) He) as (more & K). exists more. rewrite dexec_app. auto.
    - exfalso. unfold all_results in H. apply in_flat_map in H. destruct H as (th & H1 & H2). rewrite Forall_forall in Hn. specialize (Hn _ H1).
      assert (In v (sets (results th))) as K by (unfold sets; apply in_flat_map; exists (WasSet v); simpl; auto). rewrite Hn in K. destruct K.
  Qed.
End Once.

(** ** Closeable *)
Definition told1 (r : cresult) : nat := match r with Closed (Some true) => 1 | _ => 0 end.
Definition ftrue (th : cthread) : nat := match cat_ th with CFinally (Some true) => 1 | _ => 0 end.
Definition tcount (th : cthread) : nat := told (cresults th).
Lemma told_app a b : told (a ++ b) = told a + told b.
Proof. unfold told. rewrite filter_app, app_length. auto. Qed.
Lemma told_all l : told (flat_map cresults l) = sumf tcount l.
Proof. induction l as [|a l IH]; simpl; auto. rewrite told_app, IH. auto. Qed.
Lemma told_one r : told [r] = told1 r.
Proof. destruct r as [[[|]|]|]; reflexivity. Qed.
Definition returned (th : cthread) : Prop := exists r, In (Closed r) (cresults th).

(** the cleanup runs as many times as it was told to *)
Lemma cleanups_told_turn c t : cleanups c = sumf tcount (cthreads c) -> cleanups (cturn c t) = sumf tcount (cthreads (cturn c t)).
Proof.
  intros H. unfold cturn. destruct (nth_error (cthreads c) t) as [th|] eqn:E; auto. destruct (cat_ th) as [|r] eqn:Ea.
  - destruct (ctodo th) as [|[|] rest]; auto; simpl.
    + pose proof (sumf_upd tcount _ _ _ (mk_cthread rest (CFinally (match finalized c with Some b => Some (negb b) | None => None end)) (cresults th)) E) as K. unfold tcount in K at 2 4. simpl in K. lia.
    + pose proof (sumf_upd tcount _ _ _ (mk_cthread rest COutside (cresults th ++ [Was (match finalized c with Some b => b | None => true end)])) E) as K. unfold tcount in K at 2 4. simpl in K. rewrite told_app, told_one in K. simpl in K. lia.
  - simpl. pose proof (sumf_upd tcount _ _ _ (mk_cthread (ctodo th) COutside (cresults th ++ [Closed r])) E) as K. unfold tcount in K at 2 4. simpl in K. rewrite told_app, told_one in K. simpl in K. destruct r as [[|]|]; lia.
Qed.
Lemma sumf_start {f : cthread -> nat} (programs : list (list cop)) : (forall p, f (mk_cthread p COutside []) = 0) -> sumf f (map (fun p => mk_cthread p COutside []) programs) = 0.
Proof. intros Hf. induction programs as [|p ps IH]; simpl; rewrite ?Hf; auto. Qed.
Lemma cleanups_told i programs turns : cleanups (cexec (cstart i programs) turns) = told (all_cresults (cexec (cstart i programs) turns)).
Proof.
  unfold all_cresults. rewrite told_all. assert (forall turns c, cleanups c = sumf tcount (cthreads c) -> cleanups (cexec c turns) = sumf tcount (cthreads (cexec c turns))) as H by (intros l; induction l; simpl; auto using cleanups_told_turn).
  apply H. simpl. rewrite sumf_start; auto.
Qed.
(** not initialised: never *)
Definition UInv (c : cstate) : Prop := finalized c <> Some false /\ sumf ftrue (cthreads c) = 0 /\ cleanups c = 0.
Lemma UInv_turn c t : UInv c -> UInv (cturn c t).
Proof.
  intros (H1 & H2 & H3). unfold cturn. destruct (nth_error (cthreads c) t) as [th|] eqn:E; [|split; auto]. pose proof (sumf_le ftrue _ _ _ E) as L. destruct (cat_ th) as [|r] eqn:Ea.
  - destruct (ctodo th) as [|[|] rest]; [split; auto| |]; split; auto; simpl; split; auto.
    + pose proof (sumf_upd ftrue _ _ _ (mk_cthread rest (CFinally (match finalized c with Some b => Some (negb b) | None => None end)) (cresults th)) E) as K. unfold ftrue in K at 2 4. simpl in K. rewrite Ea in K. destruct (finalized c) as [[|]|]; simpl in *; [lia|congruence|lia].
    + pose proof (sumf_upd ftrue _ _ _ (mk_cthread rest COutside (cresults th ++ [Was (match finalized c with Some b => b | None => true end)])) E) as K. unfold ftrue in K at 2 4. simpl in K. rewrite Ea in K. lia.
  - split; [discriminate|]. simpl. pose proof (sumf_upd ftrue _ _ _ (mk_cthread (ctodo th) COutside (cresults th ++ [Closed r])) E) as K. unfold ftrue in K at 2 4. simpl in K. unfold ftrue in L at 1. rewrite Ea in K, L. destruct r as [[|]|]; split; lia.
Qed.
Lemma uninitialised_never programs turns : cleanups (cexec (cstart false programs) turns) = 0.
Proof.
  assert (forall turns c, UInv c -> UInv (cexec c turns)) as H by (intros l; induction l; simpl; auto using UInv_turn). apply H. split; [discriminate|]. simpl. split; auto. apply sumf_start. auto.
Qed.
(** initialised: at least once, as soon as a call has returned *)
Definition AInv (c : cstate) : Prop :=
  match finalized c with
  | Some false => Forall (fun th => ~ returned th /\ match cat_ th with CFinally (Some true) => True | CFinally _ => False | _ => True end) (cthreads c)
  | Some true => 1 <= cleanups c
  | None => False
  end.
Lemma AInv_turn c t : AInv c -> AInv (cturn c t).
Proof.
  unfold AInv. intros H. unfold cturn. destruct (nth_error (cthreads c) t) as [th|] eqn:E; auto. destruct (finalized c) as [[|]|] eqn:Ef; [| |destruct H].
  - destruct (cat_ th) as [|r]; [destruct (ctodo th) as [|[|] rest]; simpl; rewrite ?Ef; auto|simpl; destruct r as [[|]|]; lia].
  - destruct (Forall_nth _ _ _ _ H E) as [K1 K2]. destruct (cat_ th) as [|r]; [destruct (ctodo th) as [|[|] rest]; simpl; rewrite ?Ef; auto|simpl; destruct r as [[|]|]; try destruct K2; lia].
    + apply Forall_upd; auto.
    + apply Forall_upd; auto. split; [|simpl; auto]. intros (r & K). simpl in K. apply in_app_or in K. destruct K as [K|[K|[]]]; [apply K1; exists r; auto|discriminate].
Qed.
Lemma at_least_once programs turns t th r : nth_error (cthreads (cexec (cstart true programs) turns)) t = Some th -> In (Closed r) (cresults th) -> 1 <= cleanups (cexec (cstart true programs) turns).
Proof.
  intros E Hr. assert (forall turns c, AInv c -> AInv (cexec c turns)) as H by (intros l; induction l; simpl; auto using AInv_turn).
  specialize (H turns (cstart true programs)). unfold AInv in H. destruct (finalized (cexec (cstart true programs) turns)) as [[|]|].
  - apply H. simpl. apply Forall_forall. intros x Hx. apply in_map_iff in Hx. destruct Hx as (p & <- & _). split; simpl; auto. intros (q & []).
  - exfalso. assert (Forall (fun th => ~ returned th /\ match cat_ th with CFinally (Some true) => True | CFinally _ => False | _ => True end) (cthreads (cexec (cstart true programs) turns))) as K.
    { apply H. simpl. apply Forall_forall. intros x Hx. apply in_map_iff in Hx. destruct Hx as (p & <- & _). split; simpl; auto. intros (q & []). }
    destruct (Forall_nth _ _ _ _ K E) as [K1 _]. apply K1. exists r. auto.
  - exfalso. apply H. simpl. apply Forall_forall. intros x Hx. apply in_map_iff in Hx. destruct Hx as (p & <- & _). split; simpl; auto. intros (q & []).
Qed.
(** calls that do not overlap: at most once *)
Definition OInv (c : cstate) : Prop := match finalized c with Some false => cleanups c = 0 /\ sumf ftrue (cthreads c) <= 1 | _ => cleanups c <= 1 /\ sumf ftrue (cthreads c) = 0 end.
Lemma OInv_turn c t : OInv c -> (forall u th r, nth_error (cthreads c) u = Some th -> cat_ th = CFinally r -> t = u) -> OInv (cturn c t).
Proof.
  unfold OInv. intros H Hq. unfold cturn. destruct (nth_error (cthreads c) t) as [th|] eqn:E; auto. pose proof (sumf_le ftrue _ _ _ E) as L. destruct (cat_ th) as [|r] eqn:Ea.
  - assert (sumf ftrue (cthreads c) = 0) as Z.
    { apply sumf_zero. intros u x Eu. unfold ftrue. destruct (cat_ x) eqn:Ex; auto. specialize (Hq _ _ _ Eu Ex). subst u. congruence. }
    destruct (ctodo th) as [|[|] rest]; auto; simpl.
    + pose proof (sumf_upd ftrue _ _ _ (mk_cthread rest (CFinally (match finalized c with Some b => Some (negb b) | None => None end)) (cresults th)) E) as K. unfold ftrue in K at 2 4. simpl in K. rewrite Ea in K.
      destruct (finalized c) as [[|]|]; simpl in K |- *; lia.
    + pose proof (sumf_upd ftrue _ _ _ (mk_cthread rest COutside (cresults th ++ [Was (match finalized c with Some b => b | None => true end)])) E) as K. unfold ftrue in K at 2 4. simpl in K. rewrite Ea in K.
      destruct (finalized c) as [[|]|]; simpl in K |- *; lia.
  - simpl. pose proof (sumf_upd ftrue _ _ _ (mk_cthread (ctodo th) COutside (cresults th ++ [Closed r])) E) as K. unfold ftrue in K at 2 4. simpl in K. unfold ftrue in L at 1. rewrite Ea in K, L.
    assert (sumf ftrue (upd (cthreads c) t (mk_cthread (ctodo th) COutside (cresults th ++ [Closed r]))) = 0) as Z.
    { apply sumf_zero. intros u x Eu. apply nth_upd_cases in Eu. destruct Eu as [[-> ->]|[N Eu]]; [reflexivity|]. unfold ftrue. destruct (cat_ x) eqn:Ex; auto. specialize (Hq _ _ _ Eu Ex). congruence. }
    destruct (finalized c) as [[|]|]; destruct r as [[|]|]; lia.
Qed.
Lemma at_most_once i programs turns : cundisturbed (cstart i programs) turns -> cleanups (cexec (cstart i programs) turns) <= 1.
Proof.
  intros Hu. assert (forall turns c, OInv c -> cundisturbed c turns -> OInv (cexec c turns)) as H by (intros l; induction l as [|t l IH]; simpl; auto; intros c HI [H1 H2]; apply IH; auto; apply OInv_turn; auto).
  assert (OInv (cstart i programs)) as H0 by (unfold OInv, cstart; destruct i; simpl; rewrite sumf_start; auto).
  specialize (H turns _ H0 Hu). unfold OInv in H. destruct (finalized (cexec (cstart i programs) turns)) as [[|]|]; lia.
Qed.
(** one thread *)
Definition live_of (f : option bool) : life := match f with None => Uninitialised | Some false => Open | Some true => Over end.
Definition steps_of (ops : list cop) : nat := fold_right (fun o n => match o with CloseIt => 2 | IsClosed => 1 end + n) 0 ops.
Lemma one_thread ops : forall f n done, exists f' n', cexec (mk_cstate f n [mk_cthread ops COutside done]) (repeat 0 (steps_of ops)) = mk_cstate f' n' [mk_cthread [] COutside (done ++ expected (live_of f) ops)].
Proof.
  induction ops as [|[|] ops IH]; intros f n done; simpl.
  - exists f, n. rewrite app_nil_r. auto.
  - destruct (IH (Some true) (match f with Some false => S n | _ => n end) (done ++ [Closed (match f with Some b => Some (negb b) | None => None end)])) as (f' & n' & H).
    exists f', n'. unfold cturn. simpl. destruct f as [[|]|]; simpl in *; rewrite H, <- app_assoc; auto.
  - destruct (IH f n (done ++ [Was (match f with Some b => b | None => true end)])) as (f' & n' & H). exists f', n'. unfold cturn. simpl. rewrite H, <- app_assoc. destruct f as [[|]|]; auto.
Qed.
