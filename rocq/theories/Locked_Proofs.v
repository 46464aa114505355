From Verif Require Import Prelude PreludeFacts MoreFacts Locked_Model Locked_Spec.

Section LockedProofs.
  Variable V : Type.
  Notation thr := (lthread V).
  Notation st := (lstate V).

  Lemma nth_upd_cases (l : list thr) i x t th : nth_error (upd l i x) t = Some th ->
    (t = i /\ th = x) \/ (t <> i /\ nth_error l t = Some th).
  Proof.
    intros H. destruct (Nat.eq_dec t i) as [->|N].
    - left. split; auto. assert (i < length l) by (rewrite <- (upd_length l i x); apply nth_error_Some; rewrite H; discriminate).
      rewrite nth_error_upd_eq in H by auto. congruence.
    - right. split; auto. rewrite nth_error_upd_neq in H; auto.
  Qed.
  Lemma nth_lt {X} (l : list X) t x : nth_error l t = Some x -> t < length l.
  Proof. intros H. apply nth_error_Some. rewrite H. discriminate. Qed.

  (** ** who has the lock, and what the flag says *)
  Definition holds (p : place V) : bool := match p with Acquired | Inside _ | Accessing _ _ => true | _ => false end.
  Definition flagged (p : place V) : bool := match p with Inside _ | Accessing _ _ | Clearing => true | _ => false end.
  Lemma holds_in_with th : holds (at_ th) = true <-> in_with th.
  Proof. unfold in_with. destruct (at_ th); simpl; split; auto; try discriminate; intros []. Qed.

  (** one thread changes per event *)
  Inductive lstep (c : st) (t : nat) (th : thr) : st -> thr -> Prop :=
  | LS l f s v th' :
      ((holds (at_ th') = holds (at_ th) /\ l = lock c) \/ (holds (at_ th) = true /\ holds (at_ th') = false /\ l = None) \/
       (lock c = None /\ holds (at_ th') = true /\ l = Some t)) ->
      ((f = flag c /\ flagged (at_ th') = flagged (at_ th)) \/ (f = true /\ flagged (at_ th') = true) \/ (f = false /\ at_ th = Clearing /\ flagged (at_ th') = false)) ->
      lstep c t th (mk_lstate l f s v (upd (lthreads c) t th')) th'.
  Lemma event_lstep (c : st) e : levent c e = c \/
    exists t th th', nth_error (lthreads c) t = Some th /\ lstep c t th (levent c e) th'.
  Proof.
    destruct e as [t|t]; simpl.
    - unfold lturn. destruct (nth_error (lthreads c) t) as [th|] eqn:E; auto.
      destruct (at_ th) as [| |a| |rest|x rest| |x] eqn:Ea.
      + destruct (todo th) as [|[[a|] b|x] ops]; auto; [| |destruct (flag c) eqn:Ef]; right; exists t, th; eexists; (split; [exact E|]); constructor; rewrite Ea; simpl; auto.
      + destruct (stored c); right; exists t, th; eexists; (split; [exact E|]); constructor; rewrite Ea; simpl; auto.
      + destruct (lock c) eqn:El; [destruct a; auto|]; right; exists t, th; eexists; (split; [exact E|]); constructor; rewrite Ea; simpl; auto.
      + right; exists t, th; eexists; (split; [exact E|]); constructor; rewrite Ea; simpl; auto.
      + destruct rest as [|x rest]; [|destruct (flag c) eqn:Ef]; right; exists t, th; eexists; (split; [exact E|]); constructor; rewrite Ea; simpl; auto.
      + right; exists t, th; eexists; (split; [exact E|]); constructor; rewrite Ea; simpl; auto.
      + right; exists t, th; eexists; (split; [exact E|]); constructor; rewrite Ea; simpl; auto.
      + right; exists t, th; eexists; (split; [exact E|]); constructor; rewrite Ea; simpl; auto.
    - unfold lexpire. destruct (nth_error (lthreads c) t) as [th|] eqn:E; auto.
      destruct (at_ th) as [| |a| |rest|x rest| |x] eqn:Ea; auto. destruct a; auto.
      right; exists t, th; eexists; (split; [exact E|]); constructor; rewrite Ea; simpl; auto.
  Qed.

  Definition HInv (c : st) : Prop :=
    (forall t th, nth_error (lthreads c) t = Some th -> (holds (at_ th) = true <-> lock c = Some t)) /\
    (forall t, lock c = Some t -> t < length (lthreads c)) /\
    (flag c = true -> exists t th, nth_error (lthreads c) t = Some th /\ flagged (at_ th) = true).
  Lemma start_outside (v : V) (programs : list (list (action V))) t th : nth_error (lthreads (lstart v programs)) t = Some th ->
    exists p, nth_error programs t = Some p /\ th = mk_lthread p Outside [].
  Proof.
    unfold lstart. simpl. rewrite nth_error_map. destruct (nth_error programs t) as [p|]; [|discriminate]. intros H. injection H as <-. eauto.
  Qed.
  Lemma HInv_start (v : V) programs : HInv (lstart v programs).
  Proof.
    split; [|split]; try discriminate. intros t th H. apply start_outside in H. destruct H as (p & _ & ->). simpl. split; discriminate.
  Qed.
  Lemma HInv_event (c : st) e : HInv c -> HInv (levent c e).
  Proof.
    intros (Hh & Hb & Hf). destruct (event_lstep c e) as [->|(t & th & th' & E & Hs)]; [repeat split; auto; apply Hh; auto|].
    inversion Hs as [l f s v th2 HL HF Hc1 Hc2]. subst th2. pose proof (Hh _ _ E) as HhE. pose proof (nth_lt _ _ _ E) as Hlt.
    split; [|split]; simpl.
    - intros u uth Eu. apply nth_upd_cases in Eu. destruct Eu as [[-> ->]|[N Eu]].
      + destruct HL as [[-> ->]|[(H1 & H2 & ->)|(H1 & H2 & ->)]]; auto; rewrite H2; split; congruence.
      + specialize (Hh _ _ Eu). destruct HL as [[H1 ->]|[(H1 & H2 & ->)|(H1 & H2 & ->)]]; auto.
        * apply HhE in H1. split; [intros K; apply Hh in K; congruence|congruence].
        * split; [intros K; apply Hh in K; congruence|congruence].
    - rewrite upd_length. intros u Hu. destruct HL as [[H1 ->]|[(H1 & H2 & ->)|(H1 & H2 & ->)]]; auto; congruence.
    - intros ->. destruct HF as [[K1 K2]|[[K1 K2]|(K1 & _)]]; [| |discriminate].
      + destruct (Hf (eq_sym K1)) as (u & uth & Eu & Ku). destruct (Nat.eq_dec u t) as [->|N].
        * exists t, th'. rewrite nth_error_upd_eq by auto. rewrite E in Eu. injection Eu as <-. split; congruence.
        * exists u, uth. rewrite nth_error_upd_neq; auto.
      + exists t, th'. rewrite nth_error_upd_eq; auto.
  Qed.
  Lemma lexec_app (c : st) a b : lexec c (a ++ b) = lexec (lexec c a) b.
  Proof. revert c; induction a; simpl; auto. Qed.
  Lemma HInv_exec es : forall c : st, HInv c -> HInv (lexec c es).
  Proof. induction es; simpl; auto using HInv_event. Qed.

  Lemma one_at_a_time (v : V) programs es t th t' th' :
    let c := lexec (lstart v programs) es in
    nth_error (lthreads c) t = Some th -> in_with th -> nth_error (lthreads c) t' = Some th' -> in_with th' -> t = t'.
  Proof.
    intros c E H E' H'. destruct (HInv_exec es _ (HInv_start v programs)) as (Hh & _). fold c in Hh.
    apply holds_in_with, (Hh _ _ E) in H. apply holds_in_with, (Hh _ _ E') in H'. congruence.
  Qed.

  Lemma outside_raises (v : V) programs es t th x rest :
    let c := lexec (lstart v programs) es in
    nth_error (lthreads c) t = Some th -> at_ th = Outside -> todo th = Bare x :: rest ->
    (forall u uth, nth_error (lthreads c) u = Some uth -> ~ busy uth) ->
    nth_error (lthreads (levent c (Turn t))) t = Some (mk_lthread rest Outside (results th ++ [NotLocked])) /\ attr (levent c (Turn t)) = attr c.
  Proof.
    intros c E Ea Et Hn. destruct (HInv_exec es _ (HInv_start v programs)) as (_ & _ & Hf). fold c in Hf.
    assert (flag c = false) as Ef.
    { destruct (flag c) eqn:Ef; auto. destruct (Hf eq_refl) as (u & uth & Eu & Ku). destruct (Hn _ _ Eu). unfold busy, in_with. destruct (at_ uth); try discriminate; auto. }
    simpl. unfold lturn. rewrite E, Ea, Et, Ef. simpl. rewrite nth_error_upd_eq by (eapply nth_lt; eauto). unfold finish. rewrite Et. auto.
  Qed.

  (** ** serial *)
  Notation log := (list (nat * action V * list (result V))).
  Definition Thread_ok (t : nat) (lg : log) (program : list (action V)) (th : thr) : Prop :=
    Forall (@only_with V) (todo th) /\
    program = map fst (of_thread t lg) ++ (match at_ th with Clearing => tl (todo th) | _ => todo th end) /\
    (holds (at_ th) = false -> results th = concat (map snd (of_thread t lg))) /\
    (at_ th <> Outside -> exists a body rest, todo th = With a body :: rest) /\ (forall x, at_ th <> BareAccessing x).
  Definition doing (t : nat) (lg : log) (v v' : V) (th : thr) : Prop :=
    exists so_far, results th = concat (map snd (of_thread t lg)) ++ so_far /\
    match at_ th with
    | Acquired => so_far = [] /\ v' = v
    | Inside rest => exists a body ops, todo th = With a body :: ops /\ forall rs w, block v' rest rs w -> block v body (so_far ++ rs) w
    | Accessing x rest => exists a body ops, todo th = With a body :: ops /\ forall rs w, block v' (x :: rest) rs w -> block v body (so_far ++ rs) w
    | _ => False
    end.
  Definition SInv (v0 : V) (programs : list (list (action V))) (lg : log) (v : V) (c : st) : Prop :=
    HInv c /\ length (lthreads c) = length programs /\
    (forall t p th, nth_error programs t = Some p -> nth_error (lthreads c) t = Some th -> Thread_ok t lg p th) /\
    serial v0 lg v /\
    match lock c with None => attr c = v | Some t => forall th, nth_error (lthreads c) t = Some th -> doing t lg v (attr c) th end.

  Lemma of_thread_app t (l l2 : log) : of_thread t (l ++ l2) = of_thread t l ++ of_thread t l2.
  Proof. unfold of_thread. rewrite filter_app, map_app. reflexivity. Qed.
  Lemma of_thread_one t (o : action V) r : of_thread t [(t, o, r)] = [(o, r)].
  Proof. unfold of_thread. simpl. rewrite Nat.eqb_refl. reflexivity. Qed.
  Lemma of_thread_other t u (o : action V) r : t <> u -> of_thread u [(t, o, r)] = [].
  Proof. intros H. unfold of_thread. simpl. apply Nat.eqb_neq in H. rewrite H. reflexivity. Qed.
  Lemma serial_app v l v1 l2 v2 : @serial V v l v1 -> serial v1 l2 v2 -> serial v (l ++ l2) v2.
  Proof. induction 1; simpl; intros; auto; [eapply S_block|eapply S_refused]; eauto. Qed.
  Lemma concat_snoc {X} (l : list (list X)) x : concat (l ++ [x]) = concat l ++ x.
  Proof. rewrite concat_app. simpl. rewrite app_nil_r. reflexivity. Qed.

  Lemma SInv_upd v0 programs lg v (c : st) t th th' l f s w ext v' :
    SInv v0 programs lg v c -> nth_error (lthreads c) t = Some th ->
    HInv (mk_lstate l f s w (upd (lthreads c) t th')) ->
    (ext = [] \/ exists o r, ext = [(t, o, r)]) ->
    (forall p, Thread_ok t lg p th -> Thread_ok t (lg ++ ext) p th') ->
    serial v ext v' ->
    (if holds (at_ th') then doing t (lg ++ ext) v' w th' else
     if holds (at_ th) then w = v' else v' = v /\ w = attr c /\ l = lock c) ->
    SInv v0 programs (lg ++ ext) v' (mk_lstate l f s w (upd (lthreads c) t th')).
  Proof.
    intros (HH & Hl & Ht & Hs & Hc) E HH' Hext Hok Hs' Hcont.
    assert (t < length (lthreads c)) as Hlt by (eapply nth_lt; eauto).
    assert (forall u, u <> t -> of_thread u (lg ++ ext) = of_thread u lg) as Hoth.
    { intros u N. rewrite of_thread_app. assert (of_thread u ext = []) as ->; [|apply app_nil_r].
      destruct Hext as [->|(o & r & ->)]; auto. apply of_thread_other. auto. }
    split; [auto|]. simpl. split; [rewrite upd_length; auto|]. split; [|split].
    - intros u p uth Ep Eu. apply nth_upd_cases in Eu. destruct Eu as [[-> ->]|[N Eu]]; [apply Hok, (Ht _ _ _ Ep E)|].
      specialize (Ht _ _ _ Ep Eu). unfold Thread_ok in *. rewrite Hoth; auto.
    - eapply serial_app; eauto.
    - destruct HH as (Hh & Hb & _), HH' as (Hh' & Hb' & _). simpl in *. pose proof (Hh _ _ E) as HhE.
      pose proof (Hh' t th' (nth_error_upd_eq _ _ Hlt)) as HhE'.
      destruct (holds (at_ th')) eqn:E'.
      + rewrite (proj1 HhE' eq_refl). intros uth Eu. rewrite nth_error_upd_eq in Eu by auto. congruence.
      + destruct (holds (at_ th)) eqn:E0.
        * destruct l as [u|]; auto. intros uth Eu. exfalso. destruct (Nat.eq_dec u t) as [->|N]; [destruct HhE' as [_ K]; discriminate (K eq_refl)|].
          pose proof (Hh' u uth Eu) as [_ K]. specialize (K eq_refl). rewrite nth_error_upd_neq in Eu by auto. apply (Hh _ _ Eu) in K.
          apply HhE in E0 || idtac. pose proof (proj1 HhE eq_refl). congruence.
        * destruct Hcont as (-> & -> & ->). destruct (lock c) as [u|]; auto. intros uth Eu.
          destruct (Nat.eq_dec u t) as [->|N]; [destruct HhE as [_ K]; discriminate (K eq_refl)|].
          rewrite nth_error_upd_neq in Eu by auto. specialize (Hc _ Eu). unfold doing in *. rewrite Hoth; auto.
  Qed.

  Ltac tok := let pp := fresh "pp" in intros pp; unfold Thread_ok, goto, also, finish; simpl; rewrite ?app_nil_r;
    repeat match goal with H : at_ _ = _ |- _ => rewrite H end; simpl; intros (K1 & K2 & K3 & K4 & K5).

  Lemma SInv_event v0 programs lg v (c : st) e : SInv v0 programs lg v c -> exists ext v', SInv v0 programs (lg ++ ext) v' (levent c e).
  Proof.
    intros HI.
    assert (exists ext v', SInv v0 programs (lg ++ ext) v' c) as Hsame by (exists [], v; rewrite app_nil_r; auto).
    pose proof (HInv_event c e (proj1 HI)) as HH'.
    assert (forall t th, nth_error (lthreads c) t = Some th -> exists p, Thread_ok t lg p th) as Hok.
    { intros t th E. destruct HI as (_ & Hl & Ht & _). destruct (nth_error programs t) as [p|] eqn:Ep; [eauto|].
      apply nth_error_None in Ep. apply nth_lt in E. lia. }
    assert (forall t th, nth_error (lthreads c) t = Some th -> holds (at_ th) = true -> doing t lg v (attr c) th) as Hdo.
    { intros t th E Hh. destruct HI as ((HH & _) & _ & _ & _ & Hc). apply (HH _ _ E) in Hh. rewrite Hh in Hc. auto. }
    (* a block that is refused *)
    assert (forall t th r, nth_error (lthreads c) t = Some th -> (at_ th = Entering \/ exists a, at_ th = Acquiring a) -> r = WouldWait \/ r = BadCall ->
      HInv (mk_lstate (lock c) (flag c) (stored c) (attr c) (upd (lthreads c) t (finish th [r]))) ->
      exists ext v', SInv v0 programs (lg ++ ext) v' (mk_lstate (lock c) (flag c) (stored c) (attr c) (upd (lthreads c) t (finish th [r])))) as Href.
    { intros t th r E Ha Hr Hh2. destruct (Hok _ _ E) as [p (_ & _ & _ & K & _)].
      destruct K as (a & body & ops & Et); [destruct Ha as [->|[? ->]]; discriminate|].
      exists [(t, With a body, [r])], v. eapply SInv_upd; [exact HI|exact E|exact Hh2|right; eauto| | |].
      - intros pp. unfold Thread_ok. simpl. rewrite Et. simpl. intros (K1 & K2 & K3 & K4 & K5). rewrite of_thread_app, of_thread_one, !map_app. simpl.
        assert (at_ th <> Clearing /\ holds (at_ th) = false) as [Hc Hh] by (destruct Ha as [->|[? ->]]; split; auto; discriminate).
        split; [inversion K1; auto|]. split; [rewrite <- app_assoc; simpl; rewrite K2; destruct (at_ th); congruence|].
        split; [intros _; rewrite concat_snoc, K3; auto|]. split; [intros K; destruct (K eq_refl)|discriminate].
      - apply S_refused; auto. constructor.
      - simpl. assert (holds (at_ th) = false) as -> by (destruct Ha as [->|[? ->]]; auto). auto. }
    destruct e as [t|t]; simpl in *.
    - unfold lturn in *. destruct (nth_error (lthreads c) t) as [th|] eqn:E; auto. destruct (Hok _ _ E) as [p0 Hp0].
      destruct (at_ th) as [| |a| |rest|x rest| |x] eqn:Ea.
      + destruct (todo th) as [|[oa b|x] ops] eqn:Et; auto.
        * destruct oa as [a|]; exists [], v; (eapply SInv_upd; [exact HI|exact E|exact HH'|left; auto| |constructor|simpl; rewrite Ea; simpl; auto]);
            tok; rewrite Et in *; repeat split; eauto; discriminate.
        * exfalso. destruct Hp0 as (K & _). rewrite Et in K. inversion K; subst. auto.
      + destruct (stored c) eqn:Es; try (exists [], v; (eapply SInv_upd; [exact HI|exact E|exact HH'|left; auto| |constructor|simpl; rewrite Ea; simpl; auto]);
          tok; repeat split; auto; try discriminate; intros _; apply K4; discriminate). rewrite <- Es in *. apply (Href t th BadCall); auto.
      + destruct (lock c) as [u|] eqn:El.
        * destruct a; auto. rewrite <- El in *. apply (Href t th WouldWait); eauto.
        * exists [], v. assert (attr c = v) as Hv by (destruct HI as (_ & _ & _ & _ & Hc); rewrite El in Hc; auto).
          eapply SInv_upd; [exact HI|exact E|exact HH'|left; auto| |constructor|].
          -- tok. repeat split; auto; try discriminate. intros _; apply K4; discriminate.
          -- simpl. exists []. rewrite !app_nil_r. simpl. destruct Hp0 as (_ & _ & K & _). rewrite Ea in K. split; [apply K; auto|auto].
      + destruct (Hdo _ _ E) as (sf & D1 & D2); [rewrite Ea; auto|]. rewrite Ea in D2. destruct D2 as [-> Hv].
        assert (exists a body ops, todo th = With a body :: ops) as (a & body & ops & Et) by (destruct Hp0 as (_ & _ & _ & K & _); apply K; rewrite Ea; discriminate).
        exists [], v. rewrite Et in *. eapply SInv_upd; [exact HI|exact E|exact HH'|left; auto| |constructor|].
        -- tok. rewrite Et in *. repeat split; eauto; discriminate.
        -- simpl. exists []. rewrite !app_nil_r in *. simpl. split; auto. exists a, body, ops. rewrite Hv. auto.
      + destruct (Hdo _ _ E) as (sf & D1 & D2); [rewrite Ea; auto|]. rewrite Ea in D2. destruct D2 as (a & body & ops & Et & D2).
        destruct rest as [|x rest].
        * exists [(t, With a body, sf)], (attr c). eapply SInv_upd; [exact HI|exact E|exact HH'|right; eauto| | |].
          -- tok. rewrite Et in *. simpl. rewrite of_thread_app, of_thread_one, !map_app. simpl. rewrite <- app_assoc. simpl.
             repeat split; eauto; try discriminate. intros _. rewrite concat_snoc. auto.
          -- eapply S_block; [|constructor]. specialize (D2 [] (attr c)). rewrite app_nil_r in D2. apply D2. constructor.
          -- simpl. rewrite Ea. simpl. auto.
        * destruct (flag c) eqn:Ef; exists [], v; (eapply SInv_upd; [exact HI|exact E|exact HH'|left; auto| |constructor|]).
          -- tok. rewrite Et in *. repeat split; eauto; discriminate.
          -- simpl. exists sf. rewrite !app_nil_r. simpl. split; auto. exists a, body, ops. auto.
          -- tok. rewrite Et in *. repeat split; eauto; discriminate.
          -- simpl. exists (sf ++ [NotLocked]). rewrite !app_nil_r. simpl. rewrite D1, app_assoc. split; auto. exists a, body, ops. split; auto.
             intros rs w Hb. inversion Hb; subst. rewrite app_nil_r. apply D2. constructor.
      + destruct (Hdo _ _ E) as (sf & D1 & D2); [rewrite Ea; auto|]. rewrite Ea in D2. destruct D2 as (a & body & ops & Et & D2).
        exists [], v; (eapply SInv_upd; [exact HI|exact E|exact HH'|left; auto| |constructor|]).
        -- tok. rewrite Et in *. repeat split; eauto; discriminate.
        -- simpl. exists (sf ++ [snd (perform (attr c) x)]). rewrite !app_nil_r. simpl. rewrite D1, app_assoc. split; auto. exists a, body, ops. split; auto.
           intros rs w Hb. rewrite <- app_assoc. apply D2. destruct x; simpl in *; constructor; auto.
      + exists [], v. eapply SInv_upd; [exact HI|exact E|exact HH'|left; auto| |constructor|simpl; rewrite Ea; simpl; auto].
        tok. rewrite ?app_nil_r. repeat split; auto; try discriminate.
        -- destruct (todo th); simpl; auto. inversion K1; auto.
        -- intros K; destruct (K eq_refl).
      + exfalso. destruct Hp0 as (_ & _ & _ & _ & K). destruct (K _ Ea).
    - unfold lexpire in *. destruct (nth_error (lthreads c) t) as [th|] eqn:E; auto.
      destruct (at_ th) as [| |a| |rest|x rest| |x] eqn:Ea; auto. destruct a; auto. apply (Href t th WouldWait); eauto.
  Qed.

  Lemma SInv_start (v : V) programs : Forall (Forall (@only_with V)) programs -> SInv v programs [] v (lstart v programs).
  Proof.
    intros HP. split; [apply HInv_start|]. split; [simpl; apply map_length|]. split; [|split; [constructor|reflexivity]].
    intros t p th Ep Et. apply start_outside in Et. destruct Et as (p' & Ep' & ->). rewrite Ep in Ep'. injection Ep' as <-.
    unfold Thread_ok, of_thread. simpl. rewrite Forall_forall in HP. repeat split; auto; try discriminate; [apply HP; eapply nth_error_In; eauto|intros K; destruct (K eq_refl)].
  Qed.
  Lemma SInv_exec v programs es : forall lg v1 (c : st), SInv v programs lg v1 c -> exists ext v', SInv v programs (lg ++ ext) v' (lexec c es).
  Proof.
    induction es as [|e es IH]; intros lg v1 c H; simpl.
    - exists [], v1. rewrite app_nil_r. auto.
    - destruct (SInv_event _ _ _ _ _ e H) as (x1 & q1 & H1). destruct (IH _ _ _ H1) as (x2 & q2 & H2). exists (x1 ++ x2), q2. rewrite app_assoc. auto.
  Qed.
  Lemma SInv_explains v programs lg v' (c : st) : SInv v programs lg v' c -> explains lg v programs c.
  Proof.
    intros ((Hh & _) & Hl & Ht & Hs & Hc). split.
    - intros t p th Ep Et. destruct (Ht _ _ _ Ep Et) as (T1 & T2 & T3 & T4 & T5). split; [eexists; split; [exact T2|intros ->; auto]|].
      destruct (holds (at_ th)) eqn:Eh.
      + pose proof Eh as Eh2. apply (Hh _ _ Et) in Eh2. rewrite Eh2 in Hc. destruct (Hc _ Et) as (sf & D1 & _). exists sf. split; auto.
        intros K. destruct K. apply holds_in_with; auto.
      + exists []. rewrite app_nil_r. auto.
    - exists v'. split; auto. intros E. rewrite E in Hc. auto.
  Qed.
  Lemma over_time (v : V) programs es1 es2 : Forall (Forall (@only_with V)) programs -> exists lg since,
    explains lg v programs (lexec (lstart v programs) es1) /\ explains (lg ++ since) v programs (lexec (lstart v programs) (es1 ++ es2)).
  Proof.
    intros HP. destruct (SInv_exec v programs es1 _ _ _ (SInv_start v programs HP)) as (lg & v1 & H1).
    destruct (SInv_exec v programs es2 _ _ _ H1) as (ext & v2 & H2). exists lg, ext. rewrite lexec_app.
    split; eapply SInv_explains; eauto.
  Qed.

  (** ** no gaps *)
  Definition GInv (c : st) : Prop :=
    HInv c /\
    (forall t th, nth_error (lthreads c) t = Some th -> match at_ th with Inside _ | Accessing _ _ => flag c = true | Clearing => lock c = None | _ => True end) /\
    (forall t th, nth_error (lthreads c) t = Some th -> Forall (@only_with V) (todo th) /\ ~ In NotLocked (results th) /\ (forall x, at_ th <> BareAccessing x)).
  Lemma GInv_upd (c : st) t th th' l f s w : GInv c -> nth_error (lthreads c) t = Some th ->
    HInv (mk_lstate l f s w (upd (lthreads c) t th')) ->
    (forall u uth, u <> t -> nth_error (lthreads c) u = Some uth -> at_ uth <> Clearing) ->
    (f = true \/ f = flag c \/ lock c = None) ->
    match at_ th' with Inside _ | Accessing _ _ => f = true | Clearing => l = None | _ => True end ->
    Forall (@only_with V) (todo th') -> ~ In NotLocked (results th') -> (forall x, at_ th' <> BareAccessing x) ->
    GInv (mk_lstate l f s w (upd (lthreads c) t th')).
  Proof.
    intros ((HH & HHr) & H1 & H2) E HH' Hgap Hf Hm P1 P2 P3. split; [auto|]. simpl. split.
    - intros u uth Eu. apply nth_upd_cases in Eu. destruct Eu as [[-> ->]|[N Eu]]; auto.
      specialize (H1 _ _ Eu). pose proof (Hgap _ _ N Eu) as Hg. pose proof (HH _ _ Eu) as HhU.
      destruct (at_ uth) eqn:Eau; auto; try congruence;
        (destruct Hf as [->|[->|Hf]]; [auto|auto|]; pose proof (proj1 HhU eq_refl); congruence).
    - intros u uth Eu. apply nth_upd_cases in Eu. destruct Eu as [[-> ->]|[N Eu]]; auto. apply (H2 _ _ Eu).
  Qed.
  Ltac nolock := let K := fresh in intros K; apply in_app_or in K; destruct K as [K|[K|[]]]; [auto|discriminate K].
  Lemma GInv_event (c : st) e : GInv c -> no_gap c e -> GInv (levent c e).
  Proof.
    intros HI HG. pose proof (HInv_event c e (proj1 HI)) as HH'. pose proof HI as (_ & H1 & H2).
    destruct e as [t|t]; simpl in *.
    - assert (forall u uth, u <> t -> nth_error (lthreads c) u = Some uth -> at_ uth <> Clearing) as Hgap
        by (intros u uth N Eu K; pose proof (HG _ _ Eu K); congruence).
      unfold lturn in *. destruct (nth_error (lthreads c) t) as [th|] eqn:E; auto. specialize (H1 _ _ E). destruct (H2 _ _ E) as (P1 & P2 & P3).
      assert (Forall (@only_with V) (tl (todo th))) as P1' by (destruct (todo th); simpl; auto; inversion P1; auto).
      destruct (at_ th) as [| |a| |rest|x rest| |x] eqn:Ea.
      + destruct (todo th) as [|[oa b|x] ops] eqn:Et; auto; [|inversion P1 as [|? ? K]; destruct K].
        destruct oa as [a|]; (eapply GInv_upd; [exact HI|exact E|exact HH'|exact Hgap|..]); simpl; rewrite ?Et; auto; discriminate.
      + destruct (stored c) eqn:Es; (eapply GInv_upd; [exact HI|exact E|exact HH'|exact Hgap|..]); simpl; auto; try discriminate; nolock.
      + destruct (lock c) as [u|] eqn:El.
        * destruct a; auto. (eapply GInv_upd; [exact HI|exact E|exact HH'|exact Hgap|..]); simpl; auto; try discriminate; nolock.
        * (eapply GInv_upd; [exact HI|exact E|exact HH'|exact Hgap|..]); simpl; auto; discriminate.
      + (eapply GInv_upd; [exact HI|exact E|exact HH'|exact Hgap|..]); simpl; auto; discriminate.
      + destruct rest as [|x rest]; [|rewrite H1 in *]; (eapply GInv_upd; [exact HI|exact E|exact HH'|exact Hgap|..]); simpl; auto; discriminate.
      + (eapply GInv_upd; [exact HI|exact E|exact HH'|exact Hgap|..]); simpl; auto; try discriminate.
        intros K; apply in_app_or in K; destruct K as [K|[K|[]]]; [auto|destruct x; discriminate K].
      + (eapply GInv_upd; [exact HI|exact E|exact HH'|exact Hgap|..]); simpl; rewrite ?app_nil_r; auto; discriminate.
      + destruct (P3 _ eq_refl).
    - assert (forall u uth, u <> t -> nth_error (lthreads c) u = Some uth -> at_ uth <> Clearing) as Hgap
        by (intros u uth N Eu K; pose proof (HG _ _ Eu K); congruence).
      unfold lexpire in *. destruct (nth_error (lthreads c) t) as [th|] eqn:E; auto. destruct (H2 _ _ E) as (P1 & P2 & P3).
      assert (Forall (@only_with V) (tl (todo th))) as P1' by (destruct (todo th); simpl; auto; inversion P1; auto).
      destruct (at_ th) as [| |a| |rest|x rest| |x] eqn:Ea; auto. destruct a; auto.
      (eapply GInv_upd; [exact HI|exact E|exact HH'|exact Hgap|..]); simpl; auto; try discriminate; nolock.
  Qed.
  Lemma GInv_exec es : forall c : st, GInv c -> no_gaps c es -> GInv (lexec c es).
  Proof. induction es as [|e es IH]; simpl; auto. intros c H [H1 H2]. apply IH; auto. apply GInv_event; auto. Qed.
  Lemma inside_works (v : V) programs es t th :
    Forall (Forall (@only_with V)) programs -> no_gaps (lstart v programs) es ->
    nth_error (lthreads (lexec (lstart v programs) es)) t = Some th -> ~ In NotLocked (results th).
  Proof.
    intros HP Hg E. assert (GInv (lstart v programs)) as H0.
    { split; [apply HInv_start|]. split; intros u uth Eu; apply start_outside in Eu; destruct Eu as (p & Ep & ->); simpl; auto.
      rewrite Forall_forall in HP. repeat split; auto; [apply HP; eapply nth_error_In; eauto|discriminate]. }
    apply (GInv_exec es) in H0; auto. destruct H0 as (_ & _ & H). apply (H _ _ E).
  Qed.

  (** ** everybody can finish *)
  Definition aw (a : action V) : nat := match a with With _ b => 2 * length b + 7 | Bare _ => 2 end.
  Definition tw (l : list (action V)) : nat := list_sum (map aw l).
  Definition pw (th : thr) : nat :=
    match at_ th with
    | Outside => tw (todo th)
    | Entering => tw (todo th) - 1
    | Acquiring _ => tw (todo th) - 2
    | Acquired => tw (todo th) - 3
    | Inside rest => tw (tl (todo th)) + 2 * length rest + 2
    | Accessing _ rest => tw (tl (todo th)) + 2 * length rest + 3
    | Clearing => tw (tl (todo th)) + 1
    | BareAccessing _ => tw (tl (todo th)) + 1
    end.
  Definition sane (th : thr) : Prop := match at_ th with Outside => True | BareAccessing _ => todo th <> [] | Clearing => True
    | _ => exists a b ops, todo th = With a b :: ops end.
  Definition total (c : st) : nat := list_sum (map pw (lthreads c)).
  Lemma sum_upd (l : list thr) t th th' : nth_error l t = Some th -> pw th' < pw th -> list_sum (map pw (upd l t th')) < list_sum (map pw l).
  Proof. revert t; induction l as [|a l IH]; intros [|t] H Hl; simpl in *; try discriminate; [injection H as ->; lia|specialize (IH _ H Hl); lia]. Qed.
  Lemma sane_event (c : st) e : Forall sane (lthreads c) -> Forall sane (lthreads (levent c e)).
  Proof.
    intros H. assert (forall t th, nth_error (lthreads c) t = Some th -> sane th) as Hn by (intros t th E; rewrite Forall_forall in H; apply H; eapply nth_error_In; eauto).
    assert (forall t th', sane th' -> Forall sane (upd (lthreads c) t th')) as Hu.
    { intros t th' Hs. apply Forall_forall. intros x Hx. apply In_nth_error in Hx. destruct Hx as (u & Eu). apply nth_upd_cases in Eu.
      destruct Eu as [[-> ->]|[N Eu]]; eauto. }
    destruct e as [t|t]; simpl.
    - unfold lturn. destruct (nth_error (lthreads c) t) as [th|] eqn:E; auto. specialize (Hn _ _ E). unfold sane in Hn.
      destruct (at_ th) as [| |a| |rest|x rest| |x] eqn:Ea; simpl; try (apply Hu; unfold sane; simpl; auto; fail).
      + destruct (todo th) as [|[[a|] b|x] ops] eqn:Et; auto; [| |destruct (flag c)]; simpl; apply Hu; unfold sane; simpl; rewrite ?Et; eauto; discriminate.
      + destruct (stored c); simpl; apply Hu; unfold sane; simpl; auto.
      + destruct (lock c); [destruct a; auto|]; simpl; apply Hu; unfold sane; simpl; auto.
      + destruct rest as [|x rest]; [|destruct (flag c)]; simpl; apply Hu; unfold sane; simpl; auto.
    - unfold lexpire. destruct (nth_error (lthreads c) t) as [th|] eqn:E; auto.
      destruct (at_ th) as [| |a| |rest|x rest| |x] eqn:Ea; auto. destruct a; auto. simpl. apply Hu. unfold sane; simpl; auto.
  Qed.
  Lemma turn_less (c : st) t th : nth_error (lthreads c) t = Some th -> sane th -> (at_ th <> Outside \/ todo th <> []) ->
    (forall a, at_ th = Acquiring a -> lock c = None \/ a = Try) -> total (lturn c t) < total c.
  Proof.
    intros E Hs Hne Hacq. unfold total, lturn. rewrite E. unfold sane in Hs.
    destruct (at_ th) as [| |a| |rest|x rest| |x] eqn:Ea; simpl.
    - destruct (todo th) as [|[[a|] b|x] ops] eqn:Et; [destruct Hne; congruence|..|destruct (flag c)]; simpl; apply (sum_upd _ _ _ _ E);
        unfold pw; simpl; rewrite Ea, Et; unfold tw; simpl; lia.
    - destruct Hs as (a & b & ops & Et). destruct (stored c); simpl; apply (sum_upd _ _ _ _ E); unfold pw; simpl; rewrite Ea, Et; unfold tw; simpl; lia.
    - destruct Hs as (a' & b & ops & Et). destruct (Hacq a eq_refl) as [->| ->]; [|destruct (lock c)]; simpl; apply (sum_upd _ _ _ _ E); unfold pw; simpl; rewrite Ea, Et; unfold tw; simpl; lia.
    - destruct Hs as (a' & b & ops & Et). rewrite Et. simpl; apply (sum_upd _ _ _ _ E); unfold pw; simpl; rewrite Ea, Et; unfold tw; simpl; lia.
    - destruct rest as [|x rest]; [|destruct (flag c)]; simpl; apply (sum_upd _ _ _ _ E); unfold pw; simpl; rewrite Ea; simpl; lia.
    - apply (sum_upd _ _ _ _ E); unfold pw; simpl; rewrite Ea; simpl; lia.
    - apply (sum_upd _ _ _ _ E); unfold pw; simpl; rewrite Ea; simpl; lia.
    - apply (sum_upd _ _ _ _ E); unfold pw; simpl; rewrite Ea; simpl; lia.
  Qed.
  Definition over (th : thr) : Prop := todo th = [] /\ at_ th = Outside.
  Lemma over_dec (th : thr) : {over th} + {at_ th <> Outside \/ todo th <> []}.
  Proof. unfold over. destruct (todo th); [destruct (at_ th); auto; right; left; discriminate|right; right; discriminate]. Qed.
  Lemma find_live (l : list thr) : Forall over l \/ exists t th, nth_error l t = Some th /\ (at_ th <> Outside \/ todo th <> []).
  Proof.
    induction l as [|a l IH]; auto. destruct (over_dec a) as [H|H]; [|right; exists 0, a; auto].
    destruct IH as [K|(t & th & K)]; auto. right. exists (S t), th. auto.
  Qed.
  Lemma someone_moves (c : st) t th : HInv c -> Forall sane (lthreads c) -> nth_error (lthreads c) t = Some th -> (at_ th <> Outside \/ todo th <> []) ->
    exists u, total (lturn c u) < total c.
  Proof.
    intros (Hh & Hb & _) Hs E Hl. rewrite Forall_forall in Hs. destruct (lock c) as [u|] eqn:El.
    - destruct (nth_error (lthreads c) u) as [uth|] eqn:Eu; [|apply nth_error_None in Eu; specialize (Hb _ eq_refl); lia].
      pose proof (proj2 (Hh _ _ Eu) eq_refl) as Hhu. exists u. apply (turn_less _ _ _ Eu).
      + apply Hs. eapply nth_error_In; eauto.
      + left. destruct (at_ uth); discriminate.
      + intros a Ha. rewrite Ha in Hhu. discriminate.
    - exists t. apply (turn_less _ _ _ E); auto. apply Hs. eapply nth_error_In; eauto.
  Qed.
  Lemma can_finish_from n : forall c : st, total c <= n -> HInv c -> Forall sane (lthreads c) -> exists es, Forall over (lthreads (lexec c es)).
  Proof.
    induction n as [|n IH]; intros c Hn HI Hs; (destruct (find_live (lthreads c)) as [K|(t & th & E & Hl)]; [exists []; exact K|]);
      destruct (someone_moves c t th HI Hs E Hl) as [u Hlt]; [lia|].
    destruct (IH (levent c (Turn u))) as [es Hes]; [simpl; lia|apply HInv_event; auto|apply sane_event; auto|]. exists (Turn u :: es). exact Hes.
  Qed.
  Lemma can_finish (v : V) programs es : exists more, Forall (fun th => todo th = [] /\ at_ th = Outside) (lthreads (lexec (lstart v programs) (es ++ more))).
  Proof.
    assert (forall es (c : st), Forall sane (lthreads c) -> Forall sane (lthreads (lexec c es))) as Hs by (intros l; induction l; simpl; auto using sane_event).
    destruct (can_finish_from (total (lexec (lstart v programs) es)) (lexec (lstart v programs) es)) as [more H]; auto.
    - apply HInv_exec, HInv_start.
    - apply Hs. apply Forall_forall. intros x Hx. apply In_nth_error in Hx. destruct Hx as (u & Eu). apply start_outside in Eu. destruct Eu as (p & _ & ->). unfold sane. simpl. auto.
    - exists more. rewrite lexec_app. exact H.
  Qed.

  (** a checker for examples *)
  Definition clearing (th : thr) : bool := match at_ th with Clearing => true | _ => false end.
  Fixpoint clear_only (l : list thr) (t : nat) (e : event) : bool :=
    match l with [] => true | th :: rest => (negb (clearing th) || match e with Turn u => Nat.eqb u t | _ => false end) && clear_only rest (S t) e end.
  Fixpoint no_gaps_b (c : st) (es : list event) : bool :=
    match es with [] => true | e :: rest => clear_only (lthreads c) 0 e && no_gaps_b (levent c e) rest end.
  Lemma clear_only_ok l : forall t e, clear_only l t e = true -> forall i th, nth_error l i = Some th -> at_ th = Clearing -> e = Turn (t + i).
  Proof.
    induction l as [|a l IH]; intros t e H i th E Ea; [destruct i; discriminate|]. simpl in H. apply andb_true_iff in H. destruct H as [H1 H2].
    destruct i as [|i]; simpl in E.
    - injection E as ->. unfold clearing in H1. rewrite Ea in H1. simpl in H1. destruct e; [|discriminate]. apply Nat.eqb_eq in H1. f_equal. lia.
    - rewrite (IH _ _ H2 _ _ E Ea). f_equal. lia.
  Qed.
  Lemma no_gaps_check es : forall c : st, no_gaps_b c es = true -> no_gaps c es.
  Proof.
    induction es as [|e es IH]; simpl; auto. intros c H. apply andb_true_iff in H. destruct H as [H1 H2]. split; auto.
    intros t th E Ea. apply (clear_only_ok _ _ _ H1 _ _ E Ea).
  Qed.
End LockedProofs.
