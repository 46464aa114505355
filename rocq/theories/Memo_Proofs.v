From Verif Require Import Prelude PreludeFacts MoreFacts Memo_Model Memo_Spec.

Section MemoProofs.
  Variables K W V : Type.
  Variable eqb : K -> K -> bool.
  Hypothesis He : eqb_ok eqb.
  Variable duration : option Z.
  Notation thr := (mthread K W V).
  Notation st := (mstate K W V).
  Notation evs := (list (evaluation K W V)).

  Lemma nth_upd_cases (l : list thr) i x t th : nth_error (upd l i x) t = Some th ->
    (t = i /\ th = x) \/ (t <> i /\ nth_error l t = Some th).
  Proof.
    intros H. destruct (Nat.eq_dec t i) as [->|N].
    - left. split; auto. assert (i < length l) by (rewrite <- (upd_length l i x); apply nth_error_Some; rewrite H; discriminate).
      rewrite nth_error_upd_eq in H by auto. congruence.
    - right. split; auto. rewrite nth_error_upd_neq in H; auto.
  Qed.
  Lemma nth_lt {X} (l : list X) t x : nth_error l t = Some x -> t < length l.
  Proof. intros H. apply nth_error_Some. rewrite H. discriminate. Qed.

  Definition holds (p : place K W V) : bool :=
    match p with Inside _ _ _ (Checking | Fetching | Storing _ | StoringValue _ | Failing _) => true | _ => false end.
  Definition HInv (l : option nat) (ths : list thr) : Prop :=
    (forall t th, nth_error ths t = Some th -> (holds (at_ th) = true <-> l = Some t)) /\
    (forall t, l = Some t -> t < length ths).
  Lemma HInv_upd l ths t th th' l' : HInv l ths -> nth_error ths t = Some th ->
    ((holds (at_ th') = holds (at_ th) /\ l' = l) \/ (holds (at_ th) = true /\ holds (at_ th') = false /\ l' = None) \/
     (l = None /\ holds (at_ th') = true /\ l' = Some t)) -> HInv l' (upd ths t th').
  Proof.
    intros (Hh & Hb) E HL. pose proof (Hh _ _ E) as HhE. pose proof (nth_lt _ _ _ E) as Hlt. split.
    - intros u uth Eu. apply nth_upd_cases in Eu. destruct Eu as [[-> ->]|[N Eu]].
      + destruct HL as [[-> ->]|[(H1 & H2 & ->)|(H1 & H2 & ->)]]; auto; rewrite H2; split; congruence.
      + specialize (Hh _ _ Eu). destruct HL as [[H1 ->]|[(H1 & H2 & ->)|(H1 & H2 & ->)]]; auto.
        * apply HhE in H1. split; [intros Q; apply Hh in Q; congruence|congruence].
        * split; [intros Q; apply Hh in Q; congruence|congruence].
    - rewrite upd_length. intros u Hu. destruct HL as [[H1 ->]|[(H1 & H2 & ->)|(H1 & H2 & ->)]]; auto; congruence.
  Qed.

  Definition TInv (ts : list (K * Z)) (vs : list (K * V)) (es : evs) (ths : list thr) : Prop :=
    match duration with
    | None => forall a v, dget eqb vs a = Some v -> exists e, In e es /\ on e = a /\ outcome e = Ok v
    | Some _ => forall a s, dget eqb ts a = Some s ->
        (exists e v, In e es /\ on e = a /\ stamp e = s /\ outcome e = Ok v /\ dget eqb vs a = Some v) \/
        (exists t th kw now v, nth_error ths t = Some th /\ at_ th = Inside a kw now (StoringValue v))
    end.
  Definition PInv (ts : list (K * Z)) (vs : list (K * V)) (es : evs) (t : nat) (p : place K W V) : Prop :=
    match p with
    | Outside => True
    | Inside a kw now s =>
      match s with
      | Fetching => exists v, dget eqb vs a = Some v /\ justified duration es t (a, kw) (now, Ok v)
      | Returning r => own es t (a, kw) now r
      | Storing v => own es t (a, kw) now (Ok v)
      | StoringValue v => own es t (a, kw) now (Ok v) /\ dget eqb ts a = Some now
      | Failing e => own es t (a, kw) now (Err e)
      | _ => True
      end
    end.
  Definition RInv (es : evs) (t : nat) (p : list (K * W)) (th : thr) : Prop :=
    exists done, p = done ++ called th ++ todo th /\ Forall2 (justified duration es t) done (results th).
  Definition J (programs : list (list (K * W))) (c : st) : Prop :=
    HInv (mlock c) (mthreads c) /\ TInv (times c) (values c) (evals c) (mthreads c) /\
    length (mthreads c) = length programs /\
    (forall t th, nth_error (mthreads c) t = Some th -> PInv (times c) (values c) (evals c) t (at_ th)) /\
    (forall t p th, nth_error programs t = Some p -> nth_error (mthreads c) t = Some th -> RInv (evals c) t p th).

  Lemma own_more es ext t call now r : own es t call now r -> own (es ++ ext : evs) t call now r.
  Proof. intros (e & H & R). exists e. split; auto. apply in_or_app. auto. Qed.
  Lemma justified_more es ext t call res : justified duration es t call res -> justified duration (es ++ ext : evs) t call res.
  Proof.
    intros [H|(e & v & H & R)]; [left; apply own_more; auto|right; exists e, v; split; auto; apply in_or_app; auto].
  Qed.
  Lemma PInv_more ts vs es ext t p : PInv ts vs es t p -> PInv ts vs (es ++ ext) t p.
  Proof.
    destruct p as [|a kw now [| | | |r|v|v|e]]; simpl; auto using own_more.
    - intros (v & H1 & H2). exists v. auto using justified_more.
    - intros [H1 H2]. auto using own_more.
  Qed.
  Lemma RInv_more es ext t p th : RInv es t p th -> RInv (es ++ ext) t p th.
  Proof.
    intros (done & H1 & H2). exists done. split; auto. clear H1. induction H2; constructor; auto using justified_more.
  Qed.
  Lemma PInv_tables ts vs ts' vs' es t p : holds p = false -> PInv ts vs es t p -> PInv ts' vs' es t p.
  Proof. destruct p as [|a kw now [| | | |r|v|v|e]]; simpl; auto; discriminate. Qed.

  Lemma J_upd programs (c : st) t th th' l ts vs ext : J programs c -> nth_error (mthreads c) t = Some th ->
    ((holds (at_ th') = holds (at_ th) /\ l = mlock c) \/ (holds (at_ th) = true /\ holds (at_ th') = false /\ l = None) \/
     (mlock c = None /\ holds (at_ th') = true /\ l = Some t)) ->
    ((ts = times c /\ vs = values c) \/ holds (at_ th) = true) ->
    TInv ts vs (evals c ++ ext) (upd (mthreads c) t th') ->
    PInv ts vs (evals c ++ ext) t (at_ th') ->
    (forall p, RInv (evals c) t p th -> RInv (evals c ++ ext) t p th') ->
    J programs (mk_mstate l ts vs (evals c ++ ext) (upd (mthreads c) t th')).
  Proof.
    intros (HH & HT & Hl & HP & HR) E HL Htab HT' HP' HR'. split; [simpl; eapply HInv_upd; eauto|]. simpl. split; [auto|]. split; [rewrite upd_length; auto|]. split.
    - intros u uth Eu. apply nth_upd_cases in Eu. destruct Eu as [[-> ->]|[N Eu]]; auto. apply PInv_more. specialize (HP _ _ Eu).
      destruct Htab as [[-> ->]|Hh]; auto. eapply PInv_tables; [|exact HP]. destruct HH as (Hh2 & _).
      apply (Hh2 _ _ E) in Hh. destruct (holds (at_ uth)) eqn:Q; auto. apply (Hh2 _ _ Eu) in Q. congruence.
    - intros u p uth Ep Eu. apply nth_upd_cases in Eu. destruct Eu as [[-> ->]|[N Eu]]; eauto using RInv_more.
  Qed.
  Lemma TInv_same (c : st) t th th' ext : TInv (times c) (values c) (evals c) (mthreads c) -> nth_error (mthreads c) t = Some th ->
    (forall a kw now v, at_ th <> Inside a kw now (StoringValue v)) -> TInv (times c) (values c) (evals c ++ ext) (upd (mthreads c) t th').
  Proof.
    unfold TInv. intros H E N. destruct duration.
    - intros a s Hs. destruct (H _ _ Hs) as [(e & v & H1 & R)|(u & uth & kw & now & v & Eu & Ea)].
      + left. exists e, v. split; auto. apply in_or_app; auto.
      + right. exists u, uth, kw, now, v. split; auto. rewrite nth_error_upd_neq; auto. intros <-. rewrite E in Eu. injection Eu as ->. destruct (N _ _ _ _ Ea).
    - intros a v Hv. destruct (H _ _ Hv) as (e & H1 & R). exists e. split; auto. apply in_or_app; auto.
  Qed.
  Ltac rgo := let pp := fresh "pp" in intros pp (dn & R1 & R2); exists dn; rewrite ?app_nil_r; unfold called in *; simpl in *.

  Lemma Forall2_snoc {X Y} (P : X -> Y -> Prop) l l' x y : Forall2 P l l' -> P x y -> Forall2 P (l ++ [x]) (l' ++ [y]).
  Proof. intros. apply Forall2_app; auto. Qed.

  Lemma J_event programs (c : st) e : J programs c -> J programs (mevent eqb duration c e).
  Proof.
    intros HJ. pose proof HJ as (HH & HT & Hl & HP & HR). destruct e as [t clock out]. simpl. unfold mturn.
    destruct (nth_error (mthreads c) t) as [th|] eqn:E; auto. specialize (HP _ _ E).
    destruct (at_ th) as [|a kw now s] eqn:Ea.
    - destruct (todo th) as [|[a kw] rest] eqn:Et; auto. rewrite <- (app_nil_r (evals c)).
      eapply J_upd; [exact HJ|exact E|..]; rewrite ?Ea; simpl; auto.
      + apply TInv_same with th; auto. congruence.
      + rgo. rewrite Ea, Et in *. auto.
    - destruct s as [| | | |r|v|v|e].
      + destruct (mlock c) as [u|] eqn:El; auto. rewrite <- (app_nil_r (evals c)).
        eapply J_upd; [exact HJ|exact E|..]; rewrite ?Ea; simpl; auto.
        * apply TInv_same with th; auto. congruence.
        * rgo. rewrite Ea in *. auto.
      + destruct (found eqb duration c a now) eqn:Ef; rewrite <- (app_nil_r (evals c)); (eapply J_upd; [exact HJ|exact E|..]); rewrite ?Ea; simpl; auto.
        * apply TInv_same with th; auto. congruence.
        * unfold found in Ef. unfold TInv in HT. rewrite app_nil_r. unfold justified, own, kept. destruct duration as [d|].
          -- destruct (dget eqb (times c) a) as [s|] eqn:Es; [|discriminate]. destruct (HT _ _ Es) as [(e & v & H1 & H2 & H3 & H4 & H5)|(u & uth & kw' & now' & v & Eu & Eau)].
             ++ exists v. split; auto. right. exists e, v. simpl. repeat split; auto. subst s. apply negb_true_iff in Ef. apply Z.ltb_ge in Ef. lia.
             ++ exfalso. destruct HH as (Hh & _). pose proof (proj1 (Hh _ _ E)) as Q1. rewrite Ea in Q1. specialize (Q1 eq_refl).
                pose proof (proj1 (Hh _ _ Eu)) as Q2. rewrite Eau in Q2. specialize (Q2 eq_refl). assert (u = t) by congruence. subst u. rewrite E in Eu. injection Eu as <-. congruence.
          -- unfold dmem in Ef. destruct (dget eqb (values c) a) as [v|] eqn:Ev; [|discriminate]. destruct (HT _ _ Ev) as (e & H1 & H2 & H3).
             exists v. split; auto. right. exists e, v. auto.
        * rgo. rewrite Ea in *. auto.
        * apply TInv_same with th; auto. congruence.
        * rgo. rewrite Ea in *. auto.
      + destruct HP as (v & Hv & Hj). rewrite Hv, <- (app_nil_r (evals c)). (eapply J_upd; [exact HJ|exact E|..]); rewrite ?Ea; simpl; auto.
        * apply TInv_same with th; auto. congruence.
        * intros pp (dn & R1 & R2). unfold called in *. rewrite Ea in *. exists (dn ++ [(a, kw)]). rewrite ?app_nil_r, <- app_assoc. simpl in *. split; auto. apply Forall2_snoc; auto.
      + (eapply J_upd; [exact HJ|exact E|..]); rewrite ?Ea; simpl; auto.
        * apply TInv_same with th; auto. congruence.
        * exists (mk_evaluation t a kw now out). split; [apply in_or_app; simpl; auto|auto].
        * intros p Hp. apply (RInv_more _ [mk_evaluation t a kw now out]) in Hp. destruct Hp as (dn & R1 & R2). exists dn. unfold called in *. rewrite Ea in *. simpl. auto.
      + destruct (mlock c) as [u|] eqn:El; auto. rewrite <- (app_nil_r (evals c)).
        eapply J_upd; [exact HJ|exact E|..]; rewrite ?Ea; simpl; auto.
        * right. right. destruct r; auto.
        * apply TInv_same with th; auto. congruence.
        * rewrite app_nil_r. destruct r; auto.
        * rgo. rewrite Ea in *. auto.
      + destruct duration as [d|] eqn:Ed; rewrite <- (app_nil_r (evals c)); (eapply J_upd; [exact HJ|exact E|..]); rewrite ?Ea; simpl; auto.
        * unfold TInv in *. rewrite Ed in *. rewrite app_nil_r. intros a' s Hs. destruct (eqb a a') eqn:Eaa.
          -- apply He in Eaa. subst a'. right. exists t, (goto th (Inside a kw now (StoringValue v))), kw, now, v. rewrite nth_error_upd_eq by (eapply nth_lt; eauto). auto.
          -- assert (a' <> a) as Na by (intros ->; rewrite (proj2 (He a a) eq_refl) in Eaa; discriminate). rewrite (dget_dset_neq He) in Hs by auto.
             destruct (HT _ _ Hs) as [Q|(u & uth & kw' & now' & v' & Eu & Eau)]; auto. right. exists u, uth, kw', now', v'. split; auto.
             rewrite nth_error_upd_neq; auto. intros <-. rewrite E in Eu. injection Eu as ->. congruence.
        * rewrite app_nil_r. split; [auto|apply (dget_dset_eq He)].
        * rgo. rewrite Ea in *. auto.
        * unfold TInv in *. rewrite Ed in *. rewrite app_nil_r. intros a' s Hs. destruct (eqb a a') eqn:Eaa.
          -- apply He in Eaa. subst a'. rewrite (dget_dset_eq He) in Hs. injection Hs as <-. destruct HP as (e & H1 & H2 & H3 & H4 & H5 & H6). exists e. auto.
          -- assert (a' <> a) as Na by (intros ->; rewrite (proj2 (He a a) eq_refl) in Eaa; discriminate). rewrite (dget_dset_neq He) in Hs by auto. auto.
        * intros pp (dn & R1 & R2). unfold called in *. rewrite Ea in *. exists (dn ++ [(a, kw)]). rewrite ?app_nil_r, <- app_assoc. simpl in *. split; auto. apply Forall2_snoc; auto. left. auto.
      + destruct HP as [HP Hts]. rewrite <- (app_nil_r (evals c)). (eapply J_upd; [exact HJ|exact E|..]); rewrite ?Ea; simpl; auto.
        * unfold TInv in *. rewrite app_nil_r. destruct HP as (e & H1 & H2 & H3 & H4 & H5 & H6). simpl in *. destruct duration as [d|] eqn:Ed.
          -- intros a' s Hs. destruct (eqb a a') eqn:Eaa.
             ++ apply He in Eaa. subst a'. left. exists e, v. rewrite (dget_dset_eq He). repeat split; auto. congruence.
             ++ assert (a' <> a) as Na by (intros ->; rewrite (proj2 (He a a) eq_refl) in Eaa; discriminate). rewrite (dget_dset_neq He) by auto.
                destruct (HT _ _ Hs) as [Q|(u & uth & kw' & now' & v' & Eu & Eau)]; auto. right. exists u, uth, kw', now', v'. split; auto.
                rewrite nth_error_upd_neq; auto. intros <-. rewrite E in Eu. injection Eu as ->. congruence.
          -- intros a' s Hs. destruct (eqb a a') eqn:Eaa.
             ++ apply He in Eaa. subst a'. rewrite (dget_dset_eq He) in Hs. injection Hs as <-. exists e. auto.
             ++ assert (a' <> a) as Na by (intros ->; rewrite (proj2 (He a a) eq_refl) in Eaa; discriminate). rewrite (dget_dset_neq He) in Hs by auto. auto.
        * rewrite app_nil_r. exists v. rewrite (dget_dset_eq He). split; auto. left. auto.
        * rgo. rewrite Ea in *. auto.
      + rewrite <- (app_nil_r (evals c)). (eapply J_upd; [exact HJ|exact E|..]); rewrite ?Ea; simpl; auto.
        * apply TInv_same with th; auto. congruence.
        * intros pp (dn & R1 & R2). unfold called in *. rewrite Ea in *. exists (dn ++ [(a, kw)]). rewrite ?app_nil_r, <- app_assoc. simpl in *. split; auto. apply Forall2_snoc; auto. left. auto.
  Qed.
  Lemma start_outside (programs : list (list (K * W))) t th : nth_error (mthreads (mstart V programs)) t = Some th ->
    exists p, nth_error programs t = Some p /\ th = mk_mthread p Outside [].
  Proof.
    unfold mstart. simpl. rewrite nth_error_map. destruct (nth_error programs t) as [p|]; [|discriminate]. intros H. injection H as <-. eauto.
  Qed.
  Lemma J_start programs : J programs (mstart V programs).
  Proof.
    split; [|split; [|split; [|split]]].
    - split; try discriminate. intros t th H. apply start_outside in H. destruct H as (p & _ & ->). simpl. split; discriminate.
    - unfold TInv. destruct duration; simpl; discriminate.
    - simpl. apply map_length.
    - intros t th H. apply start_outside in H. destruct H as (p & _ & ->). simpl. auto.
    - intros t p th Ep H. apply start_outside in H. destruct H as (p' & Ep' & ->). exists []. unfold called. simpl. rewrite Ep in Ep'. injection Ep' as ->. split; auto.
  Qed.
  Lemma J_exec programs es : forall c : st, J programs c -> J programs (mexec eqb duration c es).
  Proof. induction es; simpl; auto using J_event. Qed.
  Lemma mexec_app (c : st) a b : mexec eqb duration c (a ++ b) = mexec eqb duration (mexec eqb duration c a) b.
  Proof. revert c; induction a; simpl; auto. Qed.

  Lemma returns (programs : list (list (K * W))) es t p th :
    let c := mexec eqb duration (mstart V programs) es in
    nth_error programs t = Some p -> nth_error (mthreads c) t = Some th ->
    exists done, p = done ++ called th ++ todo th /\ Forall2 (justified duration (evals c) t) done (results th).
  Proof. intros c Ep Et. destruct (J_exec programs es _ (J_start programs)) as (_ & _ & _ & _ & H). apply (H _ _ _ Ep Et). Qed.

  (** ** one call at a time *)
  Definition nonneg : Prop := match duration with None => True | Some d => (0 <= d)%Z end.
  Definition known (c : st) (a : K) (s : Z) : Prop :=
    match duration with None => dget eqb (values c) a <> None | Some _ => exists ts, dget eqb (times c) a = Some ts /\ (s <= ts)%Z end.
  Definition pending (p : place K W V) (a : K) (s : Z) : Prop :=
    match p with Inside a' _ now (Returning (Ok _) | Storing _) => a' = a /\ (s <= now)%Z | _ => False end.
  Definition unknown (c : st) (a : K) (now : Z) : Prop :=
    match duration with None => dget eqb (values c) a = None | Some d => forall ts, dget eqb (times c) a = Some ts -> (d < now - ts)%Z end.
  Definition SInv (c : st) : Prop :=
    (forall t u th uth, nth_error (mthreads c) t = Some th -> nth_error (mthreads c) u = Some uth -> at_ th <> Outside -> at_ uth <> Outside -> t = u) /\
    (forall e v, In e (evals c) -> outcome e = Ok v ->
       known c (on e) (stamp e) \/ exists t th, nth_error (mthreads c) t = Some th /\ pending (at_ th) (on e) (stamp e)) /\
    (forall t th, nth_error (mthreads c) t = Some th ->
       match at_ th with Inside a _ now (Evaluating | Returning _ | Storing _) => unknown c a now | _ => True end) /\
    well_spaced duration (evals c).

  Lemma pending_inside p a s : pending p a s -> p <> Outside.
  Proof. destruct p; simpl; [tauto|discriminate]. Qed.
  Lemma well_spaced_snoc (es : evs) f : well_spaced duration es ->
    (forall e v, In e es -> on e = on f -> outcome e = Ok v -> match duration with None => False | Some d => (d < stamp f - stamp e)%Z end) ->
    well_spaced duration (es ++ [f]).
  Proof.
    intros H Hf i j e g v Hij Ei Ej Ho Hv. destruct (Nat.lt_ge_cases j (length es)) as [Hj|Hj].
    - rewrite nth_error_app1 in Ei, Ej by lia. exact (H i j e g v Hij Ei Ej Ho Hv).
    - assert (j = length es) as ->. { apply nth_lt in Ej. rewrite app_length in Ej. simpl in Ej. lia. }
      rewrite nth_error_app2, Nat.sub_diag in Ej by auto. injection Ej as <-. rewrite nth_error_app1 in Ei by lia. exact (Hf e v (nth_error_In _ _ Ei) Ho Hv).
  Qed.

  Lemma SInv_event (c : st) e : nonneg -> SInv c -> undisturbed c e -> SInv (mevent eqb duration c e).
  Proof.
    intros Hd HS HU. pose proof HS as (S1 & S2 & S3 & S4). destruct e as [t clock out]. simpl. unfold mturn.
    destruct (nth_error (mthreads c) t) as [th|] eqn:E; auto.
    assert (forall u uth, u <> t -> nth_error (mthreads c) u = Some uth -> at_ uth = Outside) as Hother.
    { intros u uth N Eu. destruct (at_ uth) eqn:Eau; auto. destruct (HU _ _ Eu) as (c1 & o1 & Q); [congruence|]. congruence. }
    (* a step of thread t *)
    assert (forall th' l ts vs ext,
      let c' := mk_mstate l ts vs (evals c ++ ext) (upd (mthreads c) t th') in
      (forall e v, In e (evals c) -> outcome e = Ok v -> known c (on e) (stamp e) -> known c' (on e) (stamp e) \/ pending (at_ th') (on e) (stamp e)) ->
      (forall e v, In e (evals c) -> outcome e = Ok v -> pending (at_ th) (on e) (stamp e) -> known c' (on e) (stamp e) \/ pending (at_ th') (on e) (stamp e)) ->
      (forall e v, In e ext -> outcome e = Ok v -> pending (at_ th') (on e) (stamp e)) ->
      match at_ th' with Inside a _ now (Evaluating | Returning _ | Storing _) => unknown c' a now | _ => True end ->
      well_spaced duration (evals c ++ ext) -> SInv c') as Hstep.
    { intros th' l ts vs ext c' K1 K2 K3 K4 K5. pose proof (nth_lt _ _ _ E) as Hlt. split; [|split; [|split]]; simpl; auto.
      - intros u w uth wth Eu Ew Nu Nw. apply nth_upd_cases in Eu. apply nth_upd_cases in Ew.
        destruct Eu as [[-> ->]|[N1 Eu]], Ew as [[-> ->]|[N2 Ew]]; auto; exfalso; eauto.
      - intros e v Hin Ho. assert (exists (P : Prop), P \/ ~ P) as _ by (exists True; auto).
        assert (known c' (on e) (stamp e) \/ pending (at_ th') (on e) (stamp e)) as Q.
        { apply in_app_or in Hin. destruct Hin as [Hin|Hin]; [|right; eauto]. destruct (S2 _ _ Hin Ho) as [Q|(u & uth & Eu & Q)]; [eauto|].
          destruct (Nat.eq_dec u t) as [->|N]; [rewrite E in Eu; injection Eu as <-; eauto|]. rewrite (Hother _ _ N Eu) in Q. destruct Q. }
        destruct Q as [Q|Q]; auto. right. exists t, th'. rewrite nth_error_upd_eq by auto. auto.
      - intros u uth Eu. apply nth_upd_cases in Eu. destruct Eu as [[-> ->]|[N Eu]]; auto. rewrite (Hother _ _ N Eu). auto. }
    assert (well_spaced duration (evals c ++ [])) as S4' by (rewrite app_nil_r; auto).
    specialize (S3 _ _ E). destruct (at_ th) as [|a kw now s] eqn:Ea.
    - destruct (todo th) as [|[a kw] rest] eqn:Et; auto. rewrite <- (app_nil_r (evals c)). apply Hstep; simpl; auto; try (intros ? ? []; fail).
    - destruct s as [| | | |r|v|v|e].
      + destruct (mlock c); auto. rewrite <- (app_nil_r (evals c)). apply Hstep; simpl; auto; try (intros ? ? []; fail).
      + destruct (found eqb duration c a now) eqn:Ef; rewrite <- (app_nil_r (evals c)); apply Hstep; simpl; auto; try (intros ? ? []; fail).
        unfold found in Ef. unfold unknown. destruct duration as [d|]; simpl.
        * intros s Hs. rewrite Hs in Ef. apply negb_false_iff in Ef. apply Z.ltb_lt in Ef. auto.
        * unfold dmem in Ef. destruct (dget eqb (values c) a); [discriminate|auto].
      + rewrite <- (app_nil_r (evals c)). apply Hstep; simpl; auto; try (intros ? ? []; fail).
      + apply Hstep; simpl; auto.
        * intros ? ? _ _ [].
        * intros e v [<-|[]] Ho. simpl in *. rewrite Ho. split; [auto|lia].
        * apply well_spaced_snoc; auto. intros e v Hin Ho Hv. simpl in *. destruct (S2 _ _ Hin Hv) as [Q|(u & uth & Eu & Q)].
          -- unfold known, unknown, nonneg in *. rewrite Ho in Q. destruct duration as [d|]; [|congruence]. destruct Q as (ts & Q1 & Q2). specialize (S3 _ Q1). lia.
          -- destruct (Nat.eq_dec u t) as [->|N]; [rewrite E in Eu; injection Eu as <-; rewrite Ea in Q; destruct Q|]. rewrite (Hother _ _ N Eu) in Q. destruct Q.
      + destruct (mlock c); auto. rewrite <- (app_nil_r (evals c)). apply Hstep; simpl; auto.
        * destruct r; simpl; auto.
        * intros ? ? [].
        * destruct r; auto.
      + destruct duration as [d|] eqn:Ed; rewrite <- (app_nil_r (evals c)); apply Hstep; simpl; auto; unfold known, unknown, nonneg in *; rewrite ?Ed in *; simpl.
        * intros e w Hin Ho (ts & Q1 & Q2). left. destruct (eqb a (on e)) eqn:Eaa.
          -- apply He in Eaa. rewrite <- Eaa in *. rewrite (dget_dset_eq He). exists now. split; auto. specialize (S3 _ Q1). lia.
          -- exists ts. rewrite (dget_dset_neq He); auto. intros Q. rewrite Q, (proj2 (He a a) eq_refl) in Eaa. discriminate.
        * intros e w Hin Ho [<- Q]. left. exists now. rewrite (dget_dset_eq He). auto.
        * intros e w Hin Ho Q. left. destruct (eqb a (on e)) eqn:Eaa.
          -- apply He in Eaa. rewrite <- Eaa in *. rewrite (dget_dset_eq He). discriminate.
          -- rewrite (dget_dset_neq He); auto. intros Q'. rewrite Q', (proj2 (He a a) eq_refl) in Eaa. discriminate.
        * intros e w Hin Ho [<- Q]. left. rewrite (dget_dset_eq He). discriminate.
      + rewrite <- (app_nil_r (evals c)). apply Hstep; simpl; auto; try (intros ? ? _ _ []; fail); try (intros ? ? []; fail).
        unfold known. simpl. destruct duration; auto. intros e w Hin Ho Q. left. destruct (eqb a (on e)) eqn:Eaa.
        * apply He in Eaa. rewrite <- Eaa in *. rewrite (dget_dset_eq He). discriminate.
        * rewrite (dget_dset_neq He); auto. intros Q'. rewrite Q', (proj2 (He a a) eq_refl) in Eaa. discriminate.
      + rewrite <- (app_nil_r (evals c)). apply Hstep; simpl; auto; try (intros ? ? []; fail).
  Qed.
  Lemma SInv_exec es : nonneg -> forall c : st, SInv c -> one_by_one duration eqb c es -> SInv (mexec eqb duration c es).
  Proof. intros Hd. induction es as [|e es IH]; simpl; auto. intros c H [H1 H2]. apply IH; auto. apply SInv_event; auto. Qed.
  Lemma spaced (programs : list (list (K * W))) es : match duration with None => True | Some d => (0 <= d)%Z end ->
    one_by_one duration eqb (mstart V programs) es -> well_spaced duration (evals (mexec eqb duration (mstart V programs) es)).
  Proof.
    intros Hd H. apply (SInv_exec es Hd); auto. split; [|split; [|split]].
    - intros t u th uth Et _ N. apply start_outside in Et. destruct Et as (p & _ & ->). simpl in N. congruence.
    - intros e v [].
    - intros t th Et. apply start_outside in Et. destruct Et as (p & _ & ->). simpl. auto.
    - intros [|i] j e f v _ Q; discriminate Q.
  Qed.

  (** ** everybody can finish *)
  Definition sw (s : stage V) : nat :=
    match s with Entering => 8 | Checking => 7 | Evaluating => 6 | Returning _ => 5 | Storing _ => 4 | StoringValue _ => 3 | Fetching => 2 | Failing _ => 2 end.
  Definition pw (th : thr) : nat := 9 * length (todo th) + match at_ th with Outside => 0 | Inside _ _ _ s => sw s end.
  Definition total (c : st) : nat := list_sum (map pw (mthreads c)).
  Lemma sum_upd (l : list thr) t th th' : nth_error l t = Some th -> pw th' < pw th -> list_sum (map pw (upd l t th')) < list_sum (map pw l).
  Proof. revert t; induction l as [|a l IH]; intros [|t] H Hl; simpl in *; try discriminate; [injection H as ->; lia|specialize (IH _ H Hl); lia]. Qed.
  Lemma turn_less (c : st) t th now out : nth_error (mthreads c) t = Some th -> (at_ th <> Outside \/ todo th <> []) ->
    (holds (at_ th) = true \/ mlock c = None) -> total (mturn eqb duration c t now out) < total c.
  Proof.
    intros E Hne Hacq. unfold total, mturn. rewrite E. destruct (at_ th) as [|a kw nw s] eqn:Ea.
    - destruct (todo th) as [|[a kw] rest] eqn:Et; [destruct Hne; congruence|]. simpl. apply (sum_upd _ _ _ _ E). unfold pw. simpl. rewrite Ea, Et. simpl. lia.
    - destruct s as [| | | |r|v|v|e]; simpl in Hacq.
      + destruct (mlock c); [destruct Hacq; discriminate|]. apply (sum_upd _ _ _ _ E). unfold pw. rewrite Ea. simpl. lia.
      + destruct (found eqb duration c a nw); apply (sum_upd _ _ _ _ E); unfold pw; rewrite Ea; simpl; lia.
      + apply (sum_upd _ _ _ _ E); unfold pw; rewrite Ea; simpl; lia.
      + apply (sum_upd _ _ _ _ E); unfold pw; rewrite Ea; simpl; lia.
      + destruct (mlock c); [destruct Hacq; discriminate|]. apply (sum_upd _ _ _ _ E). unfold pw. rewrite Ea. destruct r; simpl; lia.
      + destruct duration; apply (sum_upd _ _ _ _ E); unfold pw; rewrite Ea; simpl; lia.
      + apply (sum_upd _ _ _ _ E); unfold pw; rewrite Ea; simpl; lia.
      + apply (sum_upd _ _ _ _ E); unfold pw; rewrite Ea; simpl; lia.
  Qed.
  Definition over (th : thr) : Prop := todo th = [] /\ at_ th = Outside.
  Lemma find_live (l : list thr) : Forall over l \/ exists t th, nth_error l t = Some th /\ (at_ th <> Outside \/ todo th <> []).
  Proof.
    induction l as [|a l IH]; auto. assert (over a \/ (at_ a <> Outside \/ todo a <> [])) as [H|H];
      [unfold over; destruct (todo a); [destruct (at_ a); auto; right; left; discriminate|right; right; discriminate]| |right; exists 0, a; auto].
    destruct IH as [Q|(t & th & Q)]; auto. right. exists (S t), th. auto.
  Qed.
  Lemma can_finish_from programs n : forall c : st, total c <= n -> J programs c -> forall (out : res V), exists es, Forall over (mthreads (mexec eqb duration c es)).
  Proof.
    induction n as [|n IH]; intros c Hn HJ out; (destruct (find_live (mthreads c)) as [Q|(t & th & E & Hl)]; [exists []; exact Q|]);
      (assert (exists u, total (mturn eqb duration c u 0%Z out) < total c) as [u Hu];
      [destruct HJ as ((Hh & Hb) & _); destruct (mlock c) as [u|] eqn:El;
        [destruct (nth_error (mthreads c) u) as [uth|] eqn:Eu; [|apply nth_error_None in Eu; specialize (Hb _ eq_refl); lia];
         exists u; pose proof (proj2 (Hh _ _ Eu) eq_refl) as Hhu; apply (turn_less _ _ _ _ _ Eu); auto; left; destruct (at_ uth); discriminate
        |exists t; apply (turn_less _ _ _ _ _ E); auto]|]); [lia|].
    assert (total (mevent eqb duration c (Turn u 0%Z out)) <= n) as Hle by (simpl; lia).
    destruct (IH _ Hle (J_event _ _ _ HJ) out) as [es Hes]. exists (Turn u 0%Z out :: es). exact Hes.
  Qed.
  Lemma can_finish (programs : list (list (K * W))) es (out : res V) : exists more, Forall (fun th => todo th = [] /\ at_ th = Outside) (mthreads (mexec eqb duration (mstart V programs) (es ++ more))).
  Proof.
    destruct (can_finish_from programs _ _ (le_n _) (J_exec programs es _ (J_start programs)) out) as [more H]. exists more. rewrite mexec_app. exact H.
  Qed.

  Definition inside_b (th : thr) : bool := match at_ th with Outside => false | _ => true end.
  Fixpoint only_b (l : list thr) (t : nat) (e : event V) : bool :=
    match l with [] => true | th :: rest => (negb (inside_b th) || match e with Turn u _ _ => Nat.eqb u t end) && only_b rest (S t) e end.
  Fixpoint one_by_one_b (c : st) (es : list (event V)) : bool :=
    match es with [] => true | e :: rest => only_b (mthreads c) 0 e && one_by_one_b (mevent eqb duration c e) rest end.
  Lemma only_ok l : forall t e, only_b l t e = true -> forall i th, nth_error l i = Some th -> at_ th <> Outside -> exists clock out, e = Turn (t + i) clock out.
  Proof.
    induction l as [|a l IH]; intros t e H i th E Ea; [destruct i; discriminate|]. simpl in H. apply andb_true_iff in H. destruct H as [H1 H2].
    destruct i as [|i]; simpl in E.
    - injection E as ->. unfold inside_b in H1. destruct (at_ th); [congruence|]. simpl in H1. destruct e as [u cl o]. apply Nat.eqb_eq in H1. exists cl, o. f_equal. lia.
    - destruct (IH _ _ H2 _ _ E Ea) as (cl & o & ->). exists cl, o. f_equal. lia.
  Qed.
  Lemma one_by_one_check es : forall c : st, one_by_one_b c es = true -> one_by_one duration eqb c es.
  Proof.
    induction es as [|e es IH]; simpl; auto. intros c H. apply andb_true_iff in H. destruct H as [H1 H2]. split; auto.
    intros t th E Ea. apply (only_ok _ _ _ H1 _ _ E Ea).
  Qed.
End MemoProofs.
