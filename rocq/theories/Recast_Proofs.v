From Verif Require Import Prelude PreludeFacts Recast_Model Recast_Spec.

Section RecastProofs.
  Variables E C V : Type.
  Variable isa : E -> C -> bool.
  Variable exception : E -> bool.

  Lemma isa_any_ok e l : isa_any isa e l = true <-> listed isa l e.
  Proof. unfold isa_any, listed. rewrite existsb_exists. firstorder. Qed.
  Lemma isa_any_no e l : isa_any isa e l = false <-> ~ listed isa l e.
  Proof. rewrite <- isa_any_ok. destruct (isa_any isa e l); split; intros; congruence. Qed.

  Lemma raises_ok l (clb : outcome E V) :
    match clb with
    | Value _ => raises_exception isa l clb = inl false
    | Raised e => (listed isa l e -> raises_exception isa l clb = inl true) /\ (~ listed isa l e -> raises_exception isa l clb = inr e)
    end.
  Proof.
    destruct clb as [v|e]; simpl; auto. split; intros H; [apply isa_any_ok in H|apply isa_any_no in H]; rewrite H; auto.
  Qed.
  Lemma catch_ok l (clb : outcome E V) instead value :
    let r := catch_exception isa l clb instead value in
    match clb with
    | Raised e => (listed isa l e -> r = Exception_ V e) /\ (~ listed isa l e -> r = Other V e)
    | Value v => match instead with Some w => r = Plain E (Some w) | None => if value then r = Plain E v else r = NoException end
    end.
  Proof.
    destruct clb as [v|e]; simpl; [destruct instead; auto; destruct value; auto|].
    split; intros H; [apply isa_any_ok in H|apply isa_any_no in H]; rewrite H; auto.
  Qed.
  Lemma log_block_ok l swallow log (o : outcome E V) :
    log_block isa l swallow log o =
      match o with Value v => (log, Value v) | Raised e => if isa_any isa e l then (log ++ [e], if swallow then Value None else Raised e) else (log, Raised e) end.
  Proof. destruct o as [v|e]; simpl; auto. unfold analyze. destruct (isa_any isa e l); auto. Qed.
  Lemma log_block_spec l swallow log (o : outcome E V) :
    let after := log_block isa l swallow log o in
    match o with
    | Value v => after = (log, Value v)
    | Raised e => (listed isa l e -> after = (log ++ [e], if swallow then Value None else Raised e)) /\ (~ listed isa l e -> after = (log, Raised e))
    end.
  Proof.
    cbv zeta. rewrite log_block_ok. destruct o as [v|e]; auto. split; intros H; [apply isa_any_ok in H|apply isa_any_no in H]; rewrite H; auto.
  Qed.
  Lemma log_decorated_spec l swallow log (o : outcome E V) :
    let after := log_decorated isa exception l swallow log o in
    match o with
    | Value v => after = (log, Value v)
    | Raised e => (listed isa l e -> exception e = true -> after = (log ++ [e], if swallow then Value None else Raised e)) /\
                  (~ listed isa l e -> after = (log, Raised e))
    end.
  Proof.
    destruct o as [v|e]; simpl; auto. unfold analyze. split; intros H; [apply isa_any_ok in H|apply isa_any_no in H]; rewrite H.
    - intros ->. destruct swallow; reflexivity.
    - destruct (exception e); reflexivity.
  Qed.
  Definition target_outcome (t : option E) : outcome E V := match t with Some e => Raised e | None => Value None end.
  Lemma reraise_block_spec l target (o : outcome E V) : replaced isa l (match target with Some t => Raised t | None => Value None end) o (reraise_block isa l target o).
  Proof.
    unfold replaced. destruct o as [v|e]; simpl; auto. split; intros H; [apply isa_any_ok in H|apply isa_any_no in H]; rewrite H; destruct target; auto.
  Qed.
  Lemma reraise_decorated_spec l target (o : outcome E V) : (forall e, o = Raised e -> listed isa l e -> exception e = true) ->
    replaced isa l (match target with Some t => Raised t | None => Value None end) o (reraise_decorated isa exception l target o).
  Proof.
    intros Hx. unfold replaced. destruct o as [v|e]; simpl; auto. split; intros H.
    - rewrite (Hx _ eq_refl H). apply isa_any_ok in H. rewrite H. destruct target; auto.
    - apply isa_any_no in H. rewrite H. destruct (exception e); auto.
  Qed.

  Section Rethrow.
    Variable pairs : list (list C * option (E -> E)).
    Variable returns : option V.
    Variable factory : option (outcome E V).
    Notation silenced := (silenced_value returns factory).

    Inductive exits : list (list C * option (E -> E)) -> E -> option (option (E -> E)) -> Prop :=
    | X_none e ps : (forall l to, In (l, to) ps -> ~ listed isa l e) -> exits ps e None
    | X_some e ps before l to after : ps = before ++ (l, to) :: after -> (forall l' to', In (l', to') before -> ~ listed isa l' e) -> listed isa l e -> exits ps e (Some to).
    Lemma on_exit_ok ps w e : exists x, exits ps e x /\
      on_exit V isa ps w e = match x with None => (w, Raised e) | Some None => (true, Value None) | Some (Some build) => (true, Raised (build e)) end.
    Proof.
      induction ps as [|[l to] ps (x & Hx & IH)]; simpl.
      - exists None. split; auto. constructor. intros l to [].
      - destruct (isa_any isa e l) eqn:Ei.
        + exists (Some to). split; [|destruct to; auto]. apply (X_some e _ [] l to ps); auto. apply isa_any_ok; auto.
        + apply isa_any_no in Ei. exists x. split; auto. inversion Hx; subst.
          * constructor. intros l' to' [Q|Q]; [congruence|eauto].
          * apply (X_some e _ ((l, to) :: before) l0 to0 after); auto. intros l' to' [Q|Q]; [congruence|eauto].
    Qed.
    Lemma exits_first e x : exits pairs e x ->
      first_pair isa pairs silenced (Raised e) (match x with None => Raised e | Some None => silenced | Some (Some build) => Raised (build e) end).
    Proof.
      intros H. inversion H; subst; [constructor; auto|]. destruct to as [b|].
      - refine (@FP_first _ _ _ isa _ silenced e before l (Some b) after _ _ _); auto.
      - refine (@FP_first _ _ _ isa _ silenced e before l None after _ _ _); auto.
    Qed.
    Lemma block_ok (o : outcome E V) : first_pair isa pairs (Value None) o (rethrow_block isa pairs o).
    Proof.
      destruct o as [v|e]; simpl; [constructor|]. destruct (on_exit_ok pairs false e) as (x & Hx & ->). inversion Hx; subst; simpl; [constructor; auto|].
      destruct to as [b|]; simpl; [refine (@FP_first _ _ _ isa _ (Value None) e before l (Some b) after _ _ _)|refine (@FP_first _ _ _ isa _ (Value None) e before l None after _ _ _)]; auto.
    Qed.
    Lemma first_unique (b1 : list (list C * option (E -> E))) : forall l to a1 b2 l2 to2 a2 e, b1 ++ (l, to) :: a1 = b2 ++ (l2, to2) :: a2 ->
      (forall l' to', In (l', to') b1 -> ~ listed isa l' e) -> listed isa l e -> (forall l' to', In (l', to') b2 -> ~ listed isa l' e) -> listed isa l2 e -> to = to2.
    Proof.
      induction b1 as [|[x y] b1 IH]; intros l to a1 [|[x' y'] b2] l2 to2 a2 e Eq N1 L1 N2 L2; simpl in Eq.
      - congruence.
      - exfalso. apply (N2 l to); [left; congruence|auto].
      - exfalso. apply (N1 l2 to2); [left; congruence|auto].
      - assert (b1 ++ (l, to) :: a1 = b2 ++ (l2, to2) :: a2) as Eq' by congruence. eapply IH; eauto; intros l' to' Hin; [apply (N1 l' to')|apply (N2 l' to')]; right; auto.
    Qed.
    Lemma ends_fun b : forall o o', ends isa pairs silenced b o -> ends isa pairs silenced b o' -> o = o'.
    Proof.
      assert (forall o a a', first_pair isa pairs silenced o a -> first_pair isa pairs silenced o a' -> a = a') as Hfp.
      { intros o a a' H1 H2. inversion H1 as [v Ho Ha|e N Ho Ha|e b1 l to a1 P1 N1 L1 Ho Ha]; rewrite <- Ho in H2;
          inversion H2 as [v' Ho' Ha'|e' N' Ho' Ha'|e' b2 l2 to2 a2 P2 N2 L2 Ho' Ha']; auto; subst e'.
        - exfalso. apply (N l2 to2); auto. rewrite P2. apply in_or_app. right. left. reflexivity.
        - exfalso. apply (N' l to); auto. rewrite P1. apply in_or_app. right. left. reflexivity.
        - rewrite (first_unique _ _ _ _ _ _ _ _ _ (eq_trans (eq_sym P1) P2) N1 L1 N2 L2). reflexivity. }
      induction b as [o|inner IH go_on IHg]; intros a a' H1 H2; inversion H1; subst; inversion H2; subst; auto.
      assert (o = o0) as -> by eauto. assert (o' = o'0) as -> by eauto. eauto.
    Qed.
    (** with the flag false on the way in, it is false on the way out and the outcome is the right one *)
    Lemma run_clean b : undisturbed isa pairs silenced b -> exists o, ends isa pairs silenced b o /\ run_body isa pairs returns factory false b = (false, o).
    Proof.
      induction 1 as [o|inner go_on o He Hu IH1 Hn Hg IH2].
      - exists o. split; [constructor|reflexivity].
      - destruct IH1 as (o1 & E1 & R1). assert (o1 = o) as -> by (eapply ends_fun; eauto). destruct IH2 as (r & E2 & R2).
        exists r. simpl. rewrite R1. destruct o as [v|e].
        + split; [|exact R2]. eapply En_call; eauto. constructor.
        + destruct (on_exit_ok pairs false e) as (x & Hx & Hoe). rewrite Hoe. inversion Hx; subst.
          * split; [|exact R2]. eapply En_call; eauto. constructor. auto.
          * exfalso. eapply Hn; eauto. apply in_or_app. right. left. reflexivity.
    Qed.
    Lemma call_ok b o : undisturbed isa pairs silenced b -> ends isa pairs silenced b o -> first_pair isa pairs silenced o (call isa pairs returns factory b).
    Proof.
      intros Hu He. destruct (run_clean b Hu) as (o' & He' & Hr). assert (o' = o) as -> by (eapply ends_fun; eauto). unfold call. simpl. rewrite Hr.
      destruct o as [v|e]; simpl; [constructor|]. destruct (on_exit_ok pairs false e) as (x & Hx & Hoe). rewrite Hoe. apply exits_first in Hx.
      destruct x as [[build|]|]; simpl; auto.
    Qed.
  End Rethrow.
  Lemma silence_ok l returns factory (b : body E V) o :
    undisturbed isa [(l, None)] (silenced_value returns factory) b -> ends isa [(l, None)] (silenced_value returns factory) b o ->
    replaced isa l (silenced_value returns factory) o (silence_excs isa l returns factory b).
  Proof.
    clear exception. intros Hu He. pose proof (call_ok _ _ _ _ _ Hu He) as H. unfold silence_excs, replaced.
    inversion H as [v Ho Ha|e N Ho Ha|e b1 l1 to a1 P1 N1 L1 Ho Ha]; auto.
    - split; auto. intros Q. destruct (N l None); auto. left. auto.
    - destruct b1 as [|p [|q b1]]; simpl in P1; try discriminate. injection P1 as <- <- <-. split; auto. tauto.
  Qed.
  Lemma mapping_ok (a : arg C) : forall ps : list (arg C * arg C),
    (forall c, mapping_of [a; Class c] = [Tuple [a; Class c]]) /\ mapping_of [a; NoneArg] = [Tuple [a; NoneArg]] /\
    mapping_of (map (fun p => Tuple [fst p; snd p]) ps) = map (fun p => Tuple [fst p; snd p]) ps.
  Proof. intros ps. repeat split. destruct ps as [|p [|q [|r ps]]]; reflexivity. Qed.
End RecastProofs.
