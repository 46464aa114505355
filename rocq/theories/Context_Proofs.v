(** C72: proofs. *)
From Coq Require Import String Lia.
From Verif Require Import Prelude PreludeFacts Context_Model Context_Spec.

Local Opaque memb String.eqb.
Local Arguments Nat.leb : simpl never.
Section Proofs.
  Variable V : Type.
  Notation state := (state V).

  Lemma ceq_ok : eqb_ok String.eqb.
  Proof. intros a b. apply String.eqb_eq. Qed.

  Record wf (s : state) : Prop := {
    wf_parent : forall c k p, nth_error (cards s) c = Some k -> parent k = Some p -> p < c;
    wf_vars : forall c k, nth_error (cards s) c = Some k -> dwf (variables k);
    wf_current : forall t c, current s t = Some c -> c < length (cards s)
  }.

  Lemma fold_wf (vars : list (string * V)) : forall d, dwf d -> dwf (fold_left (fun d e => dset String.eqb d (fst e) (Some (snd e))) vars d).
  Proof. induction vars; simpl; intros d H; auto. apply IHvars. apply (dset_wf ceq_ok); auto. Qed.

  Lemma add_wf (s : state) k : wf s -> (forall p, parent k = Some p -> p < length (cards s)) -> dwf (variables k) -> wf (add_card s k).
  Proof.
    intros [A B C] P D. split; simpl.
    - intros c k' p H1 H2. destruct (Nat.lt_ge_cases c (length (cards s))) as [L|L].
      + rewrite nth_error_app1 in H1 by auto. eauto.
      + rewrite nth_error_app2 in H1 by auto. destruct (c - length (cards s)) as [|x] eqn:E.
        * injection H1 as <-. specialize (P p H2). lia.
        * destruct x; discriminate.
    - intros c k' H1. destruct (Nat.lt_ge_cases c (length (cards s))) as [L|L].
      + rewrite nth_error_app1 in H1 by auto. eauto.
      + rewrite nth_error_app2 in H1 by auto. destruct (c - length (cards s)) as [|x] eqn:E.
        * injection H1 as <-. auto.
        * destruct x; discriminate.
    - intros t c H. rewrite app_length. specialize (C t c H). lia.
  Qed.

  Lemma set_current_wf (s : state) t c : wf s -> (forall x, c = Some x -> x < length (cards s)) -> wf (set_current s t c).
  Proof.
    intros [A B C] P. split; simpl; auto. intros u x. destruct (Nat.eqb u t); auto. apply C.
  Qed.

  Lemma set_vars_nth (s : state) c k d x : nth_error (cards s) c = Some k ->
    nth_error (cards (set_vars s c k d)) x = if Nat.eqb x c then Some (mk_card (parent k) d) else nth_error (cards s) x.
  Proof.
    intros H. simpl. assert (c < length (cards s)) by (apply nth_error_Some; congruence).
    destruct (Nat.eqb x c) eqn:E.
    - apply Nat.eqb_eq in E. subst. apply nth_error_upd_eq; auto.
    - apply Nat.eqb_neq in E. apply nth_error_upd_neq; auto.
  Qed.

  Lemma set_vars_wf (s : state) c k d : wf s -> nth_error (cards s) c = Some k -> dwf d -> wf (set_vars s c k d).
  Proof.
    intros [A B C] H D. split.
    - intros x k' p H1 H2. rewrite (set_vars_nth s c k d x H) in H1. destruct (Nat.eqb x c) eqn:E.
      + injection H1 as <-. apply Nat.eqb_eq in E. subst. eapply A; eauto.
      + eauto.
    - intros x k' H1. rewrite (set_vars_nth s c k d x H) in H1. destruct (Nat.eqb x c) eqn:E; eauto.
      injection H1 as <-. auto.
    - intros t x H1. simpl. rewrite upd_length. eauto.
  Qed.

  Lemma nth_wf (s : state) c k : wf s -> nth_error (cards s) c = Some k -> dwf (variables k).
  Proof. intros W H. apply (wf_vars s W c k H). Qed.

  Lemma step_wf (s : state) o : wf s -> wf (fst (step s o)).
  Proof.
    intros W. pose proof W as W0. destruct W as [A B C].
    destruct o as [p vars|t|t c|t c|c n|c n v|c n|c n|c n v]; simpl.
    - destruct p as [q|].
      + destruct (length (cards s) <=? q) eqn:E; auto. simpl. apply add_wf; simpl; auto.
        * intros p X. injection X as <-. apply Nat.leb_gt in E. auto.
        * apply fold_wf. constructor.
      + apply add_wf; simpl; auto. discriminate. apply fold_wf. constructor.
    - destruct (current s t) as [c|] eqn:E; simpl; auto. apply set_current_wf.
      + apply add_wf; simpl; auto. discriminate. constructor.
      + intros x X. injection X as <-. simpl. rewrite app_length. simpl. lia.
    - apply set_current_wf.
      + apply add_wf; simpl; [auto| |constructor]. intros p E. eapply C; eauto.
      + intros x X. injection X as <-. simpl. rewrite app_length. simpl. lia.
    - destruct (nth_error (cards s) c) as [k|] eqn:E; simpl; auto. destruct (parent k) as [p|] eqn:P; simpl.
      + apply set_current_wf; auto. intros x X. injection X as <-. specialize (A c k p E P).
        assert (c < length (cards s)) by (apply nth_error_Some; congruence). lia.
      + apply set_current_wf; auto. discriminate.
    - destruct (memb String.eqb n own_names); auto.
    - destruct (memb String.eqb n _); auto. destruct (nth_error (cards s) c) as [k|] eqn:E; auto. simpl.
      apply set_vars_wf; auto. apply (dset_wf ceq_ok). eauto.
    - destruct (nth_error (cards s) c) as [k|] eqn:E; auto. simpl.
      apply set_vars_wf; auto. apply (dset_wf ceq_ok). eauto.
    - auto.
    - destruct (nth_error (cards s) c) as [k|] eqn:E; auto.
      assert (UP: forall s' x, wf s' -> wf (fst match parent k with
          | None => (s', OErr V AttributeError)
          | Some p => match nth_error (cards s') p with
                      | None => (s', OErr V ImpossibleExn)
                      | Some kp => (set_vars s' p kp (dset String.eqb (variables kp) n x), ODone V)
                      end end)).
      { intros s' x W'. destruct (parent k) as [p|]; auto.
        destruct (nth_error (cards s') p) as [kp|] eqn:E'; auto. simpl.
        apply set_vars_wf; auto. apply (dset_wf ceq_ok). eapply nth_wf; eauto. }
      destruct v as [x|].
      + apply UP. auto.
      + destruct (dget String.eqb (variables k) n) as [x|]; auto. apply (UP (set_vars s c k (ddel String.eqb (variables k) n)) x).
        apply set_vars_wf; auto. apply ddel_wf. eauto.
  Qed.

  Lemma run_wf ops : forall s, wf s -> wf (fst (run s ops)).
  Proof.
    induction ops as [|o ops IH]; simpl; intros s W; auto.
    destruct (step s o) as [s1 x] eqn:E. pose proof (step_wf s o W) as W1. rewrite E in W1.
    specialize (IH s1 W1). destruct (run s1 ops). auto.
  Qed.

  Lemma begin_wf : wf (begin V).
  Proof. split; simpl; try discriminate; intros; destruct c; discriminate. Qed.

  Lemma reachable_wf s : reachable s -> wf s.
  Proof. intros [ops ->]. apply run_wf, begin_wf. Qed.

  (** * lookup *)
  Lemma lookup_rule (s : state) n : wf s -> forall fuel c, c < length (cards s) -> c <= fuel ->
    (forall v, lookup (cards s) fuel c n = Ok v <-> visible s c n v) /\
    (forall e, lookup (cards s) fuel c n = Err e -> e = AttributeError) /\
    does_exist (cards s) fuel c n = Ok (match lookup (cards s) fuel c n with Ok _ => true | Err _ => false end).
  Proof.
    intros W. induction fuel as [|fuel IH]; intros c L F;
      (destruct (nth_error (cards s) c) as [k|] eqn:E; [|apply nth_error_None in E; lia]);
      simpl; rewrite E.
    - destruct (dget String.eqb (variables k) n) as [[v|]|] eqn:G.
      + repeat split; try congruence.
        * intros H. injection H as <-. eapply visible_here; eauto.
        * intros H. inversion H; subst; congruence.
      + repeat split; try congruence. intros H. inversion H; subst; congruence.
      + destruct (parent k) as [p|] eqn:P.
        * pose proof (wf_parent s W c k p E P). lia.
        * repeat split; try congruence. intros H. inversion H; subst; congruence.
    - destruct (dget String.eqb (variables k) n) as [[v|]|] eqn:G.
      + repeat split; try congruence.
        * intros H. injection H as <-. eapply visible_here; eauto.
        * intros H. inversion H; subst; congruence.
      + repeat split; try congruence. intros H. inversion H; subst; congruence.
      + destruct (parent k) as [p|] eqn:P.
        * pose proof (wf_parent s W c k p E P). destruct (IH p) as [A [B C]]; try lia.
          repeat split; auto.
          -- intros H1. eapply visible_up; eauto. apply A; auto.
          -- intros H1. apply A. inversion H1; subst; [congruence|]. congruence.
        * repeat split; try congruence. intros H. inversion H; subst; congruence.
  Qed.

  Lemma get_attr (s : state) c n : reachable s -> exists_ s c -> ~ In n own_names ->
    exists r, step s (GetAttr V c n) = (s, OVal r) /\
      (forall v, r = Ok v <-> visible s c n v) /\ (forall e, r = Err e -> e = AttributeError).
  Proof.
    intros R L N. simpl. rewrite (proj2 (memb_false ceq_ok n own_names) N).
    eexists. split; [reflexivity|].
    destruct (lookup_rule s n (reachable_wf s R) c c L (le_n c)) as [A [B _]]. auto.
  Qed.

  Lemma exists_rule (s : state) c n : reachable s -> exists_ s c ->
    exists b, step s (Exists V c n) = (s, OBool V (Ok b)) /\ (b = true <-> exists v, visible s c n v).
  Proof.
    intros R L. destruct (lookup_rule s n (reachable_wf s R) c c L (le_n c)) as [A [B C]].
    simpl. rewrite C. eexists. split; [reflexivity|]. destruct (lookup (cards s) c c n) as [v|e] eqn:E.
    - split; auto. intros _. exists v. apply A; auto.
    - split; [discriminate|]. intros [v H]. apply A in H. discriminate.
  Qed.

  (** * changing one card *)
  Lemma visible_other (s : state) c k d n : wf s -> nth_error (cards s) c = Some k ->
    forall c' m v, m <> n \/ ~ above s c' c ->
    (forall m, m <> n -> dget String.eqb d m = dget String.eqb (variables k) m) ->
    (visible (set_vars s c k d) c' m v <-> visible s c' m v).
  Proof.
    intros W E. 
    assert (IND: forall b c', c' < b -> forall m v, m <> n \/ ~ above s c' c ->
      (forall m, m <> n -> dget String.eqb d m = dget String.eqb (variables k) m) ->
      (visible (set_vars s c k d) c' m v <-> visible s c' m v)).
    { induction b as [|b IH]; intros c' L m v H D; [lia|].
      destruct (Nat.eq_dec c' c) as [->|NE].
      - assert (M: m <> n).
        { destruct H as [H|H]; auto. exfalso. apply H. eapply above_self; eauto. }
        pose proof (set_vars_nth s c k d c E) as X. rewrite Nat.eqb_refl in X. split; intros Y.
        + inversion Y; subst; rewrite X in H0; injection H0 as <-; simpl in *.
          * eapply visible_here; eauto. rewrite <- D; auto.
          * pose proof (wf_parent s W c k p E H2). eapply visible_up; eauto. rewrite <- D; auto.
            apply IH; auto. lia.
        + inversion Y; subst; assert (k0 = k) by congruence; subst k0.
          * eapply visible_here; eauto. simpl. rewrite D; auto.
          * pose proof (wf_parent s W c k p E H2). eapply visible_up; eauto. simpl. rewrite D; auto.
            apply IH; auto. lia.
      - pose proof (set_vars_nth s c k d c' E) as X. apply Nat.eqb_neq in NE. rewrite NE in X. split; intros Y.
        + inversion Y; subst; rewrite X in H0.
          * eapply visible_here; eauto.
          * pose proof (wf_parent s W c' k0 p H0 H2). eapply visible_up; eauto. apply IH; auto; [lia|].
            destruct H as [H|H]; auto. right. intros C. apply H. eapply above_up; eauto.
        + inversion Y; subst.
          * eapply visible_here; eauto. congruence.
          * pose proof (wf_parent s W c' k0 p H0 H2). eapply visible_up; [rewrite X; eauto|auto|eauto|]. apply IH; auto; [lia|].
            destruct H as [H|H]; auto. right. intros C. apply H. eapply above_up; eauto. }
    intros c' m v H D. apply (IND (S c')); auto.
  Qed.

  Lemma set_rule (s : state) c n v : reachable s -> exists_ s c -> ~ In n ["parent"; "variables"; "bool"]%string ->
    let s' := fst (step s (SetAttr c n v)) in
    snd (step s (SetAttr c n v)) = ODone V /\
    (forall w, visible s' c n w <-> w = v) /\
    (forall c' m w, m <> n \/ ~ above s c' c -> (visible s' c' m w <-> visible s c' m w)).
  Proof.
    intros R L N. simpl. rewrite (proj2 (memb_false ceq_ok n _) N).
    destruct (nth_error (cards s) c) as [k|] eqn:E; [|apply nth_error_None in E; unfold exists_ in L; lia].
    simpl. split; auto. pose proof (set_vars_nth s c k (dset String.eqb (variables k) n (Some v)) c E) as X.
    rewrite Nat.eqb_refl in X. pose proof (dget_dset_eq ceq_ok (variables k) n (Some v)) as G. split.
    - intros w. split.
      + intros Y. inversion Y; subst; rewrite X in H; injection H as <-; simpl in *; congruence.
      + intros ->. eapply visible_here; eauto.
    - intros c' m w H. apply (visible_other s c k _ n (reachable_wf s R) E); auto.
      intros m' M. apply (dget_dset_neq ceq_ok). auto.
  Qed.

  Lemma del_rule (s : state) c n : reachable s -> exists_ s c ->
    let s' := fst (step s (DelAttr V c n)) in
    snd (step s (DelAttr V c n)) = ODone V /\
    (forall w, ~ visible s' c n w) /\
    (forall c' m w, m <> n \/ ~ above s c' c -> (visible s' c' m w <-> visible s c' m w)).
  Proof.
    intros R L. simpl.
    destruct (nth_error (cards s) c) as [k|] eqn:E; [|apply nth_error_None in E; unfold exists_ in L; lia].
    simpl. split; auto. pose proof (set_vars_nth s c k (dset String.eqb (variables k) n None) c E) as X.
    rewrite Nat.eqb_refl in X. pose proof (dget_dset_eq ceq_ok (variables k) n None) as G. split.
    - intros w Y. inversion Y; subst; rewrite X in H; injection H as <-; simpl in *; congruence.
    - intros c' m w H. apply (visible_other s c k _ n (reachable_wf s R) E); auto.
      intros m' M. apply (dget_dset_neq ceq_ok). auto.
  Qed.

  Lemma above_le s : wf s -> forall c a, above s c a -> a <= c.
  Proof. intros W c a H. induction H; auto. pose proof (wf_parent s W c k p H H0). lia. Qed.

  Lemma above_trans (s : state) x y : above s x y -> forall z, above s y z -> above s x z.
  Proof. intros H. induction H as [x kx Ex|x kx px y Ex Px Y IH]; intros z Z; auto. eapply above_up; eauto. Qed.

  (** push_up with a value *)
  Lemma push_value (s : state) c k p n v : reachable s -> nth_error (cards s) c = Some k -> parent k = Some p ->
    let s' := fst (step s (PushUp c n (Some v))) in
    snd (step s (PushUp c n (Some v))) = ODone V /\
    (forall w, visible s' p n w <-> w = v) /\
    (forall c' m w, m <> n \/ ~ above s c' p -> (visible s' c' m w <-> visible s c' m w)).
  Proof.
    intros R E P. simpl. rewrite E, P. pose proof (reachable_wf s R) as W.
    pose proof (wf_parent s W c k p E P) as LT.
    destruct (nth_error (cards s) p) as [kp|] eqn:E'.
    2:{ apply nth_error_None in E'. assert (c < length (cards s)) by (apply nth_error_Some; congruence). lia. }
    simpl. split; auto. pose proof (set_vars_nth s p kp (dset String.eqb (variables kp) n (Some v)) p E') as X.
    rewrite Nat.eqb_refl in X. pose proof (dget_dset_eq ceq_ok (variables kp) n (Some v)) as G. split.
    - intros w. split.
      + intros Y. inversion Y; subst; rewrite X in H; injection H as <-; simpl in *; congruence.
      + intros ->. eapply visible_here; eauto.
    - intros c' m w H. apply (visible_other s p kp _ n W E'); auto.
      intros m' M. apply (dget_dset_neq ceq_ok). auto.
  Qed.

  (** push_up of the value the context has itself: it moves to the parent, and is seen from both *)
  Lemma push_own (s : state) c k p n v : reachable s -> nth_error (cards s) c = Some k -> parent k = Some p ->
    dget String.eqb (variables k) n = Some (Some v) ->
    let s' := fst (step s (PushUp c n None)) in
    snd (step s (PushUp c n None)) = ODone V /\
    (forall w, visible s' p n w <-> w = v) /\ (forall w, visible s' c n w <-> w = v) /\
    (forall c' m w, m <> n \/ ~ above s c' p -> (visible s' c' m w <-> visible s c' m w)).
  Proof.
    intros R E P G. pose proof (reachable_wf s R) as W.
    pose proof (wf_parent s W c k p E P) as LT. pose proof (wf_vars s W c k E) as DW.
    set (s1 := set_vars s c k (ddel String.eqb (variables k) n)).
    assert (W1: wf s1) by (apply set_vars_wf; auto; apply ddel_wf; auto).
    assert (N: forall x, nth_error (cards s1) x = if Nat.eqb x c then Some (mk_card (parent k) (ddel String.eqb (variables k) n)) else nth_error (cards s) x).
    { intros x. apply set_vars_nth; auto. }
    assert (PC: Nat.eqb p c = false) by (apply Nat.eqb_neq; lia).
    destruct (nth_error (cards s1) p) as [kp|] eqn:E'.
    2:{ rewrite N, PC in E'. apply nth_error_None in E'. assert (c < length (cards s)) by (apply nth_error_Some; congruence). lia. }
    set (s2 := set_vars s1 p kp (dset String.eqb (variables kp) n (Some v))).
    assert (N2: forall x, nth_error (cards s2) x = if Nat.eqb x p then Some (mk_card (parent kp) (dset String.eqb (variables kp) n (Some v))) else nth_error (cards s1) x).
    { intros x. apply set_vars_nth; auto. }
    assert (ST: step s (PushUp c n None) = (s2, ODone V)).
    { cbn [step]. rewrite E, G. fold s1. rewrite P, E'. reflexivity. }
    rewrite ST. cbn [fst snd].
    assert (VP: forall w, visible s2 p n w <-> w = v).
    { intros w. pose proof (N2 p) as X. rewrite Nat.eqb_refl in X.
      pose proof (dget_dset_eq ceq_ok (variables kp) n (Some v)) as G'. split.
      - intros Y. inversion Y; subst; rewrite X in H; injection H as <-; simpl in *; congruence.
      - intros ->. eapply visible_here; eauto. }
    split; auto. split; auto. split.
    - intros w. pose proof (N2 c) as X. rewrite Nat.eqb_sym, PC in X. rewrite N, Nat.eqb_refl in X.
      pose proof (dget_ddel_eq ceq_ok n DW) as G'. split.
      + intros Y. inversion Y; subst; rewrite X in H; injection H as <-; simpl in *; [congruence|].
        apply VP. congruence.
      + intros ->. eapply visible_up; [exact X|exact G'|exact P|]. apply VP; auto.
    - intros c' m w H.
      assert (AB: forall c' a, above s1 c' a <-> above s c' a).
      { assert (T1: forall x y, above s1 x y -> above s x y).
        { intros x y Y. induction Y as [x kx Ex|x kx px y Ex Px Y IH].
          - rewrite N in Ex. destruct (Nat.eqb x c) eqn:Q.
            + apply Nat.eqb_eq in Q. subst. eapply above_self; eauto.
            + eapply above_self; eauto.
          - rewrite N in Ex. destruct (Nat.eqb x c) eqn:Q.
            + apply Nat.eqb_eq in Q. subst. injection Ex as <-. eapply above_up; eauto.
            + eapply above_up; eauto. }
        assert (T2: forall x y, above s x y -> above s1 x y).
        { intros x y Y. induction Y as [x kx Ex|x kx px y Ex Px Y IH].
          - destruct (Nat.eqb x c) eqn:Q.
            + eapply above_self. rewrite N, Q. reflexivity.
            + eapply above_self. rewrite N, Q. eauto.
          - destruct (Nat.eqb x c) eqn:Q.
            + eapply above_up; [rewrite N, Q; reflexivity| |eauto]. simpl. apply Nat.eqb_eq in Q. congruence.
            + eapply above_up; [rewrite N, Q; eauto| |eauto]. auto. }
        intros x y. split; auto. }
      assert (V1: visible s2 c' m w <-> visible s1 c' m w).
      { apply (visible_other s1 p kp _ n W1 E').
        - destruct H as [H|H]; auto. right. rewrite AB. auto.
        - intros m' M. apply (dget_dset_neq ceq_ok). auto. }
      rewrite V1. apply (visible_other s c k _ n W E).
      + destruct H as [H|H]; auto. right. intros C. apply H.
        apply (above_trans s c' c C). eapply above_up; eauto.
        destruct (nth_error (cards s) p) as [kq|] eqn:Q; [eapply above_self; eauto|].
        apply nth_error_None in Q. assert (c < length (cards s)) by (apply nth_error_Some; congruence). lia.
      + intros m' M. apply (dget_ddel_neq ceq_ok). auto.
  Qed.

  (** * entering and leaving *)
  Lemma visible_add (s : state) k c n v : wf s -> c < length (cards s) -> forall u t,
    visible (set_current (add_card s k) t u) c n v <-> visible s c n v.
  Proof.
    intros W L u t. split.
    - intros Y. remember (set_current (add_card s k) t u) as s'. revert L.
      induction Y as [c kc n v E G|c kc p n v E G P Y IH]; intros L; subst s'; simpl in E; rewrite nth_error_app1 in E by auto.
      + eapply visible_here; eauto.
      + pose proof (wf_parent s W c kc p E P). eapply visible_up; eauto. apply IH; auto. lia.
    - intros Y. induction Y as [c kc n v E G|c kc p n v E G P Y IH].
      + eapply visible_here; eauto. simpl. rewrite nth_error_app1; auto.
      + pose proof (wf_parent s W c kc p E P). eapply visible_up; eauto; [|apply IH; lia]. simpl. rewrite nth_error_app1; auto.
  Qed.

  Lemma enter_rule (s : state) t c : reachable s ->
    exists b, step s (Enter V t c) = (fst (step s (Enter V t c)), OContext V b) /\
      let s' := fst (step s (Enter V t c)) in
      ~ exists_ s b /\ exists_ s' b /\ current s' t = Some b /\ snd (step s' (Get V t)) = OContext V b /\
      (forall n v, visible s' b n v <-> exists p, current s t = Some p /\ visible s p n v) /\
      (forall p, current s t = Some p -> above s' b p) /\
      (forall x n v, exists_ s x -> (visible s' x n v <-> visible s x n v)).
  Proof.
    intros R. pose proof (reachable_wf s R) as W. exists (length (cards s)). split; auto.
    pose proof (step_wf s (Enter V t c) W) as W'. 
    assert (E: nth_error (cards (fst (step s (Enter V t c)))) (length (cards s)) = Some (mk_card (current s t) [])).
    { simpl. rewrite nth_error_app2, Nat.sub_diag; auto. }
    assert (C: current (fst (step s (Enter V t c))) t = Some (length (cards s))) by (simpl; rewrite Nat.eqb_refl; auto).
    cbv zeta. assert (OLD: forall x n v, x < length (cards s) -> (visible (fst (step s (Enter V t c))) x n v <-> visible s x n v)).
    { intros x n v L. apply visible_add; auto. }
    repeat split; auto.
    - unfold exists_. lia.
    - unfold exists_. simpl. rewrite app_length. simpl. lia.
    - unfold step at 1. rewrite C. auto.
    - intros Y. inversion Y; subst; rewrite E in H; injection H as <-; simpl in *; [discriminate|].
      exists p. split; auto. apply OLD; auto. eapply wf_current; eauto.
    - intros (p & P & Y). eapply visible_up; [exact E|reflexivity|exact P|]. apply OLD; auto. eapply wf_current; eauto.
    - intros p P. eapply above_up; [exact E|exact P|].
      pose proof (wf_current s W t p P) as L. destruct (nth_error (cards s) p) as [kp|] eqn:Q; [|apply nth_error_None in Q; lia].
      eapply above_self. simpl. rewrite nth_error_app1; eauto.
    - apply OLD; auto.
    - apply OLD; auto.
  Qed.

  Lemma get_rule (s : state) t : reachable s ->
    let s' := fst (step s (Get V t)) in
    exists b, snd (step s (Get V t)) = OContext V b /\ current s' t = Some b /\
      (forall c, current s t = Some c -> b = c /\ s' = s) /\
      (current s t = None -> ~ exists_ s b /\ (forall n v, ~ visible s' b n v) /\
      (forall x n v, exists_ s x -> (visible s' x n v <-> visible s x n v))).
  Proof.
    intros R. pose proof (reachable_wf s R) as W. unfold step. destruct (current s t) as [c|] eqn:E; cbn [fst snd].
    - exists c. repeat split; auto; congruence.
    - exists (length (cards s)). split; auto. split; [simpl; rewrite Nat.eqb_refl; auto|]. split; [discriminate|]. intros _.
      split; [unfold exists_; lia|]. split.
      + intros n v Y.
        assert (E': nth_error (cards (set_current (add_card s (mk_card None [])) t (Some (length (cards s))))) (length (cards s)) = Some (mk_card (V:=V) None [])).
        { simpl. rewrite nth_error_app2, Nat.sub_diag; auto. }
        inversion Y; subst; rewrite E' in H; injection H as <-; discriminate.
      + intros x n v L. apply visible_add; auto.
  Qed.

  Lemma fold_get (vars : dict string V) n : dwf vars -> forall d,
    dget String.eqb (fold_left (fun d e => dset String.eqb d (fst e) (Some (snd e))) vars d) n =
    match dget String.eqb vars n with Some v => Some (Some v) | None => dget String.eqb d n end.
  Proof.
    induction vars as [|[m v] vars IH]; intros W d; auto. unfold dwf in W. simpl in W. inversion W as [|? ? NI ND]; subst.
    cbn [fold_left fst snd]. rewrite IH by auto. cbn [dget fst snd]. destruct (String.eqb m n) eqn:E.
    - apply ceq_ok in E. subst. assert (G: dget String.eqb vars n = None) by (apply (dget_None ceq_ok); auto).
      rewrite G. apply (dget_dset_eq ceq_ok).
    - destruct (dget String.eqb vars n); auto. apply (dget_dset_neq ceq_ok). intros X.
      assert (Y: String.eqb m n = true) by (apply ceq_ok; auto). congruence.
  Qed.

  Lemma new_rule (s : state) p vars : reachable s -> dwf vars -> (forall q, p = Some q -> exists_ s q) ->
    let s' := fst (step s (New p vars)) in
    exists b, snd (step s (New p vars)) = OContext V b /\ ~ exists_ s b /\
      (forall n v, visible s' b n v <->
        dget String.eqb vars n = Some v \/ (dget String.eqb vars n = None /\ exists q, p = Some q /\ visible s q n v)) /\
      (forall x n v, exists_ s x -> (visible s' x n v <-> visible s x n v)).
  Proof.
    intros R D Q. pose proof (reachable_wf s R) as W. exists (length (cards s)).
    set (k := mk_card p (fold_left (fun d e => dset String.eqb d (fst e) (Some (snd e))) vars [])).
    assert (ST: step s (New p vars) = (add_card s k, OContext V (length (cards s)))).
    { cbn [step]. destruct p as [q|]; auto. replace (length (cards s) <=? q) with false; auto.
      symmetry. apply Nat.leb_gt. apply Q. auto. }
    rewrite ST. cbn [fst snd]. split; auto. split; [unfold exists_; lia|].
    assert (OLD: forall x n v, exists_ s x -> (visible (add_card s k) x n v <-> visible s x n v)).
    { intros x n v L. split.
      - intros Y. unfold exists_ in L. remember (add_card s k) as s'. revert L.
        induction Y as [c kc n v E G|c kc q n v E G P Y IH]; intros L; subst s'; simpl in E; rewrite nth_error_app1 in E by auto.
        + eapply visible_here; eauto.
        + pose proof (wf_parent s W c kc q E P). eapply visible_up; eauto. apply IH; auto. lia.
      - intros Y. unfold exists_ in L. induction Y as [c kc n v E G|c kc q n v E G P Y IH].
        + eapply visible_here; eauto. simpl. rewrite nth_error_app1; auto.
        + pose proof (wf_parent s W c kc q E P). eapply visible_up; eauto; [|apply IH; lia]. simpl. rewrite nth_error_app1; auto. }
    split; auto. intros n v.
    assert (E: nth_error (cards (add_card s k)) (length (cards s)) = Some k).
    { simpl. rewrite nth_error_app2, Nat.sub_diag; auto. }
    assert (G: dget String.eqb (variables k) n = match dget String.eqb vars n with Some v => Some (Some v) | None => None end).
    { unfold k. cbn [variables]. rewrite fold_get; auto. }
    split.
    - intros Y. inversion Y; subst; rewrite E in H; injection H as <-.
      + rewrite H0 in G. destruct (dget String.eqb vars n); left; congruence.
      + rewrite H0 in G. destruct (dget String.eqb vars n); try discriminate. right. split; auto.
        exists p0. unfold k in H1. cbn [parent] in H1. split; auto. apply OLD; auto.
    - intros [Y|(Y & q & P & H)]; rewrite Y in G.
      + eapply visible_here; eauto.
      + eapply visible_up; [exact E|exact G|exact P|]. apply OLD; auto.
  Qed.

  (** the thread of an operation *)
  Lemma other_threads (s : state) o t : foreign t o -> current (fst (step s o)) t = current s t.
  Proof.
    intros F. destruct o as [p vars|u|u c|u c|c n|c n v|c n|c n|c n v]; simpl in *.
    - destruct p as [q|]; auto. destruct (_ <=? q); auto.
    - destruct (current s u); auto. simpl. 
      replace (Nat.eqb t u) with false; auto. symmetry. apply Nat.eqb_neq. auto.
    - replace (Nat.eqb t u) with false; auto. symmetry. apply Nat.eqb_neq. auto.
    - assert (X: Nat.eqb t u = false) by (apply Nat.eqb_neq; auto).
      destruct (nth_error (cards s) c) as [k|]; auto. destruct (parent k); simpl; rewrite X; auto.
    - destruct (memb _ _ _); auto.
    - destruct (memb _ _ _); auto. destruct (nth_error (cards s) c); auto.
    - destruct (nth_error (cards s) c); auto.
    - auto.
    - destruct (nth_error (cards s) c) as [k|]; auto. destruct v as [x|].
      + destruct (parent k); auto. destruct (nth_error _ _); auto.
      + destruct (dget _ _ _); auto. destruct (parent k); auto. destruct (nth_error _ _); auto.
  Qed.

  (** contexts keep their parents *)
  Definition keeps (s s' : state) : Prop := forall c k, nth_error (cards s) c = Some k ->
    exists k', nth_error (cards s') c = Some k' /\ parent k' = parent k.
  Lemma keeps_refl s : keeps s s.
  Proof. intros c k H. eauto. Qed.
  Lemma keeps_trans (a b c : state) : keeps a b -> keeps b c -> keeps a c.
  Proof. intros H1 H2 x k H. destruct (H1 x k H) as (k1 & A & B). destruct (H2 x k1 A) as (k2 & C & D). exists k2. split; auto. congruence. Qed.
  Lemma keeps_add (s : state) k t u : keeps s (set_current (add_card s k) t u).
  Proof. intros c kc H. exists kc. simpl. rewrite nth_error_app1; auto. apply nth_error_Some. congruence. Qed.
  Lemma keeps_add' (s : state) k : keeps s (add_card s k).
  Proof. intros c kc H. exists kc. simpl. rewrite nth_error_app1; auto. apply nth_error_Some. congruence. Qed.
  Lemma keeps_vars (s : state) c k d : nth_error (cards s) c = Some k -> keeps s (set_vars s c k d).
  Proof.
    intros E x kx H. rewrite (set_vars_nth s c k d x E). destruct (Nat.eqb x c) eqn:Q; eauto.
    apply Nat.eqb_eq in Q. subst. eexists. split; [reflexivity|]. simpl. congruence.
  Qed.

  Lemma step_keeps (s : state) o : keeps s (fst (step s o)).
  Proof.
    destruct o as [p vars|u|u c|u c|c n|c n v|c n|c n|c n v]; simpl.
    - destruct p as [q|]; [destruct (_ <=? q)|]; try apply keeps_refl; apply keeps_add'.
    - destruct (current s u); [apply keeps_refl|apply keeps_add].
    - apply keeps_add.
    - destruct (nth_error (cards s) c) as [k|]; [|apply keeps_refl]. destruct (parent k); intros x kx H; exists kx; auto.
    - destruct (memb _ _ _); apply keeps_refl.
    - destruct (memb _ _ _); [apply keeps_refl|]. destruct (nth_error (cards s) c) eqn:E; [apply keeps_vars; auto|apply keeps_refl].
    - destruct (nth_error (cards s) c) eqn:E; [apply keeps_vars; auto|apply keeps_refl].
    - apply keeps_refl.
    - destruct (nth_error (cards s) c) as [k|] eqn:E; [|apply keeps_refl].
      assert (UP: forall s' x, keeps s s' -> keeps s (fst match parent k with
          | None => (s', OErr V AttributeError)
          | Some p => match nth_error (cards s') p with
                      | None => (s', OErr V ImpossibleExn)
                      | Some kp => (set_vars s' p kp (dset String.eqb (variables kp) n x), ODone V)
                      end end)).
      { intros s' x W'. destruct (parent k) as [p|]; auto.
        destruct (nth_error (cards s') p) as [kp|] eqn:E'; auto. simpl. eapply keeps_trans; [exact W'|apply keeps_vars; auto]. }
      destruct v as [x|]; [apply UP, keeps_refl|]. destruct (dget _ _ _) as [x|]; [|apply keeps_refl]. apply (UP (set_vars s c k (ddel String.eqb (variables k) n)) x). apply keeps_vars; auto.
  Qed.

  Fixpoint prog_rect (P : prog V -> Prop) (HD : forall o, P (Do o)) (HW : forall m body, Forall P body -> P (With m body)) (p : prog V) : P p :=
    match p with
    | Do o => HD o
    | With m body => HW m body ((fix go l : Forall P l := match l with [] => Forall_nil P | x :: r => Forall_cons x (prog_rect P HD HW x) (go r) end) body)
    end.

  Lemma manager_keeps t m (s : state) : keeps s (fst (manager t m s)).
  Proof.
    destruct m; simpl.
    - apply keeps_add'.
    - destruct (current s t) as [c|] eqn:E; simpl.
      + destruct (_ <=? c); [apply keeps_refl|apply keeps_add'].
      + rewrite app_length. destruct (_ <=? _); simpl; [apply keeps_add|].
        eapply keeps_trans; [apply keeps_add|]. apply keeps_add'.
    - destruct (current s t); [apply keeps_refl|apply keeps_add].
  Qed.

  Lemma perform_keeps t p : forall s : state, keeps s (perform t s p).
  Proof.
    induction p as [o|m body IH] using prog_rect; intros s.
    - apply step_keeps.
    - cbn [perform]. pose proof (manager_keeps t m s) as K. destruct (manager t m s) as [s1 c]. cbn [fst] in K.
      eapply keeps_trans; [exact K|]. eapply keeps_trans; [apply (step_keeps s1 (Enter V t c))|].
      set (s2 := fst (step s1 (Enter V t c))). clearbody s2. clear - IH.
      assert (F: keeps s2 (fold_left (perform t) body s2)).
      { revert s2. induction IH as [|p body P B IH]; intros s2; simpl; [apply keeps_refl|].
        eapply keeps_trans; [apply P|]. apply IH. }
      eapply keeps_trans; [exact F|]. apply step_keeps.
  Qed.

  Lemma perform_wf t p : forall s : state, wf s -> wf (perform t s p).
  Proof.
    induction p as [o|m body IH] using prog_rect; intros s W.
    - apply step_wf; auto.
    - cbn [perform]. assert (M: wf (fst (manager t m s))).
      { destruct m; unfold manager.
        - pose proof (step_wf s (New (V:=V) None []) W). destruct (step s (New None [])). auto.
        - pose proof (step_wf s (Get V t) W) as G. destruct (step s (Get V t)) as [s1 x]. cbn [fst] in G.
          match goal with |- context [step s1 ?o] => pose proof (step_wf s1 o G) as N; destruct (step s1 o) end. auto.
        - pose proof (step_wf s (Get V t) W) as G. destruct (step s (Get V t)) as [s1 x]. auto. }
      destruct (manager t m s) as [s1 c]. cbn [fst] in M.
      apply step_wf. pose proof (step_wf s1 (Enter V t c) M) as W2. revert W2. generalize (fst (step s1 (Enter V t c))).
      clear - IH. induction IH as [|p body P B IH]; intros s W; simpl; auto.
  Qed.

  (** leaving a context made on the current one restores it, whatever happened in between *)
  Lemma with_on_current t body (s : state) c : wf s -> current s t = Some c ->
    current (perform t s (With OnCurrent body)) t = Some c.
  Proof.
    intros W E. cbn [perform]. unfold manager.
    assert (G: step s (Get V t) = (s, OContext V c)) by (simpl; rewrite E; auto). rewrite G.
    pose proof (wf_current s W t c E) as L.
    assert (N: step s (New (V:=V) (Some c) []) = (add_card s (mk_card (Some c) []), OContext V (length (cards s)))).
    { simpl. replace (length (cards s) <=? c) with false; auto. symmetry. apply Nat.leb_gt. auto. }
    rewrite N. set (s1 := add_card s (mk_card (Some c) [])).
    assert (X: nth_error (cards s1) (length (cards s)) = Some (mk_card (Some c) [])).
    { simpl. rewrite nth_error_app2, Nat.sub_diag; auto. }
    assert (K: keeps s1 (fold_left (perform t) body (fst (step s1 (Enter V t (length (cards s))))))).
    { eapply keeps_trans; [apply (step_keeps s1 (Enter V t (length (cards s))))|].
      generalize (fst (step s1 (Enter V t (length (cards s))))). clear.
      induction body as [|p body IH]; intros s; simpl; [apply keeps_refl|]. eapply keeps_trans; [apply perform_keeps|]. apply IH. }
    destruct (K _ _ X) as (k' & A & B). unfold step at 1. rewrite A, B. simpl. rewrite Nat.eqb_refl. auto.
  Qed.

  (** the outermost [with Context():] of a thread that has none *)
  Lemma with_outermost t body (s : state) : current (perform t s (With Fresh body)) t = None.
  Proof.
    cbn [perform]. unfold manager.
    assert (N: step s (New (V:=V) None []) = (add_card s (mk_card None []), OContext V (length (cards s)))) by reflexivity.
    rewrite N. set (s1 := add_card s (mk_card None [])).
    assert (X: exists k, nth_error (cards s1) (length (cards s)) = Some k /\ parent k = None).
    { eexists. split; [simpl; rewrite nth_error_app2, Nat.sub_diag; auto; reflexivity|]. reflexivity. }
    destruct X as (k & X & P).
    assert (K: keeps s1 (fold_left (perform t) body (fst (step s1 (Enter V t (length (cards s))))))).
    { eapply keeps_trans; [apply (step_keeps s1 (Enter V t (length (cards s))))|].
      generalize (fst (step s1 (Enter V t (length (cards s))))). clear.
      induction body as [|p body IH]; intros s; simpl; [apply keeps_refl|]. eapply keeps_trans; [apply perform_keeps|]. apply IH. }
    destruct (K _ _ X) as (k' & A & B). unfold step at 1. rewrite A, B, P. simpl. rewrite Nat.eqb_refl. auto.
  Qed.
End Proofs.
