From Coq Require Import ZArith Lia.
From Verif Require Import Prelude PreludeFacts Metrics_Model Metrics_Spec Metrics_Proofs LinkLab_Spec.
Set Implicit Arguments.
Open Scope Z_scope.
Section P.
  Variable Lab : Type.
  Variable leqb : Lab -> Lab -> bool.
  Hypothesis ok : eqb_ok leqb.
  Variables (to_off to_on : Z) (wa : Lab -> Z -> Lab) (empty own : Lab).
  Notation handle := (linkfail_handle leqb to_off to_on wa empty own).
  Notation outs := (outcomes_with leqb).
  Definition kid (s : linkfail Lab) (l : Lab) : lleaf := match dget leqb (l_kids s) l with Some k => k | None => lleaf_new end.
  Record inv (base : linkfail Lab) (nf : list (bool * Lab)) (s : linkfail Lab) : Prop := {
    i_en : nf <> [] -> l_enabled s = true;
    i_own : l_own s = l_own base;
    i_su : forall l, getd (successes (kid s l)) 0 0 = streak true (outs l nf);
    i_fa : forall l, getd (failures (kid s l)) 0 0 = streak false (outs l nf);
    i_wo : forall l, getd (working (kid s l)) true 0 = online to_off to_on (outs l nf);
    i_log : l_log s = l_log base ++ label_transitions leqb to_off to_on nf }.
  Lemma step base nf s o : inv base nf s -> (nf <> [] \/ snd o <> None) -> inv base (counted_for wa empty o :: nf) (handle s o).
  Proof.
    intros [En Ow Su Fa Wo Lo] H. destruct o as [[b a] lab]. unfold linkfail_handle.
    assert (E : l_enabled s || is_labelled lab = true).
    { destruct H as [H|H]; [rewrite En; auto|]. cbn in H. destruct lab; [|congruence]. apply Bool.orb_true_r. }
    rewrite E. set (l := wa (match lab with Some l => l | None => empty end) a). unfold counted_for. cbn [fst snd]. fold l.
    change (match dget leqb (l_kids s) l with Some k => k | None => lleaf_new end) with (kid s l).
    assert (K : forall l', kid {| l_own := l_own s; l_enabled := true;
        l_kids := sub_handle leqb lleaf_new (fun k => fst (lleaf_handle to_off to_on l b 0 k)) (l_kids s) (Some l);
        l_log := l_log s ++ snd (lleaf_handle to_off to_on l b 0 (kid s l)) |} l' =
      if leqb l l' then fst (lleaf_handle to_off to_on l b 0 (kid s l)) else kid s l').
    { intros l'. unfold kid. cbn [l_kids sub_handle]. destruct (leqb l l') eqn:X.
      - apply ok in X. subst l'. rewrite (dget_dset_eq ok). reflexivity.
      - rewrite (dget_dset_neq ok); auto. intros ->. assert (leqb l l = true) by (apply ok; auto). congruence. }
    assert (OUT : forall l', outs l' ((b, l) :: nf) = if leqb l l' then b :: outs l' nf else outs l' nf) by reflexivity.
    assert (REFL : leqb l l = true) by (apply ok; auto).
    constructor.
    - reflexivity.
    - exact Ow.
    - intros l'. rewrite K, OUT. destruct (leqb l l') eqn:X; auto. apply ok in X. subst l'. unfold lleaf_handle. rewrite Su, Fa, Wo.
      destruct b; cbn [fst successes]; rewrite getd_dset_eq; [cbn [streak Bool.eqb]; lia|]. symmetry. apply streak_other. discriminate.
    - intros l'. rewrite K, OUT. destruct (leqb l l') eqn:X; auto. apply ok in X. subst l'. unfold lleaf_handle. rewrite Su, Fa, Wo.
      destruct b; cbn [fst failures]; rewrite getd_dset_eq; [|cbn [streak Bool.eqb]; lia]. symmetry. apply streak_other. discriminate.
    - intros l'. rewrite K, OUT. destruct (leqb l l') eqn:X; auto. apply ok in X. subst l'. unfold lleaf_handle. rewrite Su, Fa, Wo.
      destruct b; cbn [fst working online].
      + replace (streak true (outs l nf) + 1) with (streak true (true :: outs l nf)) by (cbn [streak Bool.eqb]; lia).
        destruct (online to_off to_on (outs l nf)) eqn:O; cbn [negb andb].
        * rewrite Wo. auto.
        * destruct (streak true (true :: outs l nf) =? to_on); [apply getd_dset_eq|]. rewrite Wo. auto.
      + replace (streak false (outs l nf) + 1) with (streak false (false :: outs l nf)) by (cbn [streak Bool.eqb]; lia).
        destruct (online to_off to_on (outs l nf)) eqn:O; cbn [negb andb].
        * destruct (streak false (false :: outs l nf) =? to_off); [rewrite getd_dset_eq|rewrite Wo, O]; reflexivity.
        * rewrite Wo. auto.
    - cbn [l_log label_transitions]. rewrite Lo, <- app_assoc. f_equal. f_equal. rewrite OUT, REFL. unfold lleaf_handle. rewrite Su, Fa, Wo.
      destruct b; cbn [snd online].
      + replace (streak true (outs l nf) + 1) with (streak true (true :: outs l nf)) by (cbn [streak Bool.eqb]; lia).
        destruct (online to_off to_on (outs l nf)); cbn [negb andb]; auto. destruct (streak true (true :: outs l nf) =? to_on); auto.
      + replace (streak false (outs l nf) + 1) with (streak false (false :: outs l nf)) by (cbn [streak Bool.eqb]; lia).
        destruct (online to_off to_on (outs l nf)); cbn [negb andb]; auto. destruct (streak false (false :: outs l nf) =? to_off); auto.
  Qed.
  Lemma no_kids h : unlabelled h -> l_kids (linkfail_run leqb to_off to_on wa empty own h) = [].
  Proof.
    intros U. pose proof (fun h U => proj1 (@linkfail_state Lab leqb to_off to_on wa empty own h U)) as EN. revert U.
    induction h as [|o h IH] using rev_ind; intros U; [reflexivity|].
    assert (U' : unlabelled h) by (intros a x I; eapply U; apply in_or_app; left; eauto).
    assert (O : snd o = None) by (destruct o as [a x]; apply (U a x); apply in_or_app; right; left; auto).
    specialize (IH U'). specialize (EN h U'). unfold linkfail_run in *. rewrite fold_left_app. cbn [fold_left].
    destruct o as [[b a] x]. cbn in O. subst x. unfold linkfail_handle at 1. rewrite EN. cbn [orb is_labelled l_kids]. exact IH.
  Qed.
  Lemma run_labelled h1 o h2 : unlabelled h1 -> snd o <> None ->
    inv (linkfail_run leqb to_off to_on wa empty own h1) (rev (map (counted_for wa empty) (o :: h2))) (linkfail_run leqb to_off to_on wa empty own (h1 ++ o :: h2)).
  Proof.
    intros U O. unfold linkfail_run. rewrite fold_left_app. fold (linkfail_run leqb to_off to_on wa empty own h1).
    set (base := linkfail_run leqb to_off to_on wa empty own h1).
    assert (B : inv base [] base).
    { assert (N : forall l, kid base l = lleaf_new) by (intros l; unfold kid, base; rewrite (no_kids U); reflexivity).
      constructor; try congruence; try (intros l; rewrite N; reflexivity). cbn. now rewrite app_nil_r. }
    cbn [fold_left map rev]. pose proof (step o B (or_intror O)) as S1. 
    assert (G : forall h2 nf s, nf <> [] -> inv base nf s -> inv base (rev (map (counted_for wa empty) h2) ++ nf) (fold_left handle h2 s)).
    { clear - ok. induction h2 as [|x h2 IH]; intros nf s N I; [exact I|]. cbn [map rev fold_left]. rewrite <- app_assoc. apply IH; [discriminate|].
      apply step; auto. }
    apply (G h2); [discriminate|exact S1].
  Qed.
End P.
