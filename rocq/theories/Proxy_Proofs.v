From Verif Require Import Prelude Proxy_Model Proxy_Spec.

Section P.
  Variable V : Type.
  Variable op2 : bop -> V -> V -> res V.
  Variable op1 : uop -> V -> res V.
  Variable cmp2 : cop -> V -> V -> res bool.

  Lemma strip_wrap : forall d w r, res_map (@strip V) (wrap_result d w r) = res_map (@strip V) r.
  Proof. intros d w r. unfold wrap_result. destruct (d && w)%bool; auto. destruct r; reflexivity. Qed.
  Lemma strip_plain : forall r : res V, res_map (@strip V) (res_map Plain r) = r.
  Proof. destruct r; reflexivity. Qed.

  Lemma eval_plain_strip : forall o a y, o <> Mod_ -> res_map (@strip V) (eval_plain op2 o a y) = op2 o a (strip y).
  Proof.
    intros o a y N. induction y as [b|y IH w]; simpl; [apply strip_plain|]. destruct (reflected o) eqn:R; [|destruct o; simpl in R; congruence].
    rewrite strip_wrap. exact IH.
  Qed.
  Lemma eval_strip : forall o x y, o <> Mod_ -> res_map (@strip V) (eval op2 o x y) = op2 o (strip x) (strip y).
  Proof.
    intros o x y N. induction x as [a|x IH w]; simpl; [apply eval_plain_strip; auto|]. destruct (forward o) eqn:R; [|destruct o; simpl in R; congruence].
    rewrite strip_wrap. exact IH.
  Qed.
  Lemma inplace_strip : forall o x y, o <> Mod_ -> res_map (@strip V) (inplace op2 o x y) = op2 o (strip x) (strip y).
  Proof.
    intros o x y N. induction x as [a|x IH w]; simpl; [apply eval_plain_strip; auto|]. destruct (inplace_method o).
    - rewrite <- IH. destruct (inplace op2 o x y); reflexivity.
    - destruct (forward o) eqn:R; [|destruct o; simpl in R; congruence]. rewrite strip_wrap. apply eval_strip; auto.
  Qed.
  Lemma inplace_stays : forall o x w y r, o <> Mod_ -> o <> Divmod -> inplace op2 o (Prox x w) y = Ok r -> exists z, r = Prox z w.
  Proof.
    intros o x w y r N D E. simpl in E. replace (inplace_method o) with true in E by (destruct o; auto; congruence).
    destruct (inplace op2 o x y); simpl in E; [injection E as <-; eauto|discriminate].
  Qed.
  Lemma unary_strip : forall u x, u <> Round -> res_map (@strip V) (unary op1 u x) = op1 u (strip x).
  Proof.
    intros u x N. induction x as [a|x IH w]; simpl; [apply strip_plain|]. rewrite strip_wrap. destruct u; simpl; auto. congruence.
  Qed.
  Lemma round_strip : forall x w, res_map (@strip V) (unary op1 Round (Prox x w)) = op1 (RoundTo 0) (strip x).
  Proof. intros x w. simpl. rewrite strip_wrap. apply unary_strip. discriminate. Qed.

  Lemma compare_left_strip : forall c x b, compare_left cmp2 c x b = cmp2 c (strip x) b.
  Proof. intros c x b. induction x; simpl; auto. Qed.
  Lemma compare_strip : (forall c a b, cmp2 (mirror c) b a = cmp2 c a b) -> forall c x y, compare cmp2 c x y = cmp2 c (strip x) (strip y).
  Proof.
    intros M c x y. induction x as [a|x IH w]; simpl; auto. destruct y as [b|y w]; simpl; auto. rewrite compare_left_strip. apply M.
  Qed.

  Lemma value_strip : forall e, usual e -> res_map (@strip V) (value op2 op1 e) = plainly op2 op1 e.
  Proof.
    induction e as [x|o l IHl r IHr|u x IHx]; simpl; intros U; auto.
    - destruct U as (N & Ul & Ur). rewrite <- IHl by auto. destruct (value op2 op1 l) as [a|e]; simpl; auto.
      rewrite <- IHr by auto. destruct (value op2 op1 r) as [b|e]; simpl; auto. apply eval_strip; auto.
    - destruct U as (N & Ux). rewrite <- IHx by auto. destruct (value op2 op1 x) as [a|e]; simpl; auto. apply unary_strip; auto.
  Qed.

  Lemma eval_plain_shed : forall o a y r, plain_results y -> eval_plain op2 o a y = Ok r -> exists v, r = Plain v.
  Proof.
    intros o a y. induction y as [b|y IH w]; simpl; intros r P E.
    - destruct (op2 o a b); simpl in E; [injection E as <-; eauto|discriminate].
    - destruct P as [-> P]. destruct (reflected o) as [d|]; [|discriminate]. unfold wrap_result in E. rewrite Bool.andb_false_r in E. eauto.
  Qed.
  Lemma eval_shed : forall o x y r, plain_results x -> plain_results y -> eval op2 o x y = Ok r -> exists v, r = Plain v.
  Proof.
    intros o x y. induction x as [a|x IH w]; simpl; intros r P Q E; [eapply eval_plain_shed; eauto|].
    destruct P as [-> P]. destruct (forward o) as [d|]; [|discriminate]. unfold wrap_result in E. rewrite Bool.andb_false_r in E. eauto.
  Qed.
  Lemma eval_wraps : forall o x y r, ~ In o [And_; Or_; Divmod] -> eval op2 o (Prox x true) y = Ok r -> is_proxy r.
  Proof.
    intros o x y r N E. simpl in E. destruct (forward o) as [d|] eqn:F; [|discriminate].
    assert (d = true) as ->. { destruct o; simpl in F, N; try congruence; exfalso; apply N; auto. }
    unfold wrap_result in E. simpl in E. destruct (eval op2 o x y); simpl in E; [|discriminate]. injection E as <-. eexists _, _. reflexivity.
  Qed.
  Lemma unary_wraps : forall u x r, In u [Neg; Pos; Invert; Abs; Trunc; Floor; Ceil; Round] \/ (exists n, u = RoundTo n) -> unary op1 u (Prox x true) = Ok r -> is_proxy r.
  Proof.
    intros u x r I E. cbn [unary] in E. replace (wrapped_unary u) with true in E. 2:{ destruct I as [I|[n ->]]; auto. simpl in I; repeat destruct I as [<-|I]; auto; destruct I. }
    unfold wrap_result in E. cbn [andb] in E. destruct (unary op1 (match u with Round => RoundTo 0 | _ => u end) x); simpl in E; [|discriminate]. injection E as <-. eexists _, _. reflexivity.
  Qed.
End P.

Section O.
  Variables (V U : Type).
  Variable use : V -> U -> res (option V).
  Variable none_use : U -> exn.
  Lemma empty_chain : forall us, chain use none_use (Opt None) us = Ok (Opt None).
  Proof. induction us as [|u t IH]; simpl; auto. Qed.
  Lemma first_only : forall v u us, chain use none_use (Opt (Some v)) (u :: us) = chain use none_use (Obj v) (u :: us).
  Proof. reflexivity. Qed.
  Lemma never_wrapped : forall us v r, us <> [] -> chain use none_use (Opt (Some v)) us = Ok r -> forall o, r <> Opt o.
  Proof.
    intros us v r N E. destruct us as [|u t]; [congruence|]. simpl in E. destruct (use v u) as [x|e]; simpl in E; [|discriminate].
    assert (H : forall t r0 r1, (forall o, r0 <> Opt o) -> chain use none_use r0 t = Ok r1 -> forall o, r1 <> Opt o).
    { clear. induction t as [|u t IH]; intros r0 r1 N0 E; simpl in E; [injection E as <-; auto|].
      destruct r0 as [v| |o]; simpl in E; try discriminate; [|destruct (N0 o eq_refl)]. destruct (use v u) as [x|e]; simpl in E; [|discriminate].
      eapply IH; [|exact E]. destruct x; discriminate. }
    eapply H; [|exact E]. destruct x; discriminate.
  Qed.
End O.

Lemma compare_mirrored : forall (V : Type) (cmp2 : cop -> V -> V -> res bool), mirrored cmp2 -> forall c x y, compare cmp2 c x y = cmp2 c (strip x) (strip y).
Proof. intros V cmp2 M. apply compare_strip. intros c a b. destruct (M a b) as (A & B & C & D), (M b a) as (_ & _ & C' & D'). destruct c; simpl; auto. Qed.
