From Verif Require Import Prelude PreludeFacts MoreFacts ParseTime_Model ParseTime_Spec.
Local Open Scope string_scope.

Lemma before_None c s : has c s = false -> before c s = None.
Proof. induction s as [|d t IH]; simpl; auto. destruct (Ascii.eqb d c); simpl; [discriminate|]. intros H. rewrite IH; auto. Qed.
Lemma before_app c s t : has c s = false -> before c (s ++ String c t) = Some s.
Proof.
  induction s as [|d s IH]; simpl.
  - rewrite Ascii.eqb_refl. reflexivity.
  - destruct (Ascii.eqb d c); simpl; [discriminate|]. intros H. rewrite IH; auto.
Qed.
Lemma has_app c s t : has c (s ++ t) = has c s || has c t.
Proof. induction s as [|d s IH]; simpl; auto. rewrite IH. apply orb_assoc. Qed.
Lemma plain_has c n s : plain s -> seconds_in c = Some n -> has c s = false.
Proof. intros H E. destruct (has c s) eqn:Eh; auto. apply H in Eh. congruence. Qed.

Lemma seconds_cases c n : seconds_in c = Some n ->
  (c = "s"%char /\ n = 1%Z) \/ (c = "m"%char /\ n = 60%Z) \/ (c = "h"%char /\ n = 3600%Z) \/ (c = "d"%char /\ n = 86400%Z) \/ (c = "w"%char /\ n = 604800%Z).
Proof.
  destruct c as [b0 b1 b2 b3 b4 b5 b6 b7].
  destruct b0, b1, b2, b3, b4, b5, b6, b7; simpl; intros H; try discriminate; injection H as <-; auto 10.
Qed.

Lemma parse_unit F num u n : plain num -> unit_word u n ->
  parse_time_string F (inr (num ++ u)) = match F num with Ok q => Ok (q * inject_Z n)%Q | Err e => Err e end.
Proof.
  intros Hp (c & rest & -> & Hc & Hr). unfold parse_time_string, TIME_MODIFIERS. cbn [modifiers_loop].
  assert (Hno : forall c' n', seconds_in c' = Some n' -> (n' < n)%Z -> before c' (num ++ String c rest) = None).
  { intros c' n' Hc' Hlt. apply before_None. rewrite has_app. rewrite (plain_has c' n' num Hp Hc'). simpl.
    destruct (Ascii.eqb c c') eqn:E; [apply Ascii.eqb_eq in E; subst c'; rewrite Hc in Hc'; injection Hc' as <-; lia|].
    simpl. destruct (has c' rest) eqn:Eh; auto. specialize (Hr c' n' Eh Hc'). lia. }
  pose proof (before_app c num rest (plain_has c n num Hp Hc)) as Hyes.
  destruct (seconds_cases c n Hc) as [[-> ->]|[[-> ->]|[[-> ->]|[[-> ->]|[-> ->]]]]].
  - rewrite Hyes. reflexivity.
  - rewrite (Hno "s"%char 1%Z eq_refl) by lia. rewrite Hyes. reflexivity.
  - rewrite (Hno "s"%char 1%Z eq_refl), (Hno "m"%char 60%Z eq_refl) by lia. rewrite Hyes. reflexivity.
  - rewrite (Hno "s"%char 1%Z eq_refl), (Hno "m"%char 60%Z eq_refl), (Hno "h"%char 3600%Z eq_refl) by lia. rewrite Hyes. reflexivity.
  - rewrite (Hno "s"%char 1%Z eq_refl), (Hno "m"%char 60%Z eq_refl), (Hno "h"%char 3600%Z eq_refl), (Hno "d"%char 86400%Z eq_refl) by lia.
    rewrite Hyes. reflexivity.
Qed.
Lemma parse_plain F num : plain num -> parse_time_string F (inr num) = F num.
Proof.
  intros Hp. unfold parse_time_string, TIME_MODIFIERS. cbn [modifiers_loop].
  rewrite !before_None by (eapply plain_has; eauto; reflexivity). reflexivity.
Qed.

Ltac unit_word_tac c rest :=
  exists c, rest; split; [reflexivity|]; split; [reflexivity|];
  let c' := fresh "c'" in let n := fresh "n" in let H := fresh "H" in let E := fresh "E" in
  intros c' n H E; destruct (seconds_cases c' n E) as [[-> ->]|[[-> ->]|[[-> ->]|[[-> ->]|[-> ->]]]]]; first [discriminate H|lia].
Lemma understood u n : In (u, n) understood_units -> unit_word u n.
Proof.
  unfold understood_units. simpl. intros H.
  repeat match type of H with _ \/ _ => destruct H as [H|H] end; try contradiction; injection H as <- <-.
  - unit_word_tac "s"%char "".
  - unit_word_tac "s"%char "ec".
  - unit_word_tac "s"%char "econd".
  - unit_word_tac "s"%char "econds".
  - unit_word_tac "m"%char "".
  - unit_word_tac "m"%char "in".
  - unit_word_tac "m"%char "inute".
  - unit_word_tac "h"%char "".
  - unit_word_tac "h"%char "our".
  - unit_word_tac "d"%char "".
  - unit_word_tac "d"%char "ay".
  - unit_word_tac "w"%char "".
  - unit_word_tac "w"%char "eek".
Qed.

(** a plural: float() is given the number with the word *)
Lemma parse_plural F num u : plain num -> has "s" u = false ->
  parse_time_string F (inr (num ++ u ++ "s")) = match F (num ++ u) with Ok q => Ok (q * inject_Z 1)%Q | Err e => Err e end.
Proof.
  intros Hp Hu. unfold parse_time_string, TIME_MODIFIERS. cbn [modifiers_loop].
  replace (num ++ u ++ "s") with ((num ++ u) ++ "s").
  - rewrite before_app; auto. rewrite has_app, Hu, (plain_has "s" 1 num); auto.
  - clear. induction num as [|c t IH]; simpl; auto. rewrite IH. reflexivity.
Qed.
