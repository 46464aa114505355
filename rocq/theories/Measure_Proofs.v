From Verif Require Import Prelude PreludeFacts MoreFacts Measure_Model Measure_Spec.
Local Open Scope Z_scope.

(** the watch that a measure is *)
Definition same (m : measure) (w : watch) : Prop :=
  if stop_on_stop m
  then match elapsed m, stopped_on m with
       | None, None => exists s, since w = Some s /\ started_on m = s - before w
       | Some e, Some _ => since w = None /\ before w = e
       | _, _ => False
       end
  else exists s, since w = Some s /\ started_on m = s - before w.

Lemma same_elapsed m w now : same m w -> get_time_elapsed m now = total w now.
Proof.
  unfold same, get_time_elapsed, total. destruct (stop_on_stop m).
  - destruct (elapsed m), (stopped_on m); try tauto.
    + intros [-> ->]. lia.
    + intros (s & -> & ->). lia.
  - intros (s & -> & ->). lia.
Qed.

Definition fixed (m : measure) (can_stop : bool) (limit : option Z) : Prop := stop_on_stop m = can_stop /\ timeout m = limit.

Lemma step_same c l m w o : same m w -> fixed m c l -> (o = MStopped -> c = true) ->
  snd (measure_step m o) = snd (watch_step false c l w o) /\
  same (fst (measure_step m o)) (fst (watch_step false c l w o)) /\ fixed (fst (measure_step m o)) c l.
Proof.
  intros Hs [Hc Hl] Ho.
  destruct o as [t1 t2|t|t|i|t t1 t2|t t1|t1 t2|t|t|t|t|t|v t|];
    cbn [measure_step watch_step].
  - unfold same in *. destruct m as [so el st ss cs tm], w as [b s]. simpl in *. subst ss tm.
    unfold start, started, runs. simpl.
    destruct c; simpl; [|unfold fixed; simpl; destruct Hs as (s' & E & Hs); split; auto; split; eauto].
    destruct el, st; try tauto; simpl.
    + destruct Hs as [-> ->]. simpl. split; auto. split; [|split; auto]. exists t2. split; auto. lia.
    + destruct Hs as (s' & -> & Hs). simpl. split; auto. split; [|split; auto]. exists s'. auto.
  - unfold same in *. destruct m as [so el st ss cs tm], w as [b s]. simpl in *. subst ss tm.
    unfold stop, stopped_at, runs, total. simpl.
    destruct c; simpl; [|unfold fixed; simpl; destruct Hs as (s' & E & Hs); split; auto; split; eauto].
    destruct el, st; try tauto; simpl.
    + destruct Hs as [-> ->]. simpl. split; auto. split; [|split; auto]. auto.
    + destruct Hs as (s' & -> & Hs). simpl. split; auto. split; [|split; auto]. split; auto. lia.
  - unfold same in *. destruct m as [so el st ss cs tm], w as [b s]. simpl in *. subst ss tm.
    unfold reset, zero, fixed. simpl. destruct c; simpl; split; auto; split; auto. exists t. split; auto. lia.
  - unfold same in *. destruct m as [so el st ss cs tm], w as [b s]. simpl in *. subst ss tm.
    unfold adjust, runs, fixed. simpl. split; auto. split; auto. destruct c; simpl.
    + destruct el, st; try tauto.
      * destruct Hs as [-> ->]. simpl. auto.
      * destruct Hs as (s' & -> & Hs). simpl. exists s'. split; auto. lia.
    + destruct Hs as (s' & -> & Hs). simpl. exists s'. split; auto. lia.
  - unfold same in *. destruct m as [so el st ss cs tm], w as [b s]. simpl in *. subst ss tm.
    unfold reset_and_start, reset, start, started, zero, runs, fixed. simpl. destruct c; simpl.
    + split; auto. split; auto. exists t2. split; auto. lia.
    + split; auto. split; auto. exists t. split; auto. lia.
  - unfold same in *. destruct m as [so el st ss cs tm], w as [b s]. simpl in *. subst ss tm.
    unfold reset_and_stop, reset, stop, zero, runs, fixed. simpl. destruct c; simpl.
    + destruct el, st; try tauto; simpl.
      * destruct Hs as [-> ->]. simpl. auto.
      * destruct Hs as (s' & -> & Hs). simpl. auto.
    + destruct Hs as (s' & -> & Hs). simpl. split; auto. split; auto. exists s'. auto.
  - unfold same in *. destruct m as [so el st ss cs tm], w as [b s]. simpl in *. subst ss tm.
    unfold enter, start, started, runs, fixed. simpl. destruct c; simpl.
    + destruct el, st; try tauto; simpl.
      * destruct Hs as [-> ->]. simpl. split; auto. split; auto. exists t2. split; auto. lia.
      * destruct Hs as (s' & -> & Hs). simpl. split; auto. split; auto. exists s'. auto.
    + destruct Hs as (s' & -> & Hs). simpl. destruct el; simpl; split; auto; split; auto; exists s'; auto.
  - unfold same in *. destruct m as [so el st ss cs tm], w as [b s]. simpl in *. subst ss tm.
    unfold exit, stop, stopped_at, runs, fixed, total. simpl. destruct c; simpl.
    + destruct el, st; try tauto; simpl.
      * destruct Hs as [-> ->]. simpl. auto.
      * destruct Hs as (s' & -> & Hs). simpl. split; auto. split; auto. split; auto. lia.
    + split; auto.
  - cbn [fst snd]. rewrite (same_elapsed m w _ Hs). split; [reflexivity|split; [assumption|split; assumption]].
  - cbn [fst snd]. split; [|split; [assumption|split; assumption]]. unfold time_remaining. rewrite Hl, (same_elapsed m w _ Hs).
    destruct l as [l|]; simpl; auto. repeat f_equal. destruct (l - total w t <? 0) eqn:E.
    + apply Z.ltb_lt in E. lia.
    + apply Z.ltb_ge in E. lia.
  - cbn [fst snd]. split; [|split; [assumption|split; assumption]]. unfold timeouted. rewrite Hl, (same_elapsed m w _ Hs).
    destruct l; reflexivity.
  - cbn [fst snd]. split; [|split; [assumption|split; assumption]]. unfold assert_not_timeouted, timeouted.
    rewrite Hl, (same_elapsed m w _ Hs). destruct l; reflexivity.
  - cbn [fst snd]. split; [|split; [assumption|split; assumption]]. unfold has_exceeded. rewrite (same_elapsed m w _ Hs). reflexivity.
  - cbn [fst snd]. split; [|split; [assumption|split; assumption]].
    specialize (Ho eq_refl). subst c. unfold same, stopped, runs in *. rewrite Ho in Hs.
    destruct (elapsed m), (stopped_on m); try tauto.
    + destruct Hs as [-> _]. reflexivity.
    + destruct Hs as (s & -> & _). reflexivity.
Qed.

Lemma run_same c l ops : forall m w, same m w -> fixed m c l -> asks_stopped_properly c ops ->
  fst (measure_run m ops) = watch_run false c l w ops.
Proof.
  induction ops as [|o t IH]; intros m w Hs Hf Ha; simpl; auto.
  destruct (step_same c l m w o Hs Hf) as (E & Hs' & Hf').
  { intros ->. destruct Ha as [Ha|Ha]; auto. exfalso. apply Ha. left. reflexivity. }
  destruct (measure_step m o) as [m' out], (watch_step false c l w o) as [w' out']. simpl in *. subst out'.
  specialize (IH m' w' Hs' Hf'). destruct (measure_run m' t). simpl in *. rewrite IH; auto.
  destruct Ha as [Ha|Ha]; [left; auto|right]. intros Hi. apply Ha. right. exact Hi.
Qed.

Lemma new_same c adj cs limit now : same (new_measure c adj cs limit now) (new_watch c adj cs now).
Proof.
  unfold same, new_measure, new_watch. destruct c, cs; simpl; auto; exists now; split; auto; lia.
Qed.

Lemma session_same c adj cs limit now ops : asks_stopped_properly c ops ->
  fst (measure_run (new_measure c adj cs limit now) ops) = watch_run false c limit (new_watch c adj cs now) ops.
Proof. apply run_same; [apply new_same|split; reflexivity]. Qed.

Lemma never_resumed_same c l ops : forall w, never_resumed true c l w ops ->
  watch_run false c l w ops = watch_run true c l w ops.
Proof.
  induction ops as [|o t IH]; intros w H; simpl; auto. destruct H as [Ho Ht].
  assert (E : watch_step false c l w o = watch_step true c l w o).
  { destruct o; auto; simpl; unfold started in *.
    - destruct (c && negb (runs w)) eqn:Ec; auto. destruct Ho as [Ho| ->]; auto. rewrite Ho, andb_false_r in Ec. discriminate.
    - destruct (runs w) eqn:Er; auto. destruct Ho as [Ho| ->]; auto. discriminate. }
  rewrite E. destruct (watch_step true c l w o) as [w' out]. simpl in Ht. rewrite (IH w' Ht). reflexivity.
Qed.

Lemma session_documented c adj cs limit now ops :
  asks_stopped_properly c ops -> never_resumed true c limit (new_watch c adj cs now) ops ->
  fst (measure_run (new_measure c adj cs limit now) ops) = watch_run true c limit (new_watch c adj cs now) ops.
Proof. intros H1 H2. rewrite session_same by auto. apply never_resumed_same. exact H2. Qed.

Lemma remaining_nonneg m now t : time_remaining m now = Some t -> 0 <= t.
Proof.
  unfold time_remaining. destruct (timeout m) as [l|]; [|discriminate]. intros H. injection H as <-.
  destruct (l - get_time_elapsed m now <? 0) eqn:E; [lia|]. apply Z.ltb_ge in E. lia.
Qed.

Lemma given_elapsed m t t1 t2 now : create_stopped m = false ->
  snd (given_to_function m t t1 t2) = Ok tt /\
  get_time_elapsed (fst (given_to_function m t t1 t2)) now = now - (if stop_on_stop m then t2 else t).
Proof.
  intros H. unfold given_to_function. rewrite H. unfold enter, start, reset, get_time_elapsed. simpl.
  destruct (stop_on_stop m) eqn:E; simpl; rewrite ?E; auto.
Qed.
