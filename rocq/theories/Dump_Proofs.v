From Coq Require Import Lia.
From Verif Require Import Prelude Dump_Model Dump_Spec.
Set Implicit Arguments.

Lemma path_eqb_ok p q : path_eqb p q = true <-> p = q.
Proof.
  destruct p, q; cbn; try (split; discriminate).
  - rewrite Nat.eqb_eq. split; congruence.
  - rewrite Bool.andb_true_iff, !Nat.eqb_eq. split; [intros [-> ->]; auto|intros [= -> ->]; auto].
Qed.
Lemma path_eqb_sym p q : path_eqb p q = path_eqb q p.
Proof. destruct (path_eqb p q) eqn:E.
  - apply path_eqb_ok in E. subst. symmetry. now apply path_eqb_ok.
  - destruct (path_eqb q p) eqn:E'; auto. apply path_eqb_ok in E'. subst. assert (path_eqb p p = true) by now apply path_eqb_ok. congruence.
Qed.

Lemma write_calm t w a c : calm t -> (match mode_of a with MFile _ => human_readable a = is_text c | MStream _ => True | MDevnull => is_text c = true | MLogger _ _ => False end) ->
  exists w', write_to t w a c = (w', None) /\
  (forall s, streams w' s = streams w s ++ repeat c (times_stream s [a])) /\
  (forall p, files w' p = if has_file p [a] then Some [c] else files w p) /\ (forall l, logs w' l = logs w l).
Proof.
  intros (O & W & F) Fit. unfold write_to, times_stream, has_file. cbn [filter existsb]. destruct (mode_of a) as [p|s| |lg v].
  - rewrite O, Fit, Bool.eqb_reflx. eexists. split; [reflexivity|]. cbn. repeat split; auto.
    + intros s. now rewrite app_nil_r.
    + intros q. rewrite Bool.orb_false_r. rewrite (path_eqb_sym q p). reflexivity.
  - rewrite W. eexists. split; [destruct (F s) as [-> | ->]; reflexivity|]. cbn. repeat split; auto.
    intros x. rewrite (Nat.eqb_sym x s). destruct (Nat.eqb s x); cbn; auto. now rewrite app_nil_r.
  - rewrite Fit. eexists. split; [reflexivity|]. cbn. repeat split; auto. intros s. now rewrite app_nil_r.
  - contradiction.
Qed.

Lemma times_cons s a l : times_stream s (a :: l) = times_stream s [a] + times_stream s l.
Proof. unfold times_stream. cbn. destruct (match mode_of a with MStream x => Nat.eqb x s | _ => false end); reflexivity. Qed.
Lemma has_cons p a l : has_file p (a :: l) = has_file p [a] || has_file p l.
Proof. unfold has_file. cbn. now rewrite Bool.orb_false_r. Qed.

Lemma reports_calm t about l : calm t -> Forall fit_report l -> forall w, exists w', reports t w l about = (w', None) /\
  (forall s, streams w' s = streams w s ++ repeat (Report about) (times_stream s l)) /\
  (forall p, files w' p = if has_file p l then Some [Report about] else files w p) /\
  (forall g, logs w' g = logs w g ++ map (fun v => (v, about)) (levels g l)).
Proof.
  intros C F. induction F as [|a l Fa F IH]; intros w.
  - exists w. split; [reflexivity|]. repeat split; intros; cbn; now rewrite ?app_nil_r.
  - cbn [reports].
    assert (X : exists w1, (match mode_of a with MLogger lg level => (log_to w lg level about, None) | _ => write_to t w a (Report about) end) = (w1, None) /\
      (forall s, streams w1 s = streams w s ++ repeat (Report about) (times_stream s [a])) /\
      (forall p, files w1 p = if has_file p [a] then Some [Report about] else files w p) /\
      (forall g, logs w1 g = logs w g ++ map (fun v => (v, about)) (levels g [a]))).
    { destruct (mode_of a) as [p|s| |lg v] eqn:M.
      1-3: destruct (@write_calm t w a (Report about) C) as (w1 & E & S & Fi & L);
           [unfold fit_report in Fa; rewrite M in *; auto|];
           exists w1; split; [exact E|]; split; [auto|]; split; [auto|];
           intros g; rewrite L; unfold levels; cbn; rewrite M; cbn; now rewrite app_nil_r.
      exists (log_to w lg v about). split; [reflexivity|]. unfold times_stream, has_file, levels. cbn. rewrite M. cbn. split; [|split].
      - intros s. now rewrite app_nil_r.
      - auto.
      - intros g. rewrite (Nat.eqb_sym g lg). destruct (Nat.eqb lg g); cbn; auto. now rewrite app_nil_r. }
    destruct X as (w1 & E & S & Fi & L). rewrite E.
    destruct (IH w1) as (w' & E' & S' & Fi' & L'). exists w'. split; [exact E'|]. split; [|split].
    + intros s. rewrite S', S, (times_cons s a l), repeat_app, app_assoc. reflexivity.
    + intros p. rewrite Fi', Fi, (has_cons p a l). destruct (has_file p l), (has_file p [a]); reflexivity.
    + intros g. rewrite L', L. unfold levels. cbn [flat_map]. rewrite app_nil_r, map_app, app_assoc. reflexivity.
Qed.
Lemma pickles_calm t about l : calm t -> Forall fit_pickle l -> forall w, exists w', pickles t w l about = (w', None) /\
  (forall s, streams w' s = streams w s ++ repeat (Pickled about) (times_stream s l)) /\
  (forall p, files w' p = if has_file p l then Some [Pickled about] else files w p) /\
  (forall g, logs w' g = logs w g).
Proof.
  intros C F. induction F as [|a l Fa F IH]; intros w.
  - exists w. split; [reflexivity|]. repeat split; intros; cbn; now rewrite ?app_nil_r.
  - cbn [pickles]. destruct (@write_calm t w a (Pickled about) C) as (w1 & E & S & Fi & L).
    { unfold fit_pickle in Fa. destruct (mode_of a); auto. }
    rewrite E. destruct (IH w1) as (w' & E' & S' & Fi' & L'). exists w'. split; [exact E'|]. split; [|split].
    + intros s. rewrite S', S, (times_cons s a l), repeat_app, app_assoc. reflexivity.
    + intros p. rewrite Fi', Fi, (has_cons p a l). destruct (has_file p l), (has_file p [a]); reflexivity.
    + intros g. now rewrite L', L.
Qed.
Lemma handle_calm t h about w : calm t -> fit h -> exists w', handle t h w about = (w', Ok false) /\
  (forall s, streams w' s = streams w s ++ repeat (Report about) (times_stream s (hr h)) ++ repeat (Pickled about) (times_stream s (tb h))) /\
  (forall p, files w' p = if has_file p (tb h) then Some [Pickled about] else if has_file p (hr h) then Some [Report about] else files w p) /\
  (forall g, logs w' g = logs w g ++ map (fun v => (v, about)) (levels g (hr h))).
Proof.
  intros C [FR FP]. unfold handle.
  destruct (reports_calm about C FR w) as (w1 & -> & S & Fi & L).
  destruct (pickles_calm about C FP w1) as (w2 & -> & S' & Fi' & L').
  exists w2. split; [reflexivity|]. split; [|split].
  - intros s. now rewrite S', S, app_assoc.
  - intros p. now rewrite Fi', Fi.
  - intros g. now rewrite L', L.
Qed.
Lemma reports_app t about : forall l1 l2 w, reports t w (l1 ++ l2) about =
  match reports t w l1 about with (w', None) => reports t w' l2 about | (w', Some e) => (w', Some e) end.
Proof.
  induction l1 as [|a l1 IH]; intros l2 w; [reflexivity|]. cbn [app reports].
  destruct (match mode_of a with MLogger lg level => (log_to w lg level about, None) | _ => write_to t w a (Report about) end) as [w' [e|]]; auto.
Qed.
