(** C118: dumping uncaught exceptions *)
From Coq Require Import Lia.
From Verif Require Import Prelude Dump_Model Dump_Spec Dump_Proofs.
Set Implicit Arguments.

(** After any number of uncaught exceptions in threads, nothing having failed: each stream has got, for each exception in order, as
    many reports as it is among the human-readable targets and as many pickles as it is among the others; each file has the report of
    the last one; each logger has a record of each, at its levels; all are about the right exception; and each exception goes on to
    the other handlers. *)
Theorem C118_partial : forall h w us, fit h -> Forall (fun u => calm (fst u) /\ exists e, snd u = InThread e) us ->
  let es := map (fun u => the_exception (snd u)) us in
  (forall s, streams (run h w us) s = streams w s ++ stream_after h s es) /\
  (forall p, files (run h w us) p = file_after h p (files w p) es) /\
  (forall g, logs (run h w us) g = logs w g ++ log_after h g es) /\
  (forall u w', In u us -> snd (handle (fst u) h w' (in_progress (snd u))) = Ok false).
Proof.
  intros h w us Fit F es.
  assert (LAST : forall u w', In u us -> snd (handle (fst u) h w' (in_progress (snd u))) = Ok false).
  { intros u w' I. rewrite Forall_forall in F. destruct (F _ I) as [C _].
    destruct (handle_calm (in_progress (snd u)) w' C Fit) as (w'' & -> & _). reflexivity. }
  enough (K : (forall s, streams (run h w us) s = streams w s ++ stream_after h s es) /\
  (forall p, files (run h w us) p = file_after h p (files w p) es) /\
  (forall g, logs (run h w us) g = logs w g ++ log_after h g es)) by tauto.
  clear LAST. unfold es. clear es. revert F. induction us as [|u us IH] using rev_ind; intros F.
  - cbn. repeat split; intros; now rewrite ?app_nil_r.
  - apply Forall_app in F. destruct F as [F Fu]. apply Forall_inv in Fu. destruct Fu as [C [e E]].
    destruct (IH F) as (S & Fi & L). clear IH.
    unfold run. rewrite fold_left_app. cbn [fold_left]. fold (run h w us).
    destruct (handle_calm (in_progress (snd u)) (run h w us) C Fit) as (w' & -> & S' & Fi' & L'). cbn [fst].
    rewrite E in *. cbn [in_progress] in *.
    rewrite map_app. cbn [map]. rewrite E. cbn [the_exception].
    split; [|split].
    + intros s. rewrite S', S. unfold stream_after. rewrite flat_map_app. cbn [flat_map]. rewrite app_nil_r, <- app_assoc. reflexivity.
    + intros p. rewrite Fi', Fi. unfold file_after. rewrite rev_app_distr. cbn [rev app].
      destruct (has_file p (tb h)); auto. destruct (has_file p (hr h)); auto.
      destruct (rev (map _ us)); auto.
    + intros g. rewrite L', L. unfold log_after. rewrite flat_map_app. cbn [flat_map]. rewrite app_nil_r, <- app_assoc. reflexivity.
Qed.
Print Assumptions C118_partial.

(** A target that fails raises its exception from the handler; those before it have got theirs, those after it and all the pickles
    get nothing. *)
Theorem C118_fails : forall t h w about l1 a l2 w1 w2 e, hr h = l1 ++ a :: l2 ->
  reports t w l1 about = (w1, None) -> reports t w1 [a] about = (w2, Some e) ->
  handle t h w about = (w2, Err e).
Proof.
  intros t h w about l1 a l2 w1 w2 e H A B. unfold handle. rewrite H. change (a :: l2) with ([a] ++ l2).
  rewrite reports_app, A, reports_app, B. reflexivity.
Qed.
Print Assumptions C118_fails.
Theorem C118_starved_refuted : exists t h w e, calm {| open_ := fun _ => None; write_ := fun _ _ => None; flush_ := flush_ t |} /\ fit h /\ has_file (Name 1) (hr h) = true /\
  write_ t 7 true = Some OSErrorExn /\ handle t h w (Some e) = (w, Err OSErrorExn).
Proof.
  exists {| open_ := fun _ => None; write_ := fun s _ => if Nat.eqb s 7 then Some OSErrorExn else None; flush_ := fun _ => None |}.
  exists {| hr := [ {| mode_of := MStream 7; human_readable := true |}; {| mode_of := MFile (Name 1); human_readable := true |} ]; tb := [] |}.
  exists {| files := fun _ => None; streams := fun _ => []; logs := fun _ => [] |}, KeyError.
  split; [|split; [|split; [|split]]]; try reflexivity.
  - repeat split; auto.
  - repeat constructor.
Qed.
Print Assumptions C118_starved_refuted.

(** "the stack trace is written": for an exception not caught in the main thread what is written is about no exception *)
Definition C118_full_statement : Prop :=
  forall h w t u s, fit h -> calm t -> streams (run h w [(t, u)]) s = streams w s ++ stream_after h s [the_exception u].
Theorem C118_full_statement_refuted : ~ C118_full_statement.
Proof.
  intros H.
  specialize (H {| hr := [ {| mode_of := MStream 0; human_readable := true |} ]; tb := [] |} {| files := fun _ => None; streams := fun _ => []; logs := fun _ => [] |}
     {| open_ := fun _ => None; write_ := fun _ _ => None; flush_ := fun _ => None |} (InMain KeyError) 0).
  assert (X : fit {| hr := [ {| mode_of := MStream 0; human_readable := true |} ]; tb := [] |}) by repeat constructor.
  specialize (H X). specialize (H ltac:(repeat split; auto)). discriminate.
Qed.
Print Assumptions C118_full_statement_refuted.
(** in that case every target gets a report about nothing *)
Theorem C118_main_refuted : forall h w t e, fit h -> calm t ->
  forall s c, In c (streams (fst (handle t h w (in_progress (InMain e)))) s) -> In c (streams w s) \/ c = Report None \/ c = Pickled None.
Proof.
  intros h w t e Fit C s c. destruct (handle_calm None w C Fit) as (w' & E & S & _). cbn [in_progress]. rewrite E. cbn [fst]. rewrite S, !in_app_iff.
  intros [I|[I|I]]; auto; apply repeat_spec in I; auto.
Qed.
Print Assumptions C118_main_refuted.

(** None and loggers among the targets for pickles, although the constructor takes them, make every exception fail *)
Theorem C118_pickles_refuted : forall t w about h hrs g, g = GNone \/ (exists l, g = GLogger l) ->
  calm t -> new_handler 0 hrs [g] = Ok h -> Forall fit_report (hr h) -> exists w' e, handle t h w about = (w', Err e) /\ (e = TypeError \/ e = AttributeError).
Proof.
  intros t w about h hrs g G C. unfold new_handler. destruct (make_all true 0 hrs) as [l|]; [|discriminate].
  intros E F. destruct G as [->|[lg ->]]; cbn in E; injection E as <-; unfold handle; cbn [hr tb] in *;
  destruct (reports_calm about C F w) as (w1 & -> & _); cbn; eauto.
Qed.
Print Assumptions C118_pickles_refuted.
(** What the constructor makes: as many targets as were given, or TypeError if one is none of the kinds. Names of directories get
    different new names in them. *)
Theorem C118_targets : forall uuid hrs tbs,
  ((In GOther hrs \/ In GOther tbs) -> new_handler uuid hrs tbs = Err TypeError) /\
  (~ In GOther hrs -> ~ In GOther tbs -> exists h, new_handler uuid hrs tbs = Ok h /\ length (hr h) = length hrs /\ length (tb h) = length tbs /\
     ((forall a, ~ In (GReady a) (hrs ++ tbs)) -> forall i j a b d u v, nth_error (hr h ++ tb h) i = Some a -> nth_error (hr h ++ tb h) j = Some b ->
        mode_of a = MFile (Within d u) -> mode_of b = MFile (Within d v) -> u = v -> i = j) /\
     (Forall (fun g => match g with GReady _ => False | _ => True end) hrs -> Forall fit_report (hr h))).
Proof.
  assert (BAD : forall b gs u, In GOther gs -> make_all b u gs = Err TypeError).
  { intros b gs. induction gs as [|g gs IH]; intros u I; [easy|]. cbn. destruct I as [->|I]; [reflexivity|].
    destruct g; cbn; rewrite ?(IH (S u) I); reflexivity. }
  assert (GOOD : forall b gs u, ~ In GOther gs -> exists l, make_all b u gs = Ok l /\ length l = length gs /\
    ((forall a, ~ In (GReady a) gs) -> forall i a, nth_error l i = Some a -> human_readable a = b /\ (forall d x, mode_of a = MFile (Within d x) -> x = u + i))).
  { intros b gs. induction gs as [|g gs IH]; intros u N.
    - exists []. repeat split; destruct i; discriminate.
    - destruct (IH (S u)) as (l & E & L & P). { intros I. apply N. right; auto. }
      assert (Q : exists a, make b u g = Ok a /\ ((forall r, g <> GReady r) -> human_readable a = b /\ (forall d x, mode_of a = MFile (Within d x) -> x = u))).
      { destruct g; try (eexists; split; [reflexivity|]; cbn; split; [auto|]; intros; congruence).
        exfalso. apply N. left; auto. }
      destruct Q as (a & Ea & Pa). exists (a :: l). cbn. rewrite Ea, E. split; [reflexivity|]. split; [cbn; auto|].
      intros R i x. destruct i as [|i].
      + cbn. intros [= <-]. destruct (Pa ltac:(intros r Hr; apply (R r); left; auto)) as [A B]. split; auto. intros d y Hy. rewrite (B d y Hy). lia.
      + cbn. intros Hn. destruct (P ltac:(intros r Hr; apply (R r); right; auto) i x Hn) as [A B]. split; auto. intros d y Hy. rewrite (B d y Hy). lia. }
  intros uuid hrs tbs. split.
  - unfold new_handler. intros [I|I].
    + now rewrite BAD.
    + destruct (make_all true uuid hrs) as [l|e] eqn:E.
      * now rewrite BAD.
      * clear - E. enough (e = TypeError) by congruence. revert uuid e E. induction hrs as [|g gs IH]; intros u e; [discriminate|].
        cbn. destruct g; cbn; try (destruct (make_all true (S u) gs) eqn:Q; [discriminate|]; intros [= <-]; eapply IH; eauto).
        intros [= <-]; auto.
  - intros N1 N2. destruct (GOOD true hrs uuid N1) as (l & E & L & P). destruct (GOOD false tbs (uuid + length hrs) N2) as (l' & E' & L' & P').
    exists {| hr := l; tb := l' |}. unfold new_handler. rewrite E, E'. cbn [hr tb]. split; [reflexivity|]. split; [auto|]. split; [auto|]. split.
    + intros R i j a b d u v Hi Hj Ma Mb Huv. subst v.
      assert (R1 : forall r, ~ In (GReady r) hrs) by (intros r I; apply (R r); apply in_app_iff; auto).
      assert (R2 : forall r, ~ In (GReady r) tbs) by (intros r I; apply (R r); apply in_app_iff; auto).
      assert (K : forall k x y, nth_error (l ++ l') k = Some x -> mode_of x = MFile (Within d y) -> y = uuid + k).
      { intros k x y Hk Mx. destruct (Nat.lt_ge_cases k (length l)) as [Q|Q].
        - rewrite nth_error_app1 in Hk by auto. apply (proj2 (P R1 k x Hk) d y Mx).
        - rewrite nth_error_app2 in Hk by auto. pose proof (proj2 (P' R2 _ x Hk) d y Mx). lia. }
      pose proof (K _ _ _ Hi Ma). pose proof (K _ _ _ Hj Mb). lia.
    + intros FR. apply Forall_forall. intros a I. apply In_nth_error in I. destruct I as [k Hk].
      unfold fit_report. destruct (mode_of a); auto. apply (P) with k; auto.
      intros r I. rewrite Forall_forall in FR. apply (FR _ I).
Qed.
Print Assumptions C118_targets.
(** Each of them is what was given: that file, that stream, that logger at that level (or at ERROR), a new name in that directory, nowhere for
    None; an AsStream stays as it is. *)
Theorem C118_made : forall uuid hrs tbs h, new_handler uuid hrs tbs = Ok h ->
  Forall2 (is_target true) hrs (hr h) /\ Forall2 (is_target false) tbs (tb h).
Proof.
  assert (A : forall b gs u l, make_all b u gs = Ok l -> Forall2 (is_target b) gs l).
  { intros b gs. induction gs as [|g gs IH]; intros u l; cbn; [intros [= <-]; constructor|].
    destruct (make b u g) as [a|] eqn:E; [|discriminate]. destruct (make_all b (S u) gs) as [l'|] eqn:E'; [|discriminate]. intros [= <-].
    constructor; [|eauto]. destruct g; cbn in *; try discriminate; injection E as <-; cbn; eauto. }
  intros uuid hrs tbs h. unfold new_handler. destruct (make_all true _ _) eqn:E; [|discriminate]. destruct (make_all false _ _) eqn:E'; [|discriminate].
  intros [= <-]. cbn. eauto.
Qed.
Print Assumptions C118_made.
(** The handler raises exactly the first thing that goes wrong, reports first. *)
Theorem C118_raises : forall t h w about,
  snd (handle t h w about) = match flat_map (wrong t true) (hr h) ++ flat_map (wrong t false) (tb h) with e :: _ => Err e | [] => Ok false end.
Proof.
  intros t h w about.
  assert (W : forall w a c, (is_text c = true -> match mode_of a with MLogger _ _ => False | _ => True end) ->
    snd (write_to t w a c) = match wrong t (is_text c) a with e :: _ => Some e | [] => None end).
  { intros w0 a c L. unfold write_to, wrong. destruct (mode_of a) as [p|s| |l v].
    - destruct (open_ t p); [reflexivity|]. destruct (Bool.eqb _ _); reflexivity.
    - destruct (write_ t s (is_text c)) eqn:E, (flush_ t s) as [f|]; try reflexivity; destruct f; reflexivity.
    - destruct (is_text c); reflexivity.
    - destruct (is_text c); [destruct (L eq_refl)|reflexivity]. }
  assert (R : forall l w, snd (reports t w l about) = match flat_map (wrong t true) l with e :: _ => Some e | [] => None end).
  { induction l as [|a l IH]; intros w0; [reflexivity|]. cbn [reports flat_map].
    destruct (match mode_of a with MLogger lg v => _ | _ => _ end) as [w' e] eqn:E.
    assert (X : e = match wrong t true a with e :: _ => Some e | [] => None end).
    { destruct (mode_of a) eqn:M; try (change true with (is_text (Report about)); rewrite <- (W w0 a (Report about)); [now rewrite E|now rewrite M]).
      injection E as <- <-. unfold wrong. now rewrite M. }
    rewrite X. destruct (wrong t true a); cbn; auto. }
  assert (P : forall l w, snd (pickles t w l about) = match flat_map (wrong t false) l with e :: _ => Some e | [] => None end).
  { induction l as [|a l IH]; intros w0; [reflexivity|]. cbn [pickles flat_map].
    assert (X := W w0 a (Pickled about)). cbn in X. destruct (write_to t w0 a (Pickled about)) as [w' e]. cbn in X. rewrite X by discriminate.
    destruct (wrong t false a); cbn; auto. }
  unfold handle. specialize (R (hr h) w). destruct (reports t w (hr h) about) as [w' e]. cbn in R. subst e.
  destruct (flat_map (wrong t true) (hr h)); [|reflexivity]. cbn [app].
  specialize (P (tb h) w'). destruct (pickles t w' (tb h) about) as [w'' e]. cbn in P. subst e. destruct (flat_map _ _); reflexivity.
Qed.
Print Assumptions C118_raises.

(** cases *)
Definition case_handler : handler := {| hr := [ {| mode_of := MStream 0; human_readable := true |}; {| mode_of := MFile (Name 4); human_readable := true |}; {| mode_of := MLogger 2 30; human_readable := true |}; {| mode_of := MDevnull; human_readable := true |} ];
  tb := [ {| mode_of := MStream 1; human_readable := false |} ] |}.
Definition no_trouble : trouble := {| open_ := fun _ => None; write_ := fun _ _ => None; flush_ := fun s => if Nat.eqb s 0 then Some AttributeError else None |}.
Example C118_case : fit case_handler /\ calm no_trouble /\
  new_handler 9 [GStream 0; GFile 4; GLevel 2 30; GNone] [GStream 1] = Ok case_handler /\
  stream_after case_handler 1 [KeyError; ValueError] = [Pickled (Some KeyError); Pickled (Some ValueError)].
Proof.
  split; [repeat constructor|]. split; [|split; reflexivity].
  repeat split; auto. intros s. cbn. destruct (Nat.eqb s 0); auto.
Qed.
Example C118_case_run : let w := run case_handler {| files := fun _ => None; streams := fun _ => []; logs := fun _ => [] |} [(no_trouble, InThread KeyError); (no_trouble, InThread ValueError)] in
  streams w 0 = [Report (Some KeyError); Report (Some ValueError)] /\ files w (Name 4) = Some [Report (Some ValueError)] /\ logs w 2 = [(30, Some KeyError); (30, Some ValueError)].
Proof. repeat split. Qed.
