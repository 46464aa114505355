From Verif Require Import Prelude PreludeFacts MoreFacts Await_Model Await_Spec Deferred_Proofs.

(** ** who holds what *)
Definition hm (p : place) : bool := match p with Inside _ _ | AtLock | Notifying | Unlocking | Leaving => true | _ => false end.
Definition hl (p : place) : bool := match p with Notifying | Unlocking | ToSleep _ _ | ToUnlock _ _ => true | _ => false end.
Definition LInv (c : anumber) : Prop :=
  (forall t, monitor c = Some t <-> exists th, nth_error (athreads c) t = Some th /\ hm (at_ th) = true) /\
  (forall t, lock c = Some t <-> exists th, nth_error (athreads c) t = Some th /\ hl (at_ th) = true).
Definition owner (h : place -> bool) (o : option nat) (ths : list athread) : Prop :=
  forall t, o = Some t <-> exists th, nth_error ths t = Some th /\ h (at_ th) = true.
Lemma owner_keep h o ths t th th' : owner h o ths -> nth_error ths t = Some th -> h (at_ th') = h (at_ th) -> owner h o (upd ths t th').
Proof.
  intros H E K u. rewrite (H u). split; intros (x & E1 & E2).
  - destruct (Nat.eq_dec u t) as [->|N]; [exists th'; rewrite nth_error_upd_eq by (eapply nth_lt; eauto); split; auto; congruence|].
    exists x. rewrite nth_error_upd_neq; auto.
  - apply nth_upd_cases in E1. destruct E1 as [[-> ->]|[N E1]]; [exists th; split; auto; congruence|exists x; auto].
Qed.
Lemma owner_take h ths t th th' : owner h None ths -> nth_error ths t = Some th -> h (at_ th') = true -> owner h (Some t) (upd ths t th').
Proof.
  intros H E K u. split.
  - intros X. injection X as <-. exists th'. rewrite nth_error_upd_eq by (eapply nth_lt; eauto). auto.
  - intros (x & E1 & E2). apply nth_upd_cases in E1. destruct E1 as [[-> ->]|[N E1]]; auto. exfalso. assert (None = Some u) by (apply H; eauto). discriminate.
Qed.
Lemma owner_drop h o ths t th th' : owner h o ths -> nth_error ths t = Some th -> h (at_ th) = true -> h (at_ th') = false -> owner h None (upd ths t th').
Proof.
  intros H E K K' u. split; [discriminate|]. intros (x & E1 & E2). apply nth_upd_cases in E1. destruct E1 as [[-> ->]|[N E1]]; [congruence|].
  exfalso. assert (o = Some u) as X1 by (apply H; eauto). assert (o = Some t) as X2 by (apply H; eauto). congruence.
Qed.
Lemma owner_map h o ths f : (forall th, h (at_ (f th)) = h (at_ th)) -> owner h o ths -> owner h o (map f ths).
Proof.
  intros F H u. rewrite (H u). split; intros (x & E1 & E2).
  - exists (f x). rewrite nth_error_map, E1, F. auto.
  - rewrite nth_error_map in E1. destruct (nth_error ths u) as [y|]; [|discriminate]. injection E1 as <-. exists y. rewrite F in E2. auto.
Qed.
Lemma wake_hm th : hm (at_ (wake th)) = hm (at_ th).
Proof. destruct th as [td p r]. destruct p; reflexivity. Qed.
Lemma wake_hl th : hl (at_ (wake th)) = hl (at_ th).
Proof. destruct th as [td p r]. destruct p; reflexivity. Qed.
Lemma LInv_step c e : LInv c -> LInv (astep c e).
Proof.
  intros HC. pose proof HC as [HM HL]. change (owner hm (monitor c) (athreads c)) in HM. change (owner hl (lock c) (athreads c)) in HL.
  assert (forall v m l ths, owner hm m ths -> owner hl l ths -> LInv (mk_anumber v m l ths)) as Mk by (intros; split; auto).
  destruct e as [t|t]; simpl; unfold aturn, aexpire; destruct (nth_error (athreads c) t) as [th|] eqn:E; try (exact HC).
  - assert (nth_error (map wake (athreads c)) t = Some (wake th)) as E' by (rewrite nth_error_map, E; auto).
    destruct (at_ th) as [|f b|f b| | | | |v b|v b|v b|v b|v b|v b|v b|v] eqn:Ea; cbv zeta.
    1: destruct (todo th) as [|[f b|v b] rest]; [exact HC| |]; apply Mk; eapply owner_keep; eauto; rewrite Ea; reflexivity.
    all: repeat match goal with |- context [match monitor ?c with _ => _ end] => destruct (monitor c) eqn:EM; [exact HC|]
           | |- context [match lock ?c with _ => _ end] => destruct (lock c) eqn:EL; [exact HC|]
           | |- context [if Z.eqb ?a ?b then _ else _] => destruct (Z.eqb a b) end.
    all: try (exact HC).
    all: apply Mk; try (destruct b); solve [ eapply owner_keep; eauto; rewrite Ea; reflexivity | eapply owner_take; eauto | eapply owner_drop; eauto; rewrite Ea; reflexivity |
       eapply owner_keep; [eapply owner_map; [apply wake_hm|eassumption]|exact E'|rewrite wake_hm, Ea; reflexivity] |
       eapply owner_keep; [eapply owner_map; [apply wake_hl|eassumption]|exact E'|rewrite wake_hl, Ea; reflexivity] | rewrite <- EM in HM; eapply owner_keep; eauto; rewrite Ea; reflexivity].
  - destruct (at_ th) as [|f b|f b| | | | |v b|v b|v b|v b|v b|v b|v b|v] eqn:Ea; cbv zeta; try destruct b; try (exact HC);
    try (destruct (lock c) eqn:EL; [|exact HC]); apply Mk; eapply owner_keep; eauto; rewrite Ea; reflexivity.
Qed.
Lemma LInv_exec es : forall c, LInv c -> LInv (aexec c es).
Proof. induction es as [|e es IH]; simpl; auto using LInv_step. Qed.
Lemma LInv_start v programs : LInv (astart v programs).
Proof.
  split; intros t; (split; [discriminate|]); intros (th & E & K); simpl in E; apply nth_error_In in E; apply in_map_iff in E; destruct E as (p & <- & _); discriminate.
Qed.

(** ** safety *)
Lemma wake_results th : results (wake th) = results th.
Proof. destruct th as [td p r]. destruct p; reflexivity. Qed.
Lemma upd_same_res (l : list aresult) r : l ++ [r] = l -> False.
Proof. intros H. apply (f_equal (@length aresult)) in H. rewrite app_length in H. simpl in H. lia. Qed.
Lemma app_one (l : list aresult) x y : l ++ [x] = l ++ [y] -> x = y.
Proof. intros H. apply app_inj_tail in H. tauto. Qed.
Ltac other_thread := match goal with
  | N : ?t <> ?u, K : nth_error (upd ?l ?u ?x) ?t = Some ?y |- _ => rewrite nth_error_upd_neq in K by auto end.
(** what an event appends to the results of a thread *)
Definition justified (c : anumber) (th : athread) (r : aresult) : Prop :=
  match r with
  | Reached v => value c = v /\ (at_ th = Final v \/ at_ th = Comparing v false)
  | WouldWait v => value c <> v /\ at_ th = Final v
  | CondLocked v => at_ th = ToLock v true /\ lock c <> None
  | Changed => at_ th = Leaving
  end.
Lemma ends_justified c e t r th : nth_error (athreads c) t = Some th -> ends_with c e t r -> justified c th r.
Proof.
  intros E (th1 & th' & E1 & E2 & K). rewrite E in E1. injection E1 as <-.
  assert (forall u x, nth_error (athreads c) u <> None -> nth_error (upd (athreads c) u x) t = Some th' -> t = u /\ th' = x) as Hput.
  { intros u x Hu E3. apply nth_upd_cases in E3. destruct E3 as [E3|[N E3]]; auto. rewrite E in E3. injection E3 as <-. symmetry in K. destruct (upd_same_res _ _ K). }
  assert (nth_error (athreads c) t = Some th' -> False) as Hsame.
  { intros E3. rewrite E in E3. injection E3 as <-. symmetry in K. destruct (upd_same_res _ _ K). }
  destruct e as [u|u]; simpl in E2; unfold aturn, aexpire in E2; destruct (nth_error (athreads c) u) as [x|] eqn:Eu; try (exfalso; auto; fail).
  - destruct (at_ x) as [|f b|f b| | | | |v b|v b|v b|v b|v b|v b|v b|v] eqn:Ea; cbv zeta in E2.
    5: { exfalso. simpl in E2. apply nth_upd_cases in E2. destruct E2 as [[-> ->]|[N E2]].
         - rewrite E in Eu. injection Eu as ->. symmetry in K. exact (upd_same_res _ _ K).
         - rewrite nth_error_map, E in E2. injection E2 as <-. rewrite wake_results in K. symmetry in K. exact (upd_same_res _ _ K). }
    all: repeat match type of E2 with context [match todo ?x with _ => _ end] => destruct (todo x) as [|[? ?|? ?] ?]
           | context [match monitor ?c with _ => _ end] => destruct (monitor c)
           | context [match lock ?c with _ => _ end] => destruct (lock c)
           | context [Z.eqb ?a ?b] => destruct (Z.eqb a b) eqn:Ez; [apply Z.eqb_eq in Ez|apply Z.eqb_neq in Ez] end.
    all: try (exfalso; exact (Hsame E2)).
    all: simpl in E2; apply Hput in E2; [|congruence]; destruct E2 as [-> ->]; rewrite E in Eu; injection Eu as ->; try destruct b; simpl in K;
      try (exfalso; symmetry in K; exact (upd_same_res _ _ K)); apply app_one in K; subst r; simpl; auto.
  - destruct (at_ x) as [|f b|f b| | | | |v b|v b|v b|v b|v b|v b|v b|v] eqn:Ea; cbv zeta in E2; try destruct b; try (exfalso; exact (Hsame E2));
    try (destruct (lock c) eqn:EL; [|exfalso; exact (Hsame E2)]); simpl in E2; apply Hput in E2; try congruence; destruct E2 as [-> ->]; rewrite E in Eu; injection Eu as ->; simpl in K;
      try (exfalso; symmetry in K; exact (upd_same_res _ _ K)); apply app_one in K; subst r; simpl; split; auto; congruence.
Qed.
Lemma returns_equal c e t v : ends_with c e t (Reached v) -> value c = v.
Proof. intros H. pose proof H as (th & _ & E & _). apply (ends_justified _ _ _ _ _ E H). Qed.
Lemma would_wait_unequal c e t v : ends_with c e t (WouldWait v) -> value c <> v.
Proof. intros H. pose proof H as (th & _ & E & _). apply (ends_justified _ _ _ _ _ E H). Qed.

(** ** no deadlock *)
Lemma turn_moves c t th : nth_error (athreads c) t = Some th -> (forall th', nth_error (athreads (astep c (Turn t))) t = Some th' -> at_ th' <> at_ th) -> astep c (Turn t) <> c.
Proof. intros E H K. rewrite K in H. exact (H th E eq_refl). Qed.
Lemma put_moves c t th v m l th' : nth_error (athreads c) t = Some th -> at_ th' <> at_ th -> mk_anumber v m l (upd (athreads c) t th') <> c.
Proof.
  intros E N K. apply N. assert (nth_error (athreads (mk_anumber v m l (upd (athreads c) t th'))) t = Some th) as X by (rewrite K; auto).
  simpl in X. rewrite nth_error_upd_eq in X by (eapply nth_lt; eauto). congruence.
Qed.
Lemma notify_moves c t th : nth_error (athreads c) t = Some th -> at_ th = Notifying -> aturn c t <> c.
Proof.
  intros E Ea K. assert (nth_error (athreads (aturn c t)) t = Some th) as X by (rewrite K; auto).
  unfold aturn in X. rewrite E, Ea in X. simpl in X. rewrite nth_error_upd_eq in X by (rewrite map_length; eapply nth_lt; eauto). injection X as X. rewrite <- X in Ea. discriminate.
Qed.
Lemma no_deadlock_inv c : LInv c -> (exists th, In th (athreads c) /\ ~ over th /\ ~ asleep th) -> exists t, astep c (Turn t) <> c.
Proof.
  intros [HM HL] (th & Hin & Hov & Hsl). simpl.
  destruct (lock c) as [u|] eqn:EL.
  { destruct (proj1 (HL u) eq_refl) as (x & Ex & Kx). exists u. destruct (at_ x) eqn:Ea; try discriminate; try (eapply notify_moves; eauto; fail); unfold aturn; rewrite Ex, Ea; eapply put_moves; eauto; rewrite Ea; discriminate. }
  destruct (monitor c) as [u|] eqn:EM.
  { destruct (proj1 (HM u) eq_refl) as (x & Ex & Kx). exists u. destruct (at_ x) eqn:Ea; try discriminate; try (eapply notify_moves; eauto; fail); unfold aturn; rewrite Ex, Ea, ?EL; eapply put_moves; eauto; rewrite Ea; try discriminate.
    destruct noisy; discriminate. }
  apply In_nth_error in Hin. destruct Hin as (t & E). exists t. unfold aturn. rewrite E, ?EM, ?EL. unfold over, asleep in *.
  destruct (at_ th) eqn:Ea; try (exfalso; auto; fail).
  1: destruct (todo th) as [|[f b|v b] rest] eqn:Et; [exfalso; auto| |]; eapply put_moves; eauto; rewrite Ea; discriminate.
  all: try (destruct (Z.eqb (value c) v)); try (eapply put_moves; eauto; rewrite Ea; try destruct noisy; try destruct timed; discriminate).
  pose proof (notify_moves c t th E Ea) as K. unfold aturn in K. rewrite E, Ea, ?EM, ?EL in K. exact K.
Qed.
Lemma no_deadlock v programs es : (exists th, In th (athreads (aexec (astart v programs) es)) /\ ~ over th /\ ~ asleep th) ->
  exists t, astep (aexec (astart v programs) es) (Turn t) <> aexec (astart v programs) es.
Proof. apply no_deadlock_inv. apply LInv_exec, LInv_start. Qed.

(** ** nobody sleeps through its value, when undisturbed *)
Definition pending (th : athread) : bool := match at_ th with AtLock | Notifying => true | _ => false end.
Definition noisy_th (th : athread) : Prop := Forall noisy_op (todo th) /\ match at_ th with AtMonitor _ b | Inside _ b => b = true | _ => True end.
Definition fits (x : Z) (pend : Prop) (th : athread) : Prop :=
  match at_ th with ToLock v _ | ToSleep v _ => x <> v | Asleep v _ => x <> v \/ pend | _ => True end.
Definition pends (ths : list athread) : Prop := exists th, In th ths /\ pending th = true.
Definition UInv (c : anumber) : Prop := Forall noisy_th (athreads c) /\ Forall (fits (value c) (pends (athreads c))) (athreads c).
Lemma pends_upd ths t th th' : nth_error ths t = Some th -> (pending th = true -> pending th' = true) -> pends ths -> pends (upd ths t th').
Proof.
  intros E H (x & Hx & Kx). apply In_nth_error in Hx. destruct Hx as (u & Eu). destruct (Nat.eq_dec u t) as [->|N].
  - rewrite E in Eu. injection Eu as ->. exists th'. split; auto. eapply nth_error_In. apply nth_error_upd_eq. eapply nth_lt; eauto.
  - exists x. split; auto. eapply nth_error_In. rewrite nth_error_upd_neq; eauto.
Qed.
Lemma fits_mono x (p q : Prop) th : (p -> q) -> fits x p th -> fits x q th.
Proof. intros H. unfold fits. destruct (at_ th); tauto. Qed.
Lemma UInv_put c t th th' m l : UInv c -> nth_error (athreads c) t = Some th -> (pending th = true -> pending th' = true) -> noisy_th th' ->
  fits (value c) (pends (athreads c)) th' -> UInv (mk_anumber (value c) m l (upd (athreads c) t th')).
Proof.
  intros [H1 H2] E Hp Hn Hf. split; simpl.
  - apply Forall_upd; auto.
  - apply Forall_upd; [|eapply fits_mono; [|exact Hf]; eapply pends_upd; eauto].
    eapply Forall_impl; [|exact H2]. intros a. apply fits_mono. eapply pends_upd; eauto.
Qed.
Lemma UInv_step c e : UInv c ->
  (forall t th, e = Turn t -> nth_error (athreads c) t = Some th -> storing th -> Forall (fun th' => ~ between th') (athreads c)) -> UInv (astep c e).
Proof.
  intros HI Hq. pose proof HI as [H1 H2].
  destruct e as [t|t]; simpl; unfold aturn, aexpire; destruct (nth_error (athreads c) t) as [th|] eqn:E; auto; pose proof (Forall_nth _ _ _ _ H1 E) as [N1 N2]; pose proof (Forall_nth _ _ _ _ H2 E) as F.
  - destruct (at_ th) as [|f b|f b| | | | |v b|v b|v b|v b|v b|v b|v b|v] eqn:Ea; cbv zeta.
    + destruct (todo th) as [|[f b|v b] rest] eqn:Et; auto; inversion N1; subst; eapply UInv_put; eauto; unfold pending, noisy_th, fits; simpl; rewrite ?Ea; auto; discriminate.
    + destruct (monitor c); auto. eapply UInv_put; eauto; unfold pending, noisy_th, fits; simpl; rewrite ?Ea; auto; discriminate.
    + (* the store *)
      subst b. assert (storing th) as Hs by (unfold storing; rewrite Ea; exact I). specialize (Hq t th eq_refl E Hs). split; simpl.
      * apply Forall_upd; auto. split; simpl; auto.
      * apply Forall_upd; [|exact I]. apply Forall_forall. intros x Hx. rewrite Forall_forall in Hq. specialize (Hq x Hx). unfold between, fits in *. destruct (at_ x); auto; try tauto.
        right. exists (goto th AtLock). split; auto. eapply nth_error_In. apply nth_error_upd_eq. eapply nth_lt; eauto.
    + destruct (lock c); auto. eapply UInv_put; eauto; unfold pending, noisy_th, fits; simpl; rewrite ?Ea; auto.
    + (* the notification *)
      split; simpl.
      * apply Forall_upd; [|split; simpl; auto]. apply Forall_map. eapply Forall_impl; [|exact H1]. intros [td p r] [A1 A2]. split; destruct p; simpl in *; auto.
      * apply Forall_upd; [|exact I]. apply Forall_map. eapply Forall_impl; [|exact H2]. intros [td p r] A. unfold fits in *. destruct p; simpl in *; auto.
    + eapply UInv_put; eauto; unfold pending, noisy_th, fits; simpl; rewrite ?Ea; auto; discriminate.
    + eapply UInv_put; eauto; unfold pending, noisy_th, fits; simpl; rewrite ?Ea; auto; discriminate.
    + eapply UInv_put; eauto; unfold pending, noisy_th, fits; simpl; rewrite ?Ea; auto; discriminate.
    + destruct (monitor c); auto. destruct (Z.eqb (value c) v) eqn:Ez; [apply Z.eqb_eq in Ez|apply Z.eqb_neq in Ez]; [destruct b|]; (eapply UInv_put; eauto; unfold pending, noisy_th, fits; simpl; rewrite ?Ea; auto; discriminate).
    + unfold fits in F. rewrite Ea in F. destruct (lock c); auto. eapply UInv_put; eauto; unfold pending, noisy_th, fits; simpl; rewrite ?Ea; auto; discriminate.
    + unfold fits in F. rewrite Ea in F. eapply UInv_put; eauto; unfold pending, noisy_th, fits; simpl; rewrite ?Ea; auto; discriminate.
    + auto.
    + destruct (lock c); auto. eapply UInv_put; eauto; unfold pending, noisy_th, fits; simpl; rewrite ?Ea; auto; discriminate.
    + eapply UInv_put; eauto; unfold pending, noisy_th, fits; simpl; rewrite ?Ea; auto; discriminate.
    + destruct (monitor c); auto. eapply UInv_put; eauto; unfold pending, noisy_th, fits; simpl; rewrite ?Ea; auto; discriminate.
  - destruct (at_ th) as [|f b|f b| | | | |v b|v b|v b|v b|v b|v b|v b|v] eqn:Ea; cbv zeta; auto; destruct b; auto; try (destruct (lock c); auto);
    eapply UInv_put; eauto; unfold pending, noisy_th, fits; simpl; rewrite ?Ea; auto; discriminate.
Qed.
Lemma UInv_exec es : forall c, UInv c -> undisturbed c es -> UInv (aexec c es).
Proof. induction es as [|e es IH]; simpl; auto. intros c H [K1 K2]. apply IH; auto. apply UInv_step; auto. Qed.
Lemma UInv_start v programs : Forall (Forall noisy_op) programs -> UInv (astart v programs).
Proof.
  intros H. split; simpl; apply Forall_map; [|apply Forall_forall; intros; exact I].
  eapply Forall_impl; [|exact H]. intros p Hp. split; simpl; auto.
Qed.
Lemma nobody_oversleeps_inv c : UInv c -> Forall (fun th => ~ changing th) (athreads c) -> Forall (fun th => waiting_for (value c) th -> ~ asleep th /\ ~ between th) (athreads c).
Proof.
  intros [H1 H2] Hc. apply Forall_forall. intros th Hth W. rewrite Forall_forall in H2. specialize (H2 th Hth). unfold fits, waiting_for, asleep, between in *.
  destruct (at_ th); try tauto; subst; try congruence. destruct H2 as [H2|(x & Hx & Kx)]; [congruence|]. exfalso. rewrite Forall_forall in Hc. apply (Hc x Hx). unfold pending, changing in *. destruct (at_ x); try discriminate; exact I.
Qed.
Lemma nobody_oversleeps v programs es : Forall (Forall noisy_op) programs -> undisturbed (astart v programs) es ->
  let c := aexec (astart v programs) es in Forall (fun th => ~ changing th) (athreads c) -> Forall (fun th => waiting_for (value c) th -> ~ asleep th) (athreads c).
Proof.
  intros H1 H2 c Hc. eapply Forall_impl; [|apply nobody_oversleeps_inv; eauto; apply UInv_exec; auto using UInv_start].
  intros th K W. apply K. exact W.
Qed.

(** ** and everybody waiting for the value the number has returns *)
Definition rank (th : athread) : nat :=
  match at_ th with Awake _ _ => 5 | ToUnlock _ _ => 4 | Checking _ _ => 3 | Comparing _ _ => 2 | Final _ => 1 | _ => 0 end.
Definition settled (v : Z) (th : athread) : Prop := over th \/ (todo th = [] /\ waiting_for v th).
Lemma aexec_app a b c : aexec c (a ++ b) = aexec (aexec c a) b.
Proof. revert c. induction a as [|e a IH]; simpl; auto. Qed.
Definition outcome (v : Z) (th : athread) : list aresult := match at_ th with Outside => results th | _ => results th ++ [Reached v] end.
Lemma settle n : forall c v, LInv c -> UInv c -> value c = v -> Forall (settled v) (athreads c) -> sumf rank (athreads c) <= n ->
  exists more, Forall over (athreads (aexec c more)) /\ map results (athreads (aexec c more)) = map (outcome v) (athreads c).
Proof.
  induction n as [n IH] using lt_wf_ind. intros c v HL HU Hv Hs Hn.
  destruct (Forall_Exists_dec (fun th => at_ th = Outside)) with (l := athreads c) as [Ho|Hex].
  { intros th. destruct (at_ th); auto; right; discriminate. }
  { exists []. simpl. split.
    - rewrite Forall_forall in *. intros th Hth. destruct (Hs th Hth) as [K|[K1 K2]]; auto. split; auto.
    - apply map_ext_in. intros th Hth. unfold outcome. rewrite Forall_forall in Ho. rewrite (Ho th Hth). auto. }
  assert (Forall (fun th => ~ changing th) (athreads c)) as Hc.
  { eapply Forall_impl; [|exact Hs]. intros th [[_ K]|[_ K]]; unfold changing, waiting_for in *; destruct (at_ th); try discriminate; tauto. }
  pose proof (nobody_oversleeps_inv c HU Hc) as Hz.
  assert (monitor c = None) as EM.
  { destruct (monitor c) as [u|] eqn:EM; auto. destruct HL as [HM _]. destruct (proj1 (HM u) EM) as (x & Ex & Kx). pose proof (Forall_nth _ _ _ _ Hc Ex) as K. exfalso. apply K. unfold changing. destruct (at_ x); try discriminate; exact I. }
  assert (exists t th p m l, nth_error (athreads c) t = Some th /\ aturn c t = mk_anumber (value c) m l (upd (athreads c) t p) /\ settled v p /\ rank p < rank th /\ outcome v p = outcome v th) as (t & th & p & m & l & E & T & S1 & S2 & S3).
  { destruct (lock c) as [u|] eqn:EL.
    - destruct HL as [_ HL]. destruct (proj1 (HL u) EL) as (x & Ex & Kx). pose proof (Forall_nth _ _ _ _ Hs Ex) as K. pose proof (Forall_nth _ _ _ _ Hz Ex) as Z1. rewrite <- Hv in K.
      destruct K as [[K1 K2]|[K1 K2]]; [rewrite K2 in Kx; discriminate|]. specialize (Z1 K2). unfold waiting_for, between in *. destruct (at_ x) as [|f b|f b| | | | |w b|w b|w b|w b|w b|w b|w b|w] eqn:Ea; try discriminate; try tauto.
      exists u, x, (goto x (Checking w b)), (monitor c), None. unfold aturn. rewrite Ex, Ea. split; [auto|split; [auto|split; [|split]]]; [right; subst w; split; [exact K1|exact Hv]|unfold rank; rewrite Ea; simpl; lia|unfold outcome; rewrite Ea; reflexivity].
    - apply Exists_exists in Hex. destruct Hex as (x & Hx & Kx). apply In_nth_error in Hx. destruct Hx as (u & Ex). pose proof (Forall_nth _ _ _ _ Hs Ex) as K. pose proof (Forall_nth _ _ _ _ Hz Ex) as Z1. rewrite <- Hv in K.
      destruct K as [[K1 K2]|[K1 K2]]; [congruence|]. specialize (Z1 K2). unfold waiting_for, between, asleep in *.
      destruct (at_ x) as [|f b|f b| | | | |w b|w b|w b|w b|w b|w b|w b|w] eqn:Ea; try tauto; subst w.
      + exists u, x, (goto x (Comparing (value c) b)), (monitor c), (lock c). unfold aturn. rewrite Ex, Ea. split; [auto|split; [auto|split; [|split]]]; [right; split; [exact K1|exact Hv]|unfold rank; rewrite Ea; simpl; lia|unfold outcome; rewrite Ea; reflexivity].
      + exists u, x, (if b then goto x (Final (value c)) else finish x (Reached (value c))), None, (lock c). unfold aturn. rewrite Ex, Ea, EM, Z.eqb_refl. split; [auto|split; [auto|]].
        destruct b; (split; [|split]); [right; split; [exact K1|exact Hv]|unfold rank; rewrite Ea; simpl; lia|unfold outcome; rewrite Ea; reflexivity|left; split; auto|unfold rank; rewrite Ea; simpl; lia|unfold outcome; rewrite Ea; simpl; congruence].
      + exists u, x, (goto x (ToUnlock (value c) b)), (monitor c), (Some u). unfold aturn. rewrite Ex, Ea, EL. split; [auto|split; [auto|split; [|split]]]; [right; split; [exact K1|exact Hv]|unfold rank; rewrite Ea; simpl; lia|unfold outcome; rewrite Ea; reflexivity].
      + exists u, x, (goto x (Checking (value c) b)), (monitor c), None. unfold aturn. rewrite Ex, Ea. split; [auto|split; [auto|split; [|split]]]; [right; split; [exact K1|exact Hv]|unfold rank; rewrite Ea; simpl; lia|unfold outcome; rewrite Ea; reflexivity].
      + exists u, x, (finish x (Reached (value c))), None, (lock c). unfold aturn. rewrite Ex, Ea, EM, Z.eqb_refl. split; [auto|split; [auto|split; [|split]]]; [left; split; auto|unfold rank; rewrite Ea; simpl; lia|unfold outcome; rewrite Ea; simpl; congruence]. }
  pose proof (sumf_upd rank _ _ _ p E) as Hsum. pose proof (sumf_le rank _ _ _ E).
  assert (astep c (Turn t) = mk_anumber (value c) m l (upd (athreads c) t p)) as T' by exact T.
  destruct (IH (sumf rank (upd (athreads c) t p)) ltac:(lia) (astep c (Turn t)) v) as (more & M1 & M2).
  - apply LInv_step; auto.
  - apply UInv_step; auto. intros u x Eu Ex Hst. exfalso. injection Eu as <-. pose proof (Forall_nth _ _ _ _ Hc Ex) as K. apply K. unfold storing, changing in *. destruct (at_ x); tauto.
  - rewrite T'. exact Hv.
  - rewrite T'. simpl. apply Forall_upd; auto.
  - rewrite T'. simpl. lia.
  - exists (Turn t :: more). simpl. split; auto. etransitivity; [exact M2|]. rewrite T'. simpl. clear -E S3.
    revert t E. induction (athreads c) as [|a r IHr]; intros [|t] E; simpl in *; try discriminate; [injection E as ->; congruence|f_equal; auto].
Qed.
Lemma waiters_return v programs es : Forall (Forall noisy_op) programs -> undisturbed (astart v programs) es ->
  let c := aexec (astart v programs) es in
  Forall (fun th => over th \/ (todo th = [] /\ waiting_for (value c) th)) (athreads c) ->
  exists more, let d := aexec c more in
    Forall over (athreads d) /\
    forall t th th', nth_error (athreads c) t = Some th -> nth_error (athreads d) t = Some th' -> waiting_for (value c) th -> results th' = results th ++ [Reached (value c)].
Proof.
  intros H1 H2 c Hs. destruct (settle (sumf rank (athreads c)) c (value c)) as (more & M1 & M2); auto.
  - apply LInv_exec, LInv_start.
  - apply UInv_exec; auto using UInv_start.
  - exists more. split; auto. intros t th th' E1 E2 W.
    assert (nth_error (map results (athreads (aexec c more))) t = Some (results th')) as X by (rewrite nth_error_map, E2; auto).
    rewrite M2, nth_error_map, E1 in X. simpl in X. injection X as X. rewrite <- X. unfold outcome, waiting_for in *. destruct (at_ th); tauto.
Qed.

(** ** without a timeout *)
Definition quiet_result (r : aresult) : Prop := match r with Changed | Reached _ => True | _ => False end.
Definition untimed_th (th : athread) : Prop :=
  Forall untimed (todo th) /\ Forall quiet_result (results th) /\
  match at_ th with Checking _ b | Comparing _ b | ToLock _ b | ToSleep _ b | Asleep _ b | Awake _ b | ToUnlock _ b => b = false | Final _ => False | _ => True end.
Lemma untimed_step c e : Forall untimed_th (athreads c) -> Forall untimed_th (athreads (astep c e)).
Proof.
  intros H. assert (forall l r, Forall quiet_result l -> quiet_result r -> Forall quiet_result (l ++ [r])) as Ha by (intros; apply Forall_app; auto).
  destruct e as [t|t]; simpl; unfold aturn, aexpire; destruct (nth_error (athreads c) t) as [th|] eqn:E; auto; pose proof (Forall_nth _ _ _ _ H E) as (N1 & N2 & N3).
  - destruct (at_ th) as [|f b|f b| | | | |v b|v b|v b|v b|v b|v b|v b|v] eqn:Ea; cbv zeta; try tauto; try subst b.
    1: destruct (todo th) as [|[f b|v b] rest] eqn:Et; auto; inversion N1; subst; simpl; apply Forall_upd; auto; repeat split; simpl; auto.
    4: { simpl. apply Forall_upd; [|repeat split; simpl; auto]. apply Forall_map. eapply Forall_impl; [|exact H]. intros [td p r] (A1 & A2 & A3). repeat split; destruct p; simpl in *; auto. }
    all: repeat match goal with |- context [match monitor ?c with _ => _ end] => destruct (monitor c)
           | |- context [match lock ?c with _ => _ end] => destruct (lock c)
           | |- context [if Z.eqb ?a ?b then _ else _] => destruct (Z.eqb a b) end; auto; simpl; apply Forall_upd; auto; repeat split; simpl; auto; try (apply Ha; simpl; auto).
    destruct b; auto.
  - destruct (at_ th) as [|f b|f b| | | | |v b|v b|v b|v b|v b|v b|v b|v] eqn:Ea; cbv zeta; try tauto; try subst b; auto.
Qed.
Lemma untimed_quiet v programs es t th : Forall (Forall untimed) programs -> nth_error (athreads (aexec (astart v programs) es)) t = Some th ->
  forall w, ~ In (WouldWait w) (results th) /\ ~ In (CondLocked w) (results th).
Proof.
  intros H E w. assert (Forall untimed_th (athreads (aexec (astart v programs) es))) as K.
  { assert (Forall untimed_th (athreads (astart v programs))) as K0 by (simpl; apply Forall_map; eapply Forall_impl; [|exact H]; intros p Hp; repeat split; simpl; auto).
    clear E. revert K0. generalize (astart v programs). induction es as [|e es IH]; simpl; auto. intros a Ka. apply IH. apply untimed_step. auto. }
  destruct (Forall_nth _ _ _ _ K E) as (_ & K2 & _). rewrite Forall_forall in K2. split; intros X; exact (K2 _ X).
Qed.
