From Verif Require Import Prelude PreludeFacts MoreFacts Closeable_Model Closeable_Spec.

Lemma needs_app : forall h p b, needs (h ++ [p]) b = needs [p] (needs h b).
Proof. induction h as [|x h IH]; intros; [reflexivity|]. destruct x; simpl; apply IH. Qed.

Lemma run_app : forall h g o, run o (h ++ g) = let (o1, xs) := run o h in let (o2, ys) := run o1 g in (o2, xs ++ ys).
Proof.
  induction h as [|p h IH]; intros; simpl.
  - destruct (run o g); reflexivity.
  - destruct (step o p) as [o1 x]. rewrite IH. destruct (run o1 h) as [o2 xs]. destruct (run o2 g); reflexivity.
Qed.

Lemma step_spec : forall o p b, closed o = negb b ->
  snd (step o p) = answer b p /\ closed (fst (step o p)) = negb (needs [p] b) /\
  cleanups (fst (step o p)) = cleanups o + (if (closing p && b)%bool then 1 else 0).
Proof.
  intros [f n] p b H. destruct b, f as [[|]|]; simpl in H; try discriminate; destruct p; simpl; repeat split; auto; lia.
Qed.

Lemma state_spec : forall h o b, closed o = negb b -> closed (fst (run o h)) = negb (needs h b).
Proof.
  induction h as [|p h IH]; intros o b H; [exact H|]. simpl.
  destruct (step_spec o p b H) as (_ & C & _). destruct (step o p) as [o1 x]. cbn [fst] in C.
  specialize (IH o1 _ C). destruct (run o1 h). cbn [fst] in *. rewrite IH. destruct p; reflexivity.
Qed.

Lemma answers : forall h p, exists xs, snd (run fresh (h ++ [p])) = xs ++ [answer (needs h false) p] /\
  cleanups (fst (run fresh (h ++ [p]))) = cleanups (fst (run fresh h)) + (if (closing p && needs h false)%bool then 1 else 0).
Proof.
  intros. pose proof (state_spec h fresh false eq_refl) as C. rewrite run_app. destruct (run fresh h) as [o1 xs]. cbn [fst] in *.
  destruct (step_spec o1 p _ C) as (A & _ & N). cbn [run]. destruct (step o1 p) as [o2 x]. cbn [fst snd] in *. exists xs. rewrite A. auto.
Qed.

Lemma cleanups_after : forall h o b, closed o = negb b -> (forall p, In p h -> p <> Init) ->
  cleanups (fst (run o h)) = cleanups o + (if (b && existsb closing h)%bool then 1 else 0).
Proof.
  induction h as [|p h IH]; intros o b H NI.
  - simpl. rewrite Bool.andb_false_r. lia.
  - simpl. destruct (step_spec o p b H) as (_ & C & N). destruct (step o p) as [o1 x]. cbn [fst] in *.
    specialize (IH o1 _ C (fun q I => NI q (or_intror I))). destruct (run o1 h). cbn [fst] in *. rewrite IH, N.
    assert (p <> Init) by (apply NI; left; auto). destruct p; simpl; try congruence; destruct b; simpl; try lia; destruct (existsb closing h); simpl; lia.
Qed.

Lemma exactly_once : forall h1 h2, (forall p, In p h1 -> p <> Init) -> (forall p, In p h2 -> p <> Init) ->
  cleanups (fst (run fresh (h1 ++ Init :: h2))) = if existsb closing h2 then 1 else 0.
Proof.
  intros h1 h2 N1 N2. rewrite run_app. pose proof (cleanups_after h1 fresh false eq_refl N1) as E. destruct (run fresh h1) as [o xs].
  cbn [fst] in *. cbn [run step]. pose proof (cleanups_after h2 (mk_obj (Some false) (cleanups o)) true eq_refl N2) as E2.
  destruct (run (mk_obj (Some false) (cleanups o)) h2). cbn [fst] in *. rewrite E2. cbn [cleanups]. rewrite E. simpl. reflexivity.
Qed.

(** * Threads *)
Lemma upd_same : forall (l : list place) t p q, nth_error l t = Some p -> nth_error (upd l t q) t = Some q.
Proof. intros. apply nth_error_upd_eq. apply nth_error_Some. congruence. Qed.

(** nobody marked it yet: those who looked are [seen] *)
Definition first (n : nat) (seen : list nat) (s : sys) : Prop := flag s = false /\ length (at_ s) = n /\
  forall t p, nth_error (at_ s) t = Some p -> p = if memb Nat.eqb t seen then Marking true else Starting.
Definition winner (p : place) : bool := match p with Marking v => v | Cleaning => true | Finished v => v | Starting => false end.
(** it is marked *)
Definition second (n : nat) (won : list nat) (s : sys) : Prop := flag s = true /\ length (at_ s) = n /\
  forall t p, nth_error (at_ s) t = Some p -> winner p = memb Nat.eqb t won.

Lemma second_step : forall n won s t, second n won s -> second n won (tstep s t).
Proof.
  intros n won s t (F & L & A). unfold tstep. destruct (nth_error (at_ s) t) as [p|] eqn:E; [|repeat split; auto].
  destruct (turn (flag s) p) as [f p'] eqn:T. pose proof (A _ _ E) as W.
  assert (winner p' = winner p /\ f = true) as [W' ->]. { destruct p; simpl in T; injection T as <- <-; rewrite ?F; simpl; auto. destruct v; auto. }
  split; [reflexivity|]. split; [cbn [at_]; rewrite upd_length; auto|]. cbn [at_]. intros u q H. destruct (Nat.eq_dec t u) as [<-|N].
  - rewrite (upd_same _ _ _ _ E) in H. injection H as <-. congruence.
  - rewrite nth_error_upd_neq in H by auto. eauto.
Qed.
Lemma second_exec : forall n won es s, second n won s -> second n won (exec s es).
Proof. induction es as [|t es IH]; intros s H; [exact H|]. apply IH, second_step, H. Qed.

Lemma first_unknown : forall n seen s t, first n seen s -> n <= t -> tstep s t = s.
Proof. intros n seen s t (_ & L & _) H. unfold tstep. rewrite (proj2 (nth_error_None (at_ s) t)) by lia. reflexivity. Qed.

Lemma memb_app1 : forall t u seen, memb Nat.eqb t (seen ++ [u]) = (memb Nat.eqb t seen || Nat.eqb u t)%bool.
Proof. induction seen as [|x l IH]; simpl; [destruct (Nat.eqb u t); auto|]. destruct (Nat.eqb x t); auto. Qed.

Lemma first_exec : forall n es seen s, (forall t, In t es -> t < n) -> first n seen s ->
  first n (early seen es) (exec s es) \/ second n (early seen es) (exec s es).
Proof.
  induction es as [|t es IH]; intros seen s B H; [left; exact H|]. cbn [early exec fold_left].
  destruct H as (F & L & A). assert (T : t < n) by (apply B; left; auto).
  destruct (nth_error (at_ s) t) as [p|] eqn:E. 2:{ apply nth_error_None in E. lia. }
  pose proof (A _ _ E) as P. destruct (memb Nat.eqb t seen) eqn:M.
  - right. apply second_exec. unfold tstep. rewrite E, P. simpl. split; [reflexivity|]. split; [cbn [at_]; rewrite upd_length; auto|]. cbn [at_].
    intros u q H. destruct (Nat.eq_dec t u) as [<-|N].
    + rewrite (upd_same _ _ _ _ E) in H. injection H as <-. simpl. auto.
    + rewrite nth_error_upd_neq in H by auto. rewrite (A _ _ H). destruct (memb Nat.eqb u seen); reflexivity.
  - apply IH; [intros; apply B; right; auto|]. unfold tstep. rewrite E, P, F. simpl. split; [reflexivity|]. split; [cbn [at_]; rewrite upd_length; auto|]. cbn [at_].
    intros u q H. rewrite memb_app1. destruct (Nat.eq_dec t u) as [<-|N].
    + rewrite (upd_same _ _ _ _ E) in H. injection H as <-. rewrite M, Nat.eqb_refl. reflexivity.
    + rewrite nth_error_upd_neq in H by auto. rewrite (A _ _ H). rewrite (proj2 (Nat.eqb_neq t u)) by auto. rewrite Bool.orb_false_r. reflexivity.
Qed.

Lemma first_start : forall n, first n [] (start n).
Proof. intros n. repeat split; [apply repeat_length|]. intros t p H. simpl in *. apply nth_error_In in H. apply repeat_spec in H. auto. Qed.

Lemma cleaners : forall n es, (forall t, In t es -> t < n) -> 0 < n -> all_finished (exec (start n) es) ->
  forall t, t < n -> (cleaned (exec (start n) es) t <-> In t (early [] es)).
Proof.
  intros n es B P AF t T. destruct (first_exec n es [] (start n) B (first_start n)) as [(F & L & A)|(F & L & A)].
  - destruct (nth_error (at_ (exec (start n) es)) 0) as [p|] eqn:E. 2:{ apply nth_error_None in E. lia. }
    destruct (AF _ _ E) as [v ->]. specialize (A _ _ E). destruct (memb Nat.eqb 0 (early [] es)); discriminate.
  - destruct (nth_error (at_ (exec (start n) es)) t) as [p|] eqn:E. 2:{ apply nth_error_None in E. lia. }
    destruct (AF _ _ E) as [v ->]. specialize (A _ _ E). simpl in A. unfold cleaned. rewrite E, A. rewrite <- (memb_In nateqb_ok).
    destruct (memb Nat.eqb t (early [] es)); split; intros; congruence.
Qed.

Lemma early_keeps : forall es seen t, In t seen -> In t (early seen es).
Proof. induction es as [|x es IH]; intros; simpl; auto. destruct (memb Nat.eqb x seen); auto. apply IH, in_app_iff; auto. Qed.
Lemma early_incl : forall es seen t, In t (early seen es) -> In t seen \/ In t es.
Proof.
  induction es as [|x es IH]; intros seen t H; simpl in *; auto. destruct (memb Nat.eqb x seen); auto.
  destruct (IH _ _ H) as [I|I]; auto. apply in_app_iff in I. destruct I as [I|[->|[]]]; auto.
Qed.

Lemma at_least_one : forall n es, (forall t, In t es -> t < n) -> 0 < n -> all_finished (exec (start n) es) ->
  exists t, cleaned (exec (start n) es) t.
Proof.
  intros n es B P AF. destruct es as [|t es].
  - destruct n; [lia|]. destruct (AF 0 Starting eq_refl) as [v E]. discriminate.
  - exists t. apply cleaners; auto. { apply B; left; auto. } simpl. apply early_keeps. left; auto.
Qed.

Lemma early_alone : forall n es seen s, first n seen s -> (forall t, In t es -> t < n) ->
  (forall es1 es2, es = es1 ++ es2 -> forall t u v w,
    nth_error (at_ (exec s es1)) t = Some (Marking v) -> nth_error (at_ (exec s es1)) u = Some (Marking w) -> t = u) ->
  forall t u, t < n -> u < n -> In t (early seen es) -> In u (early seen es) -> t = u.
Proof.
  induction es as [|x es IH]; intros seen s H B AP t u T U I J.
  - simpl in *. destruct H as (F & L & A).
    assert (M : forall y, In y seen -> y < n -> nth_error (at_ s) y = Some (Marking true)).
    { intros y Y Z. destruct (nth_error (at_ s) y) as [p|] eqn:E. 2:{ apply nth_error_None in E. lia. } rewrite (A _ _ E).
      rewrite (proj2 (memb_In nateqb_ok y seen) Y). reflexivity. }
    eapply (AP [] [] eq_refl); simpl; eauto.
  - simpl in I, J. destruct (memb Nat.eqb x seen) eqn:MX.
    + destruct H as (F & L & A).
      assert (M : forall y, In y seen -> y < n -> nth_error (at_ s) y = Some (Marking true)).
      { intros y Y Z. destruct (nth_error (at_ s) y) as [p|] eqn:E. 2:{ apply nth_error_None in E. lia. } rewrite (A _ _ E).
        rewrite (proj2 (memb_In nateqb_ok y seen) Y). reflexivity. }
      eapply (AP [] (x :: es) eq_refl); simpl; eauto.
    + assert (first n (seen ++ [x]) (tstep s x)) as H'.
      { destruct H as (F & L & A). assert (X : x < n) by (apply B; left; auto). destruct (nth_error (at_ s) x) as [p|] eqn:E. 2:{ apply nth_error_None in E. lia. }
        pose proof (A _ _ E) as P. rewrite MX in P. unfold tstep. rewrite E, P, F. simpl. split; [reflexivity|]. split; [cbn [at_]; rewrite upd_length; auto|]. cbn [at_].
        intros y q Q. rewrite memb_app1. destruct (Nat.eq_dec x y) as [<-|N].
        - rewrite (upd_same _ _ _ _ E) in Q. injection Q as <-. rewrite MX, Nat.eqb_refl. reflexivity.
        - rewrite nth_error_upd_neq in Q by auto. rewrite (A _ _ Q). rewrite (proj2 (Nat.eqb_neq x y)) by auto. rewrite Bool.orb_false_r. reflexivity. }
      apply (IH _ _ H'); auto. { intros; apply B; right; auto. }
      intros es1 es2 E. exact (AP (x :: es1) es2 (f_equal (cons x) E)).
Qed.

Lemma apart_once : forall n es, (forall t, In t es -> t < n) -> apart n es -> 
  forall t u, cleaned (exec (start n) es) t -> cleaned (exec (start n) es) u -> t = u.
Proof.
  intros n es B AP t u C D.
  assert (R : forall y, cleaned (exec (start n) es) y -> y < n /\ In y (early [] es)).
  { intros y Y. unfold cleaned in Y. destruct (first_exec n es [] (start n) B (first_start n)) as [(F & L & A)|(F & L & A)].
    - specialize (A _ _ Y). destruct (memb Nat.eqb y (early [] es)); discriminate.
    - split; [rewrite <- L; apply nth_error_Some; congruence|]. apply (memb_In nateqb_ok). symmetry. exact (A _ _ Y). }
  destruct (R t C), (R u D). eapply (early_alone n es [] (start n)); eauto using first_start.
Qed.
