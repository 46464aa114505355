From Coq Require Import ZArith.
From Verif Require Import Prelude PreludeFacts MetrMeasure_Model MetrMeasure_Spec.

Section P.
  Variable V : Type.
  Variable none : V.
  Variable inc : bool.
  Variable gen : nat -> bool.
  Notation step := (step none inc gen).
  Notation exec := (exec none inc gen).

  Lemma set_eq : forall X (f : nat -> X) k x, set f k x k = x.
  Proof. intros. unfold set. rewrite Nat.eqb_refl. auto. Qed.
  Lemma set_neq : forall X (f : nat -> X) k j x, (k =? j) = false -> set f k x j = f j.
  Proof. intros. unfold set. rewrite Nat.eqb_sym, H. auto. Qed.
  Lemma exec_snoc : forall l e, exec (l ++ [e]) = step (exec l) e.
  Proof. intros. unfold MetrMeasure_Model.exec. rewrite fold_left_app. auto. Qed.
  Lemma for_call_app : forall a h k, for_call a (h ++ k) = for_call a h ++ for_call a k.
  Proof. intros. unfold for_call. apply flat_map_app. Qed.
  Lemma for_with_app : forall a h k, for_with a (h ++ k) = for_with a h ++ for_with a k.
  Proof. intros. unfold for_with. apply flat_map_app. Qed.
  Lemma for_future_app : forall a h k, for_future a (h ++ k) = for_future a h ++ for_future a k.
  Proof. intros. unfold for_future. apply flat_map_app. Qed.
  Lemma seen_by_app : forall a (h k : list (nat * ending V)), seen_by a (h ++ k) = seen_by a h ++ seen_by a k.
  Proof. intros. unfold seen_by. apply flat_map_app. Qed.

  (** the state of a call depends on its own events only *)
  Definition call_view (a : nat) (s : state V) := (calls s a, for_call a (handled s), seen_by a (seen s)).
  Definition call_next (a : nat) (v : call_state * list Z * list (ending V)) (e : event V) : call_state * list Z * list (ending V) :=
    let '(c, h, s) := v in
    match e, c with
    | Begin _ now, Not_yet => (Begun now, h, s)
    | End _ o now, Begun t =>
        let (d, r) := if gen a then inner_generator none inc t o now else inner_normal inc t o now in
        (Over, h ++ (match d with Some d => [d] | None => [] end), s ++ [r])
    | _, _ => v
    end.
  Lemma for_call_others : forall a f (nows : nat -> Z) o l, for_call a (map (fun m => (By_future f m, (nows m - o)%Z)) l) = [].
  Proof. induction l; simpl; auto. Qed.
  Lemma call_view_step : forall a s e, call_view a (step s e) = if of_call a e then call_next a (call_view a s) e else call_view a s.
  Proof.
    intros a s e. unfold call_view. destruct e as [b now|b o now|x now|x r now|f m now later|f nows]; simpl.
    - unfold begin_call. destruct (b =? a) eqn:E.
      + apply Nat.eqb_eq in E as ->. destruct (calls s a) eqn:C; simpl; rewrite ?C; auto. rewrite set_eq. auto.
      + destruct (calls s b); simpl; auto. rewrite set_neq; auto.
    - unfold end_call. destruct (b =? a) eqn:E.
      + apply Nat.eqb_eq in E as ->. destruct (calls s a) eqn:C; simpl; rewrite ?C; auto.
        destruct (if gen a then _ else _) as [d r]. simpl. rewrite set_eq, seen_by_app. simpl. rewrite Nat.eqb_refl.
        destruct d; rewrite ?for_call_app, ?app_nil_r; simpl; rewrite ?Nat.eqb_refl; auto.
      + destruct (calls s b) eqn:C; simpl; auto. destruct (if gen b then _ else _) as [d r]. simpl. rewrite set_neq, seen_by_app; auto. simpl. rewrite E, app_nil_r.
        destruct d; rewrite ?for_call_app; simpl; rewrite ?E, ?app_nil_r; auto.
    - auto.
    - unfold exit. destruct (negb inc && r)%bool; simpl; auto. rewrite for_call_app. simpl. rewrite app_nil_r. auto.
    - unfold measure_future. destruct (fut_done (futs s f)); simpl; auto. rewrite for_call_app. simpl. rewrite app_nil_r. auto.
    - unfold complete. destruct (fut_done (futs s f)); simpl; auto. rewrite for_call_app, for_call_others, app_nil_r. auto.
  Qed.
  Lemma call_view_exec : forall a l, call_view a (exec l) = fold_left (call_next a) (filter (of_call a) l) (Not_yet, [], []).
  Proof.
    intros a l. induction l as [|e l IH] using rev_ind; [reflexivity|]. rewrite exec_snoc, call_view_step, filter_app, fold_left_app, <- IH. simpl.
    destruct (of_call a e); reflexivity.
  Qed.
  Lemma calls_measured : forall l a m, call_measured inc (filter (of_call a) l) m ->
    (inc = true \/ forall t0 e t1, filter (of_call a) l <> [Begin a t0; End a (Aborted e) t1]) -> for_call a (handled (exec l)) = m.
  Proof.
    intros l a m H N. pose proof (call_view_exec a l) as E. unfold call_view in E.
    assert (B : forall e, In e (filter (of_call a) l) -> of_call a e = true) by (intros e I; apply filter_In in I; tauto).
    remember (filter (of_call a) l) as es eqn:F. clear F. destruct H as [|b t0|b t0 o t1 R|b t0 o t1 R]; simpl in E; try (injection E; auto; fail).
    - destruct o as [v|e|e], inc; simpl in *; try discriminate; destruct (gen a); injection E; auto.
    - pose proof (B _ (or_introl eq_refl)) as X. simpl in X. apply Nat.eqb_eq in X as ->.
      pose proof (B _ (or_intror (or_introl eq_refl))) as X. destruct o as [v|e|e], inc; simpl in *; try discriminate; [destruct (gen a); injection E; auto|].
      destruct N as [N|N]; [discriminate|]. exfalso. eapply N. reflexivity.
  Qed.
  Lemma calls_seen : forall l a t0 o t1, filter (of_call a) l = [Begin a t0; End a o t1] ->
    seen_by a (seen (exec l)) = [match o with Returned v => if gen a then Returned none else Returned v | _ => o end].
  Proof.
    intros l a t0 o t1 F. pose proof (call_view_exec a l) as E. unfold call_view in E. rewrite F in E. simpl in E.
    destruct o as [v|e|e]; destruct (gen a), inc; simpl in *; injection E; auto.
  Qed.
  Lemma aborted_measured : forall l a t0 e t1, filter (of_call a) l = [Begin a t0; End a (Aborted e) t1] -> for_call a (handled (exec l)) = [(t1 - t0)%Z].
  Proof.
    intros l a t0 e t1 F. pose proof (call_view_exec a l) as E. unfold call_view in E. rewrite F in E. simpl in E. destruct (gen a); simpl in E; injection E; auto.
  Qed.

  (** context managers *)
  Definition with_view (x : nat) (s : state V) := (values s x, for_with x (handled s)).
  Definition with_next (v : Z * list Z) (e : event V) : Z * list Z :=
    match e with
    | Enter _ now => (now, snd v)
    | Exit _ r now => if (negb inc && r)%bool then v else (fst v, snd v ++ [(now - fst v)%Z])
    | _ => v
    end.
  Lemma for_with_others : forall a f (nows : nat -> Z) o l, for_with a (map (fun m => (By_future f m, (nows m - o)%Z)) l) = [].
  Proof. induction l; simpl; auto. Qed.
  Lemma with_view_step : forall x s e, with_view x (step s e) = if of_with x e then with_next (with_view x s) e else with_view x s.
  Proof.
    intros x s e. unfold with_view. destruct e as [b now|b o now|y now|y r now|f m now later|f nows]; simpl.
    - unfold begin_call. destruct (calls s b); auto.
    - unfold end_call. destruct (calls s b); auto. destruct (if gen b then _ else _) as [d r]. simpl. destruct d; rewrite ?for_with_app; simpl; rewrite ?app_nil_r; auto.
    - destruct (y =? x) eqn:E; [apply Nat.eqb_eq in E as ->; rewrite set_eq; auto|rewrite set_neq; auto].
    - unfold exit. destruct (negb inc && r)%bool eqn:R; simpl; [destruct (y =? x); auto|]. rewrite for_with_app. simpl. destruct (y =? x) eqn:E; simpl; rewrite ?app_nil_r; auto.
      apply Nat.eqb_eq in E as ->. auto.
    - unfold measure_future. destruct (fut_done (futs s f)); simpl; auto. rewrite for_with_app. simpl. rewrite app_nil_r. auto.
    - unfold complete. destruct (fut_done (futs s f)); simpl; auto. rewrite for_with_app, for_with_others, app_nil_r. auto.
  Qed.
  Lemma with_view_exec : forall x l, with_view x (exec l) = fold_left with_next (filter (of_with x) l) (0%Z, []).
  Proof.
    intros x l. induction l as [|e l IH] using rev_ind; [reflexivity|]. rewrite exec_snoc, with_view_step, filter_app, fold_left_app, <- IH. simpl.
    destruct (of_with x e); reflexivity.
  Qed.
  Lemma with_fold : forall es m, with_measured inc es m -> forall v h, snd (fold_left with_next es (v, h)) = h ++ m.
  Proof.
    induction 1 as [|x t0|x t0 r t1 l m H IH]; intros v h; simpl; rewrite ?app_nil_r; auto. destruct inc, r; simpl; rewrite IH, <- ?app_assoc; auto.
  Qed.
  Lemma withs_measured : forall l x m, with_measured inc (filter (of_with x) l) m -> for_with x (handled (exec l)) = m.
  Proof.
    intros l x m H. pose proof (with_view_exec x l) as E. pose proof (with_fold _ _ H 0%Z []) as F. rewrite <- E in F. exact F.
  Qed.

  (** futures *)
  Definition fut_view (f : nat) (s : state V) := (futs s f, for_future f (handled s)).
  Definition fut_next (v : fut * list (nat * Z)) (e : event V) : fut * list (nat * Z) :=
    let (x, h) := v in
    match e with
    | Measure _ m now later => if fut_done x then (mk_fut now (callbacks x) true, h ++ [(m, later - now)%Z]) else (mk_fut now (callbacks x ++ [m]) false, h)
    | Complete _ nows => if fut_done x then v else (mk_fut (old_value x) (callbacks x) true, h ++ map (fun m => (m, nows m - old_value x)%Z) (callbacks x))
    | _ => v
    end.
  Lemma for_future_map : forall f g (nows : nat -> Z) o l, for_future f (map (fun m => (By_future g m, (nows m - o)%Z)) l) = if g =? f then map (fun m => (m, (nows m - o)%Z)) l else [].
  Proof. intros. induction l as [|m l IH]; simpl; [destruct (g =? f); auto|]. rewrite IH. destruct (g =? f); auto. Qed.
  Lemma fut_view_step : forall f s e, fut_view f (step s e) = if of_future f e then fut_next (fut_view f s) e else fut_view f s.
  Proof.
    intros f s e. unfold fut_view. destruct e as [b now|b o now|y now|y r now|g m now later|g nows]; simpl.
    - unfold begin_call. destruct (calls s b); auto.
    - unfold end_call. destruct (calls s b); auto. destruct (if gen b then _ else _) as [d r]. simpl. destruct d; rewrite ?for_future_app; simpl; rewrite ?app_nil_r; auto.
    - auto.
    - unfold exit. destruct (negb inc && r)%bool eqn:R; simpl; auto. rewrite for_future_app. simpl. rewrite app_nil_r. auto.
    - unfold measure_future. destruct (g =? f) eqn:E.
      + apply Nat.eqb_eq in E as ->. destruct (fut_done (futs s f)); simpl; rewrite set_eq; auto. rewrite for_future_app. simpl. rewrite Nat.eqb_refl. auto.
      + destruct (fut_done (futs s g)); simpl; rewrite set_neq; auto. rewrite for_future_app. simpl. rewrite E, app_nil_r. auto.
    - unfold complete. destruct (g =? f) eqn:E.
      + apply Nat.eqb_eq in E as ->. destruct (fut_done (futs s f)); simpl; auto. rewrite set_eq, for_future_app, for_future_map, Nat.eqb_refl. auto.
      + destruct (fut_done (futs s g)); simpl; auto. rewrite set_neq, for_future_app, for_future_map, E, app_nil_r; auto.
  Qed.
  Lemma fut_view_exec : forall f l, fut_view f (exec l) = fold_left fut_next (filter (of_future f) l) (mk_fut 0%Z [] false, []).
  Proof.
    intros f l. induction l as [|e l IH] using rev_ind; [reflexivity|]. rewrite exec_snoc, fut_view_step, filter_app, fold_left_app, <- IH. simpl.
    destruct (of_future f e); reflexivity.
  Qed.
  Lemma futures_measured : forall l f m, future_measured (filter (of_future f) l) m -> for_future f (handled (exec l)) = m.
  Proof.
    intros l f m H. pose proof (fut_view_exec f l) as E. unfold fut_view in E. apply (f_equal snd) in E. cbn [snd] in E. rewrite E. clear E.
    destruct H; reflexivity.
  Qed.
End P.

Definition call_events : list (event nat) := [Begin 0 10%Z; End 0 (Aborted SystemExitExn) 15%Z].
Lemma call_refuted : ~ (forall (V : Type) (none : V) inc gen (l : list (event V)) a m,
  call_measured inc (filter (of_call a) l) m -> for_call a (handled (exec none inc gen l)) = m).
Proof. intros H. specialize (H nat 0 false (fun _ => false) call_events 0 [] (over_excluded false 0 10%Z (Aborted SystemExitExn) 15%Z eq_refl)). discriminate. Qed.
Lemma seen_refuted : ~ (forall (V : Type) (none : V) inc gen (l : list (event V)) a t0 o t1,
  filter (of_call a) l = [Begin a t0; End a o t1] -> seen_by a (seen (exec none inc gen l)) = [o]).
Proof. intros H. specialize (H nat 0 true (fun _ => true) [Begin 0 1%Z; End 0 (Returned 7) 2%Z] 0 1%Z (Returned 7) 2%Z eq_refl). discriminate. Qed.
Lemma nested_refuted : ~ (forall (V : Type) (none : V) inc gen x t0 t1 t2 t3,
  for_with x (handled (exec none inc gen [Enter x t0; Enter x t1; Exit x false t2; Exit x false t3])) = [(t2 - t1)%Z; (t3 - t0)%Z]).
Proof. intros H. specialize (H nat 0 true (fun _ => true) 0 10%Z 20%Z 30%Z 40%Z). discriminate. Qed.
Lemma twice_refuted : ~ (forall (V : Type) (none : V) inc gen f m1 t1 m2 t2 later nows,
  for_future f (handled (exec none inc gen [Measure f m1 t1 later; Measure f m2 t2 later; Complete f nows])) = [(m1, nows m1 - t1)%Z; (m2, nows m2 - t2)%Z]).
Proof. intros H. specialize (H nat 0 true (fun _ => true) 0 1 10%Z 2 20%Z 0%Z (fun _ => 50%Z)). discriminate. Qed.
