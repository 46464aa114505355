(** Proofs about the memory pressure manager. *)
From Coq Require Import QArith Lia Lqa.
From Verif Require Import Prelude PreludeFacts MoreFacts Pressure_Model Pressure_Spec.
Local Open Scope nat_scope.

(** * Conditions *)
Lemma condition_rect' : forall P : condition -> Prop,
  P ZerothSeverity -> (forall f, P (CustomCondition f)) -> (forall v, P (GlobalAbsoluteValue v)) -> (forall v, P (GlobalRelativeValue v)) ->
  (forall v, P (LocalAbsoluteValue v)) -> (forall v, P (LocalRelativeValue v)) ->
  (forall l, Forall P l -> P (AnyOf l)) -> (forall l, Forall P l -> P (AllOf l)) -> (forall c, P c -> P (NotOf c)) -> forall c, P c.
Proof.
  intros P H1 H2 H3 H4 H5 H6 H7 H8 H9. fix IH 1. intros [|f|v|v|v|v|l|l|c]; [exact H1|apply H2|apply H3|apply H4|apply H5|apply H6| | |apply H9, IH].
  - apply H7. induction l as [|x l IHl]; constructor; [apply IH|exact IHl].
  - apply H8. induction l as [|x l IHl]; constructor; [apply IH|exact IHl].
Qed.
Lemma Qlt_bool_true : forall a b, Qlt_bool a b = true <-> (a < b)%Q.
Proof.
  intros a b. unfold Qlt_bool. rewrite negb_true_iff. split.
  - intros H. apply Qnot_le_lt. intros K. apply Qle_bool_iff in K. congruence.
  - intros H. destruct (Qle_bool b a) eqn:E; auto. apply Qle_bool_iff in E. apply Qlt_not_le in H. contradiction.
Qed.
Lemma inject_pos : forall x, (0 < x)%Z -> (0 < inject_Z x)%Q.
Proof. intros x H. unfold Qlt; simpl. lia. Qed.
Lemma div_lt : forall a b c, (0 < b)%Q -> ((a / b < c)%Q <-> (a < c * b)%Q).
Proof.
  intros a b c B. split; intros H.
  - setoid_replace a with (a / b * b)%Q by (field; intros K; rewrite K in B; discriminate). apply Qmult_lt_compat_r; auto.
  - apply Qlt_shift_div_r; auto.
Qed.
Lemma reduce_or : forall A (f : A -> res bool) l acc b, reduce orb f acc l = Ok b ->
  b = orb acc (existsb (fun x => match f x with Ok true => true | _ => false end) l) /\ Forall (fun x => exists b, f x = Ok b) l.
Proof.
  intros A f. induction l as [|x l IH]; simpl; intros acc b H.
  - inversion H. rewrite orb_false_r. auto.
  - destruct (f x) as [y|e] eqn:E; [|discriminate]. destruct (IH _ _ H) as (-> & F). split; [|constructor; eauto].
    destruct y, acc; reflexivity.
Qed.
Lemma reduce_and : forall A (f : A -> res bool) l acc b, reduce andb f acc l = Ok b ->
  b = andb acc (forallb (fun x => match f x with Ok true => true | _ => false end) l) /\ Forall (fun x => exists b, f x = Ok b) l.
Proof.
  intros A f. induction l as [|x l IH]; simpl; intros acc b H.
  - inversion H. rewrite andb_true_r. auto.
  - destruct (f x) as [y|e] eqn:E; [|discriminate]. destruct (IH _ _ H) as (-> & F). split; [|constructor; eauto].
    destruct y, acc; reflexivity.
Qed.
Lemma conditions : forall m c b, sane m -> not_relative c -> can_fire m c = Ok b -> (b = true <-> holds m c).
Proof.
  intros m c b (T & M). revert b. induction c as [|f|v|v|v|v|l IH|l IH|c IH] using condition_rect'; simpl; intros b R H.
  - inversion H; tauto.
  - rewrite H. split; congruence.
  - inversion H. apply Z.ltb_lt.
  - unfold divide in H. destruct (Z.eqb_spec (total m) 0); [lia|]. inversion H. rewrite Qlt_bool_true, div_lt by (apply inject_pos; auto).
    setoid_replace (inject_Z v * inject_Z (total m))%Q with (inject_Z v / 100 * inject_Z (total m) * 100)%Q by field.
    rewrite Qmult_lt_r by reflexivity. tauto.
  - destruct (maximum m) as [x|] eqn:E; [|discriminate]. inversion H. rewrite Z.ltb_lt. split; [eauto|].
    intros (y & Y & K). inversion Y; subst. auto.
  - contradiction.
  - apply reduce_or in H. destruct H as (-> & F). simpl. induction l as [|c l IHl]; simpl; [split; [discriminate|tauto]|].
    inversion IH; inversion F; subst. destruct R as (R1 & R2). rewrite orb_true_iff, IHl by auto.
    destruct H5 as (y & Y). rewrite Y. specialize (H1 _ R1 Y). destruct y; [tauto|]. split; [intros [K|K]; [discriminate|auto]|].
    intros [K|K]; auto. apply H1 in K. discriminate.
  - apply reduce_and in H. destruct H as (-> & F). simpl. induction l as [|c l IHl]; simpl; [tauto|].
    inversion IH; inversion F; subst. destruct R as (R1 & R2). rewrite andb_true_iff, IHl by auto.
    destruct H5 as (y & Y). rewrite Y. specialize (H1 _ R1 Y). destruct y; [tauto|]. split; [intros (K & _); discriminate|].
    intros (K & _). apply H1 in K. discriminate.
  - destruct (can_fire m c) as [y|] eqn:E; [|discriminate]. inversion H. rewrite negb_true_iff, <- (IH _ R eq_refl). destruct y; split; congruence.
Qed.
Lemma local_relative : forall m v x, (0 < x)%Z -> maximum m = Some x ->
  (can_fire m (LocalRelativeValue v) = Ok true <-> (inject_Z v * inject_Z x < (inject_Z x - inject_Z (rss m)) * 100)%Q).
Proof.
  intros m v x X E. simpl. rewrite E. unfold divide. destruct (Z.eqb_spec x 0); [lia|].
  assert (K : forall b, Ok b = Ok true <-> b = true) by (intros; split; [intros H; inversion H; auto|intros ->; auto]).
  rewrite K, Qlt_bool_true, div_lt by (apply inject_pos; auto). split; intros H.
  - assert (G : (inject_Z (rss m) * 100 < (1 - inject_Z v / 100) * inject_Z x * 100)%Q) by (apply Qmult_lt_compat_r; [reflexivity|auto]).
    setoid_replace ((1 - inject_Z v / 100) * inject_Z x * 100)%Q with (100 * inject_Z x - inject_Z v * inject_Z x)%Q in G by (field). lra.
  - apply (Qmult_lt_r _ _ 100); [reflexivity|].
    setoid_replace ((1 - inject_Z v / 100) * inject_Z x * 100)%Q with (100 * inject_Z x - inject_Z v * inject_Z x)%Q by (field). lra.
Qed.
Lemma reduce_total : forall A op (f : A -> res bool) l acc, Forall (fun x => exists b, f x = Ok b) l -> exists b, reduce op f acc l = Ok b.
Proof. intros A op f l acc F. revert acc. induction F as [|x l (b & E) F IH]; simpl; eauto. intros. rewrite E. auto. Qed.
Lemma conditions_total : forall m c x, sane m -> maximum m = Some x -> (forall f, exists b, custom m f = Ok b) -> exists b, can_fire m c = Ok b.
Proof.
  intros m c x (T & M) E C. induction c using condition_rect'; simpl; eauto using reduce_total.
  - unfold divide. destruct (Z.eqb_spec (total m) 0); [lia|]. eauto.
  - rewrite E. eauto.
  - rewrite E. specialize (M _ E). unfold divide. destruct (Z.eqb_spec x 0); [lia|]. eauto.
  - destruct IHc as (b & ->). eauto.
Qed.

(** * The level *)
Lemma calculate_snoc : forall conds c m, calculate (conds ++ [c]) m =
  match can_fire m c with Err e => Err e | Ok true => Ok (S (length conds)) | Ok false => calculate conds m end.
Proof.
  intros. unfold calculate. simpl length. rewrite app_length. simpl length.
  replace (S (length conds + 1)) with (S (length conds) + 1) by lia. rewrite seq_app. simpl seq at 2. rewrite app_comm_cons.
  assert (K : forall A B (a : list A) (b : list B) x y, length a = length b -> combine (a ++ [x]) (b ++ [y]) = combine a b ++ [(x, y)]).
  { intros A B. induction a; destruct b; simpl; intros; try discriminate; auto. f_equal. auto. }
  rewrite K by (simpl; rewrite seq_length; auto). rewrite rev_app_distr. simpl rev at 1. cbn [app highest]. reflexivity.
Qed.
Lemma calculate_severity : forall conds m k, calculate conds m = Ok k -> severity (fun c => can_fire m c = Ok true) conds k.
Proof.
  intros conds m. induction conds as [|c conds IH] using rev_ind; intros k H.
  - inversion H. split; auto. intros [|j] c' _ E; discriminate.
  - rewrite calculate_snoc in H. destruct (can_fire m c) as [[|]|] eqn:E; inversion H; subst.
    + split; [right; exists c; split; auto; rewrite nth_error_app2 by lia; replace (_ - _) with 0 by lia; auto|].
      intros j c' J Ec. assert (j < length (conds ++ [c])) by (apply nth_error_Some; congruence). rewrite app_length in *. simpl in *. lia.
    + destruct (IH _ H) as (A & B). split.
      * destruct A as [A|(c' & A & A')]; auto. right. exists c'. split; auto. rewrite nth_error_app1; auto. apply nth_error_Some. congruence.
      * intros j c' J Ec F. destruct (Nat.lt_ge_cases j (length conds)).
        -- rewrite nth_error_app1 in Ec by auto. eapply B; eauto.
        -- rewrite nth_error_app2 in Ec by auto. destruct (j - length conds) as [|[|]]; inversion Ec; subst. congruence.
Qed.
Lemma calculate_total : forall conds m, (forall c, In c conds -> exists b, can_fire m c = Ok b) -> exists k, calculate conds m = Ok k /\ k <= length conds.
Proof.
  intros conds m. induction conds as [|c conds IH] using rev_ind; intros H; [exists 0; auto|].
  rewrite calculate_snoc, app_length. simpl. destruct (H c) as (b & E); [rewrite in_app_iff; simpl; auto|]. rewrite E.
  destruct IH as (k & K & L); [intros; apply H; rewrite in_app_iff; auto|]. destruct b; [|rewrite K]; eexists; split; eauto; lia.
Qed.
Lemma calculate_le : forall conds m k, calculate conds m = Ok k -> k <= length conds.
Proof.
  intros conds m k H. destruct (calculate_severity _ _ _ H) as ([->|(c & E & _)] & _); [lia|].
  assert (k - 1 < length conds) by (apply nth_error_Some; congruence). lia.
Qed.

(** * Groups *)
Lemma call_loop_none : forall dead raise todo kept called k c, call_loop dead raise todo kept called = (k, c, None) ->
  k = kept ++ todo /\ c = called ++ without dead todo.
Proof.
  intros dead raise. induction todo as [|x todo IH]; simpl; intros kept called k c H.
  - inversion H. rewrite !app_nil_r. auto.
  - destruct (dead x) eqn:D; simpl.
    + apply IH in H. destruct H as (-> & ->). rewrite <- app_assoc. auto.
    + destruct (raise x); [discriminate|]. apply IH in H. destruct H as (-> & ->). rewrite <- !app_assoc. auto.
Qed.
Lemma call_loop_some : forall dead raise todo kept called k c e, call_loop dead raise todo kept called = (k, c, Some e) ->
  (exists a b, k = kept ++ a /\ todo = a ++ b) /\ exists p q, c = called ++ p /\ without dead todo = p ++ q.
Proof.
  intros dead raise. induction todo as [|x todo IH]; simpl; intros kept called k c e H; [discriminate|].
  destruct (dead x) eqn:D; simpl.
  - apply IH in H. destruct H as ((a & b & -> & ->) & p & q & -> & Q). rewrite <- app_assoc. split; [exists (x :: a), b|exists p, q]; auto.
  - destruct (raise x).
    + inversion H; subst. split; [exists [], (x :: todo); rewrite app_nil_r; auto|exists [x], (without dead todo); auto].
    + apply IH in H. destruct H as ((a & b & -> & ->) & p & q & -> & Q). rewrite <- !app_assoc. split; [exists (x :: a), b|exists (x :: p), q]; auto.
      simpl. rewrite Q. auto.
Qed.
Lemma without_idem : forall dead g, without dead (without dead g) = without dead g.
Proof. intros. unfold without. induction g as [|x g IH]; simpl; auto. destruct (negb (dead x)) eqn:E; simpl; rewrite ?E, ?IH; auto. Qed.
Definition kept_of (dead : nat -> bool) (g : list nat) : list nat := if existsb (fun c => negb (dead c)) g then without dead g else g.
Lemma kept_without : forall dead g, without dead (kept_of dead g) = without dead g.
Proof. intros. unfold kept_of. destruct existsb; auto using without_idem. Qed.
Lemma call_group_none : forall dead raise g k c, call_group dead raise g = (k, c, None) -> k = kept_of dead g /\ c = without dead g.
Proof.
  intros dead raise g k c H. unfold call_group in H. apply call_loop_none in H. simpl in H. change (if existsb _ g then _ else _) with (kept_of dead g) in H.
  rewrite kept_without in H. auto.
Qed.
Lemma call_group_some : forall dead raise g k c e, call_group dead raise g = (k, c, Some e) ->
  (exists b, kept_of dead g = k ++ b) /\ exists q, without dead g = c ++ q.
Proof.
  intros dead raise g k c e H. unfold call_group in H. apply call_loop_some in H. change (if existsb _ g then _ else _) with (kept_of dead g) in H.
  rewrite kept_without in H. destruct H as ((a & b & -> & E) & p & q & -> & Q). simpl. eauto.
Qed.
Lemma call_loop_quiet : forall dead raise todo kept called, (forall c, raise c = false) -> exists k c, call_loop dead raise todo kept called = (k, c, None).
Proof. intros dead raise todo. induction todo as [|x t IH]; simpl; intros kept called H; eauto. rewrite H. destruct (dead x); apply IH; auto. Qed.
Lemma call_group_quiet : forall dead raise g, (forall c, raise c = false) -> call_group dead raise g = (kept_of dead g, without dead g, None).
Proof.
  intros dead raise g H. destruct (call_loop_quiet dead raise (kept_of dead g) [] [] H) as (k & c & E).
  assert (E' : call_group dead raise g = (k, c, None)) by exact E. rewrite E'. apply call_group_none in E'. destruct E'; subst; auto.
Qed.
Lemma clean_none : forall w todo kept cleaned k c, clean_loop w todo kept cleaned = (k, c, None) ->
  k = kept ++ filter (fun o => negb (gone w o)) todo /\ c = cleaned ++ filter (fun o => negb (gone w o)) todo.
Proof.
  intros w. induction todo as [|x t IH]; simpl; intros kept cleaned k c H; [inversion H; rewrite !app_nil_r; auto|].
  destruct (gone w x); simpl; [apply IH; auto|]. destruct (collector_raises w x); [discriminate|]. apply IH in H. destruct H as (-> & ->).
  rewrite <- !app_assoc. auto.
Qed.
Lemma clean_some : forall w todo kept cleaned k c e, clean_loop w todo kept cleaned = (k, c, Some e) ->
  exists p q, c = cleaned ++ p /\ filter (fun o => negb (gone w o)) todo = p ++ q.
Proof.
  intros w. induction todo as [|x t IH]; simpl; intros kept cleaned k c e H; [discriminate|].
  destruct (gone w x); simpl; [eapply IH; eauto|]. destruct (collector_raises w x).
  - inversion H; subst. exists [x]. eexists. split; [auto|reflexivity].
  - apply IH in H. destruct H as (p & q & -> & ->). exists (x :: p), q. rewrite <- app_assoc. auto.
Qed.
Lemma clean_quiet : forall w todo kept cleaned, (forall o, collector_raises w o = false) -> exists k c, clean_loop w todo kept cleaned = (k, c, None).
Proof. intros w todo. induction todo as [|x t IH]; simpl; intros; eauto. rewrite H. destruct (gone w x); apply IH; auto. Qed.

Lemma fset_eq : forall A (f : nat -> A) k v, fset f k v k = v.
Proof. intros. unfold fset. rewrite Nat.eqb_refl. auto. Qed.
Lemma fset_neq : forall A (f : nat -> A) k v j, j <> k -> fset f k v j = f j.
Proof. intros. unfold fset. destruct (Nat.eqb_spec j k); congruence. Qed.

(** * Advancing. Two managers that differ in level, in cancelled callbacks still registered and in objects of some levels only *)
Definition alike (m m' : manager) : Prop :=
  cancelled m' = cancelled m /\ stopped m' = stopped m /\ running m' = running m /\ fresh m' = fresh m /\
  (forall k, live m (entered m' k) = live m (entered m k)) /\ (forall k, live m (left_ m' k) = live m (left_ m k)) /\
  live m (normal m') = live m (normal m).
Lemma live_kept : forall m g, live m (kept_of (is_cancelled m) g) = live m g.
Proof. intros. exact (kept_without (is_cancelled m) g). Qed.
Lemma live_same : forall m m' g, cancelled m' = cancelled m -> live m' g = live m g.
Proof. intros m m' g H. unfold live. rewrite H. auto. Qed.
Lemma alike_refl : forall m, alike m m.
Proof. repeat split; auto. Qed.
Lemma alike_trans : forall a b c, alike a b -> alike b c -> alike a c.
Proof.
  intros a b c (A1 & A2 & A3 & A4 & A5 & A6 & A7) (B1 & B2 & B3 & B4 & B5 & B6 & B7).
  assert (L : forall g, live b g = live a g) by (intros; apply live_same; auto).
  repeat split; try congruence; intros; rewrite <- ?L; rewrite ?B5, ?B6, ?B7, ?L; auto.
Qed.
Lemma alike_sweep : forall m, alike m (sweep m).
Proof. intros. repeat split; simpl; intros; apply without_idem. Qed.

Definition enter_notices (m : manager) (w : world) (k : nat) : list notice :=
  map (Entered k) (live m (entered m k)) ++ map (Cleaned k) (filter (fun o => negb (gone w o)) (objects m k)).
Definition leave_notices (m : manager) (k : nat) : list notice := map (Left k) (live m (left_ m k)).

Lemma enter_none : forall n w m m' l, enter n w m = (m', l, None) ->
  level m < n /\ level m' = S (level m) /\ l = enter_notices m w (S (level m)) /\ alike m m' /\
  (forall j, j <> S (level m) -> objects m' j = objects m j).
Proof.
  intros n w m m' l H. unfold enter in H. cbv zeta in H. destruct (Nat.ltb_spec n (S (level m))); [discriminate|].
  set (k := S (level m)) in *. simpl in H.
  destruct (call_group _ _ _) as ((kept & called) & [e|]) eqn:E; [discriminate|]. simpl in H.
  destruct (clean_loop _ _ _ _) as ((stay & cleaned) & [e|]) eqn:C; inversion H; subst; clear H.
  apply call_group_none in E. destruct E as (-> & ->). apply clean_none in C. destruct C as (-> & ->). simpl in *.
  split; [lia|]. split; auto. split; [reflexivity|]. split; [|intros; apply fset_neq; auto].
  repeat split; simpl; auto. intros j. destruct (Nat.eq_dec j k) as [->|N]; [|rewrite fset_neq; auto].
  rewrite fset_eq. apply (live_kept m).
Qed.
Lemma leave_none : forall n w m m' l, 0 < level m -> leave n w m = (m', l, None) ->
  level m <= n /\ level m' = level m - 1 /\ l = leave_notices m (level m) ++ (if level m - 1 =? 0 then map Normal (live m (normal m)) else []) /\ alike m m' /\
  (forall j, objects m' j = objects m j).
Proof.
  intros n w m m' l P H. unfold leave in H. cbv zeta in H. destruct (Nat.ltb_spec n (level m)); [discriminate|].
  destruct (call_group _ _ _) as ((kept & called) & [e|]) eqn:E; [discriminate|]. simpl in H. apply call_group_none in E. destruct E as (-> & ->).
  assert (K : forall j, live m (fset (left_ m) (level m) (kept_of (is_cancelled m) (left_ m (level m))) j) = live m (left_ m j)).
  { intros j. destruct (Nat.eq_dec j (level m)) as [->|N]; [rewrite fset_eq; apply live_kept|rewrite fset_neq; auto]. }
  destruct (level m - 1 =? 0).
  - destruct (call_group _ _ (normal m)) as ((kept' & called') & e) eqn:E; inversion H; subst. apply call_group_none in E. destruct E as (-> & ->).
    simpl. split; auto. split; auto. split; [reflexivity|]. split; [|auto]. repeat split; simpl; auto. apply (live_kept m).
  - inversion H; subst. simpl. split; auto. split; auto. split; [rewrite app_nil_r; reflexivity|]. split; [|auto]. repeat split; simpl; auto.
Qed.
Lemma upwards_cons : forall m w a b, a < b -> upwards m w a b = enter_notices m w (S a) ++ upwards m w (S a) b.
Proof. intros. unfold upwards. replace (b - a) with (S (b - S a)) by lia. reflexivity. Qed.
Lemma upwards_same : forall m m' w a b, alike m m' -> (forall j, a < j -> objects m' j = objects m j) -> upwards m' w a b = upwards m w a b.
Proof.
  intros m m' w a b (C & _ & _ & _ & E & _) O. unfold upwards. rewrite !flat_map_concat_map. f_equal. apply map_ext_in. intros j J. apply in_seq in J.
  rewrite O by lia. do 2 f_equal. rewrite (live_same m m') by auto. apply E.
Qed.
Lemma downwards_cons : forall m a b, b < a ->
  downwards m a b = leave_notices m a ++ (if a - 1 =? b then if b =? 0 then map Normal (live m (normal m)) else [] else downwards m (a - 1) b).
Proof.
  intros. unfold downwards. replace (a - b) with (S (a - 1 - b)) by lia. rewrite seq_S, rev_app_distr. simpl.
  replace (S (b + (a - 1 - b))) with a by lia. fold (leave_notices m a). rewrite <- app_assoc. f_equal.
  destruct (Nat.eqb_spec (a - 1) b) as [E|E]; auto. rewrite E, Nat.sub_diag. auto.
Qed.
Lemma downwards_same : forall m m' a b, alike m m' -> downwards m' a b = downwards m a b.
Proof.
  intros m m' a b (C & _ & _ & _ & _ & L & N). unfold downwards. f_equal.
  - rewrite !flat_map_concat_map. f_equal. apply map_ext_in. intros j J. f_equal. rewrite (live_same m m') by auto. apply L.
  - destruct (b =? 0); auto. f_equal. rewrite (live_same m m') by auto. apply N.
Qed.
Definition passage (m : manager) (w : world) (b : nat) : list notice :=
  if level m <? b then upwards m w (level m) b else if b <? level m then downwards m (level m) b else [].
Lemma advance_none : forall fuel n w target m m' l, advance fuel n w target m = (m', l, None) ->
  level m' = target /\ l = passage m w target /\ alike m m'.
Proof.
  induction fuel as [|fuel IH]; intros n w target m m' l H; cbn [advance] in H.
  - destruct (Nat.eqb_spec (level m) target) as [E|E]; inversion H; subst. unfold passage. rewrite Nat.ltb_irrefl. auto using alike_refl.
  - destruct (Nat.eqb_spec (level m) target) as [E|E].
    + inversion H; subst. unfold passage. rewrite Nat.ltb_irrefl. auto using alike_refl.
    + unfold passage. destruct (Nat.ltb_spec (level m) target) as [T|T].
      * destruct (enter n w m) as ((m1 & l1) & [e|]) eqn:E1; [discriminate|]. destruct (advance fuel n w target m1) as ((m2 & l2) & e) eqn:E2.
        inversion H; subst. apply IH in E2. apply enter_none in E1. destruct E1 as (A1 & A2 & -> & A4 & A5), E2 as (B1 & -> & B3).
        split; auto. split; [|eapply alike_trans; eauto]. rewrite upwards_cons by auto. f_equal. unfold passage. rewrite A2.
        destruct (Nat.ltb_spec (S (level m)) target).
        -- apply upwards_same; auto. intros. apply A5. lia.
        -- replace target with (S (level m)) by lia. rewrite Nat.ltb_irrefl. unfold upwards. rewrite Nat.sub_diag. auto.
      * assert (T' : target < level m) by lia. destruct (Nat.ltb_spec target (level m)); [|lia].
        destruct (leave n w m) as ((m1 & l1) & [e|]) eqn:E1; [discriminate|]. destruct (advance fuel n w target m1) as ((m2 & l2) & e) eqn:E2.
        inversion H; subst. apply IH in E2. apply leave_none in E1; [|lia]. destruct E1 as (A1 & A2 & -> & A4 & A5), E2 as (B1 & -> & B3).
        split; auto. split; [|eapply alike_trans; eauto]. rewrite downwards_cons by auto. rewrite <- app_assoc. f_equal. unfold passage. rewrite A2.
        destruct (Nat.eqb_spec (level m - 1) target) as [K|K].
        -- rewrite K, Nat.ltb_irrefl, app_nil_r. auto.
        -- destruct (Nat.eqb_spec (level m - 1) 0); [lia|]. simpl. destruct (Nat.ltb_spec (level m - 1) target); [lia|].
           destruct (Nat.ltb_spec target (level m - 1)); [|lia]. apply downwards_same; auto.
Qed.
Definition calm (w : world) : Prop := (forall c, raises w c = false) /\ forall o, collector_raises w o = false.
Lemma advance_calm : forall fuel n w target m, calm w -> level m <= n -> target <= n -> (target - level m) + (level m - target) <= fuel ->
  exists m' l, advance fuel n w target m = (m', l, None).
Proof.
  induction fuel as [|fuel IH]; intros n w target m (C1 & C2) L T F; cbn [advance].
  - destruct (Nat.eqb_spec (level m) target); [eauto|lia].
  - destruct (Nat.eqb_spec (level m) target); [eauto|]. destruct (Nat.ltb_spec (level m) target).
    + assert (K : exists m1 l1, enter n w m = (m1, l1, None)).
      { unfold enter. cbv zeta. destruct (Nat.ltb_spec n (S (level m))); [lia|]. rewrite call_group_quiet by auto. simpl.
        destruct (clean_quiet w (objects m (S (level m))) [] [] C2) as (k & c & ->). eauto. }
      destruct K as (m1 & l1 & E). rewrite E. apply enter_none in E. destruct E as (_ & E & _).
      destruct (IH n w target m1) as (m2 & l2 & ->); [split; auto| | | |]; try lia. eauto.
    + assert (K : exists m1 l1, leave n w m = (m1, l1, None)).
      { unfold leave. cbv zeta. destruct (Nat.ltb_spec n (level m)); [lia|]. rewrite call_group_quiet by auto. simpl.
        destruct (level m - 1 =? 0); [rewrite call_group_quiet by auto|]; eauto. }
      destruct K as (m1 & l1 & E). rewrite E. apply leave_none in E; [|lia]. destruct E as (_ & E & _).
      destruct (IH n w target m1) as (m2 & l2 & ->); [split; auto| | | |]; try lia. eauto.
Qed.
Lemma passage_sweep : forall m w b, passage (sweep m) w b = passage m w b.
Proof.
  intros. unfold passage. change (level (sweep m)) with (level m). destruct (level m <? b); [apply upwards_same; auto using alike_sweep|].
  destruct (b <? level m); auto. apply downwards_same, alike_sweep.
Qed.
Lemma loop_none : forall conds w m m' l, stopped m = false -> loop conds w m = (m', l, None) ->
  calculate conds (mem w) = Ok (level m') /\ l = announcements m w (level m') /\ alike m m'.
Proof.
  intros conds w m m' l S H. unfold loop in H. rewrite S in H. cbv zeta in H. destruct (calculate conds (mem w)) as [target|e] eqn:C; [|discriminate].
  change (level (sweep m)) with (level m) in H. destruct (Nat.eqb_spec (level m) target) as [E|E].
  - destruct (call_group _ _ _) as ((kept & called) & e) eqn:G; inversion H; subst. apply call_group_none in G. destruct G as (-> & ->).
    simpl. split; auto. split.
    + unfold announcements. rewrite Nat.ltb_irrefl. f_equal. exact (without_idem (is_cancelled m) _).
    + eapply alike_trans; [apply alike_sweep|]. repeat split.
  - apply advance_none in H. destruct H as (<- & -> & A). split; auto. split.
    + rewrite passage_sweep. unfold passage, announcements. destruct (Nat.ltb_spec (level m) (level m')); auto.
      destruct (Nat.ltb_spec (level m') (level m)); auto. lia.
    + eapply alike_trans; [apply alike_sweep|auto].
Qed.
Lemma checked : forall conds m w m' l, running m = true -> stopped m = false -> step conds m (Check w) = (m', Did l None) ->
  severity (fun c => can_fire (mem w) c = Ok true) conds (level m') /\ l = announcements m w (level m') .
Proof.
  intros conds m w m' l R S H. cbn [step] in H. rewrite R in H. destruct (loop conds w m) as ((m1 & l1) & [e|]) eqn:E; inversion H; subst.
  apply loop_none in E; auto. destruct E as (A & B & _). split; auto using calculate_severity.
Qed.
Lemma checked_calm : forall conds m w x, running m = true -> level m <= length conds -> calm w ->
  sane (mem w) -> maximum (mem w) = Some x -> (forall f, exists b, custom (mem w) f = Ok b) ->
  exists m' l, step conds m (Check w) = (m', Did l None).
Proof.
  intros conds m w x R L (C1 & C2) S M C. cbn [step]. rewrite R. unfold loop. destruct (stopped m); [eauto|]. cbv zeta.
  destruct (calculate_total conds (mem w)) as (k & -> & K); [intros; eapply conditions_total; eauto|].
  change (level (sweep m)) with (level m). destruct (level m =? k).
  - rewrite call_group_quiet by auto. eauto.
  - unfold advance_to. destruct (advance_calm (k - level (sweep m) + (level (sweep m) - k)) (length conds) w k (sweep m)) as (m' & l & E); auto; [split; auto|].
    rewrite E. eauto.
Qed.
(** the documented level *)
Lemma severity_holds : forall m conds k, sane m -> Forall not_relative conds -> calculate conds m = Ok k -> severity (holds m) conds k.
Proof.
  intros m conds k S. revert k. induction conds as [|c conds IH] using rev_ind; intros k F H.
  - inversion H. split; auto. intros [|j] c' _ E; discriminate.
  - apply Forall_app in F. destruct F as (F & Fc). inversion Fc; subst. rewrite calculate_snoc in H.
    destruct (can_fire m c) as [b|] eqn:E; [|discriminate]. pose proof (conditions _ _ _ S H2 E) as Hc. destruct b; inversion H; subst.
    + split; [right; exists c; split; [|apply Hc; auto]; rewrite nth_error_app2 by lia; replace (_ - _) with 0 by lia; auto|].
      intros j c' J Ec. assert (j < length (conds ++ [c])) by (apply nth_error_Some; congruence). rewrite app_length in *. simpl in *. lia.
    + destruct (IH _ F H) as (A & B). split.
      * destruct A as [A|(c' & A & A')]; auto. right. exists c'. split; auto. rewrite nth_error_app1; auto. apply nth_error_Some. congruence.
      * intros j c' J Ec Hh. destruct (Nat.lt_ge_cases j (length conds)).
        -- rewrite nth_error_app1 in Ec by auto. eapply B; eauto.
        -- rewrite nth_error_app2 in Ec by auto. destruct (j - length conds) as [|[|]]; inversion Ec; subst. apply Hc in Hh. discriminate.
Qed.
Lemma checked_documented : forall conds m w m' l, running m = true -> stopped m = false -> sane (mem w) -> Forall not_relative conds ->
  step conds m (Check w) = (m', Did l None) -> severity (holds (mem w)) conds (level m').
Proof.
  intros conds m w m' l R S Sn F H. cbn [step] in H. rewrite R in H. destruct (loop conds w m) as ((m1 & l1) & [e|]) eqn:E; inversion H; subst.
  apply loop_none in E; auto. destruct E as (A & _). eapply severity_holds; eauto.
Qed.

(** * Reachable managers *)
Lemma NoDup_first : forall A (a b : list A), NoDup (a ++ b) -> NoDup a.
Proof. intros A. induction a; simpl; intros b H; constructor; inversion H; subst; eauto. rewrite in_app_iff in *. auto. Qed.
Definition group_ok (m : manager) (g : list nat) : Prop := NoDup g /\ forall c, In c g -> c < fresh m.
Definition ok (m : manager) : Prop := (forall k, group_ok m (entered m k)) /\ forall k, group_ok m (left_ m k).
Lemma sub_ok : forall m m' g h, fresh m' = fresh m -> group_ok m g -> (exists dead, h = without dead g) \/ (exists a, g = h ++ a) \/ h = g -> group_ok m' h.
Proof.
  intros m m' g h F (N & I) [(dead & ->)|[(a & ->)| ->]]; unfold group_ok; rewrite F.
  - split; [apply NoDup_filter; auto|]. intros c C. apply filter_In in C. apply I. tauto.
  - split; [eapply NoDup_first; eauto|]. intros. apply I. rewrite in_app_iff. auto.
  - auto.
Qed.
Lemma kept_ok : forall m dead g, group_ok m g -> group_ok m (kept_of dead g).
Proof. intros m dead g G. eapply sub_ok; eauto. unfold kept_of. destruct existsb; eauto. Qed.
Lemma call_ok : forall m dead raise g k c e, group_ok m g -> call_group dead raise g = (k, c, e) -> group_ok m k.
Proof.
  intros m dead raise g k c [e|] G H.
  - apply call_group_some in H. destruct H as ((b & H) & _). eapply sub_ok; [reflexivity|apply (kept_ok m dead); exact G|]. eauto.
  - apply call_group_none in H. destruct H as (-> & _). apply kept_ok; auto.
Qed.
Lemma fset_ok : forall m f k g, (forall k, group_ok m (f k)) -> group_ok m g -> forall j, group_ok m (fset f k g j).
Proof. intros m f k g F G j. unfold fset. destruct (j =? k); auto. Qed.
Lemma fset_ok' : forall m m' f k g, fresh m' = fresh m -> (forall k, group_ok m (f k)) -> group_ok m g -> forall j, group_ok m' (fset f k g j).
Proof. intros m m' f k g E F G j. unfold group_ok. rewrite E. apply (fset_ok m); auto. Qed.
Lemma enter_ok : forall n w m m' l e, ok m -> enter n w m = (m', l, e) -> ok m' /\ fresh m' = fresh m /\ cancelled m' = cancelled m.
Proof.
  intros n w m m' l e (A & B) H. unfold enter in H. cbv zeta in H. destruct (n <? S (level m)); [inversion H; subst; repeat split; apply A || apply B|].
  destruct (call_group _ _ _) as ((kept & called) & [x|]) eqn:E; simpl in *; pose proof (call_ok m _ _ _ _ _ _ (A _) E) as K.
  - inversion H; subst. split; [|auto]. split; simpl; [apply (fset_ok' m); auto|intros; split; apply B].
  - destruct (clean_loop _ _ _ _) as ((stay & cleaned) & [x|]); inversion H; subst; (split; [|auto]); (split; simpl; [apply (fset_ok' m); auto|intros; split; apply B]).
Qed.
Lemma leave_ok : forall n w m m' l e, ok m -> leave n w m = (m', l, e) -> ok m' /\ fresh m' = fresh m /\ cancelled m' = cancelled m.
Proof.
  intros n w m m' l e (A & B) H. unfold leave in H. cbv zeta in H. destruct (n <? level m); [inversion H; subst; repeat split; apply A || apply B|].
  destruct (call_group _ _ _) as ((kept & called) & [x|]) eqn:E; simpl in *; pose proof (call_ok m _ _ _ _ _ _ (B _) E) as K.
  - inversion H; subst. split; [|auto]. split; simpl; [intros; split; apply A|apply (fset_ok' m); auto].
  - destruct (level m - 1 =? 0); [destruct (call_group _ _ (normal m)) as ((kept' & called') & x)|]; inversion H; subst; (split; [|auto]); (split; simpl; [intros; split; apply A|apply (fset_ok' m); auto]).
Qed.
Lemma advance_ok : forall fuel n w t m m' l e, ok m -> advance fuel n w t m = (m', l, e) -> ok m' /\ fresh m' = fresh m /\ cancelled m' = cancelled m.
Proof.
  induction fuel as [|fuel IH]; intros n w t m m' l e O H; cbn [advance] in H; destruct (level m =? t); try (inversion H; subst; auto; fail).
  destruct (if level m <? t then _ else _) as ((m1 & l1) & e1) eqn:E.
  assert (K : ok m1 /\ fresh m1 = fresh m /\ cancelled m1 = cancelled m) by (destruct (level m <? t); [eapply enter_ok|eapply leave_ok]; eauto).
  destruct K as (K & Kf & Kc). destruct e1; [inversion H; subst; auto|].
  destruct (advance fuel n w t m1) as ((m2 & l2) & e2) eqn:E2. inversion H; subst. apply IH in E2; auto. destruct E2 as (X & Y & Z). repeat split; try apply X; congruence.
Qed.
Lemma sweep_ok : forall m, ok m -> ok (sweep m).
Proof.
  intros m (A & B). split; simpl; intros k; [apply (sub_ok m _ (entered m k))|apply (sub_ok m _ (left_ m k))]; auto; left; eexists; reflexivity.
Qed.
Lemma loop_ok : forall conds w m m' l e, ok m -> loop conds w m = (m', l, e) -> ok m' /\ fresh m' = fresh m /\ cancelled m' = cancelled m.
Proof.
  intros conds w m m' l e O H. unfold loop in H. destruct (stopped m); [inversion H; subst; auto|]. cbv zeta in H. pose proof (sweep_ok m O) as O'.
  destruct (calculate conds (mem w)); [|inversion H; subst; auto]. destruct (level (sweep m) =? a).
  - destruct (call_group _ _ _) as ((kept & called) & x). inversion H; subst. split; auto.
  - apply advance_ok in H; auto.
Qed.
Lemma step_ok : forall conds m o m' x, ok m -> step conds m o = (m', x) -> ok m'.
Proof.
  intros conds m o m' x O H. assert (W : forall g, group_ok m g -> group_ok (set_fresh m (S (fresh m))) g).
  { intros g (N & I). split; auto. simpl. intros c C. specialize (I c C). lia. }
  assert (W' : forall g, group_ok m g -> group_ok (set_fresh m (S (fresh m))) (g ++ [fresh m])).
  { intros g (N & I). split.
    - apply NoDup_app_intro; auto; [constructor; auto; constructor|]. intros c C [<-|[]]. specialize (I _ C). lia.
    - simpl. intros c C. apply in_app_iff in C. destruct C as [C|[<-|[]]]; [specialize (I _ C); lia|lia]. }
  destruct O as (A & B). destruct o as [w|t w|d k| |k o|c| |]; cbn [step] in H; cbv zeta in H.
  - destruct (running m); [|inversion H; subst; split; auto]. destruct (loop conds w m) as ((m1 & l) & e) eqn:E. apply loop_ok in E; [|split; auto].
    destruct E as (X & _). destruct e; inversion H; subst; auto.
  - destruct (advance_to (length conds) w t m) as ((m1 & l) & e) eqn:E. apply advance_ok in E; [|split; auto]. inversion H; subst. tauto.
  - destruct (length conds <? k); inversion H; subst; [split; intros j; first [exact (W _ (A j))|exact (W _ (B j))]|]. destruct d.
    + split; simpl; intros j; [|exact (W _ (B j))]. unfold fset. destruct (j =? k); [exact (W' _ (A _))|exact (W _ (A _))].
    + split; simpl; intros j; [exact (W _ (A j))|]. unfold fset. destruct (j =? k); [exact (W' _ (B _))|exact (W _ (B _))].
    + split; simpl; intros j; first [exact (W _ (A j))|exact (W _ (B j))].
  - inversion H; subst. split; simpl; intros j; first [exact (W _ (A j))|exact (W _ (B j))].
  - destruct (length conds <? k); inversion H; subst; split; auto.
  - inversion H; subst; split; auto.
  - inversion H; subst; split; auto.
  - inversion H; subst; split; auto.
Qed.
Lemma run_ok : forall conds ops m, ok m -> ok (fst (run conds m ops)).
Proof.
  induction ops as [|o ops IH]; intros m O; simpl; auto. destruct (step conds m o) as (m1 & x) eqn:E. apply step_ok in E; auto.
  specialize (IH _ E). destruct (run conds m1 ops). auto.
Qed.
Lemma new_ok : ok new_manager.
Proof. split; intros k; split; simpl; try constructor; intros c []. Qed.

(** * Entering and leaving a level alternate *)
Lemma flat_map_one : forall A (F : nat -> list A) k n s, (forall j, j <> k -> F j = []) ->
  flat_map F (seq s n) = if (s <=? k) && (k <? s + n) then F k else [].
Proof.
  intros A F k n. induction n as [|n IH]; intros s H; cbn [seq flat_map].
  - destruct (Nat.leb_spec s k), (Nat.ltb_spec k (s + 0)); auto; lia.
  - rewrite IH by auto. destruct (Nat.eq_dec s k) as [->|N].
    + rewrite Nat.leb_refl. destruct (Nat.leb_spec (S k) k); [lia|]. destruct (Nat.ltb_spec k (k + S n)); [|lia]. simpl. apply app_nil_r.
    + rewrite (H s N). destruct (Nat.leb_spec s k), (Nat.leb_spec (S s) k), (Nat.ltb_spec k (s + S n)), (Nat.ltb_spec k (S s + n)); simpl; auto; lia.
Qed.
Lemma flat_map_rev : forall A B (F : A -> list B) l, flat_map F (rev l) = concat (rev (map F l)).
Proof. intros. rewrite flat_map_concat_map, map_rev. auto. Qed.
Lemma concat_rev_one : forall A (F : nat -> list A) k n s, (forall j, j <> k -> F j = []) ->
  flat_map F (rev (seq s n)) = if (s <=? k) && (k <? s + n) then F k else [].
Proof.
  intros A F k n. induction n as [|n IH]; intros s H; cbn [seq flat_map rev].
  - destruct (Nat.leb_spec s k), (Nat.ltb_spec k (s + 0)); auto; lia.
  - rewrite flat_map_app, IH by auto. cbn [flat_map]. rewrite app_nil_r. destruct (Nat.eq_dec s k) as [->|N].
    + rewrite Nat.leb_refl. destruct (Nat.leb_spec (S k) k); [lia|]. destruct (Nat.ltb_spec k (k + S n)); [|lia]. auto.
    + rewrite (H s N), app_nil_r. destruct (Nat.leb_spec s k), (Nat.leb_spec (S s) k), (Nat.ltb_spec k (s + S n)), (Nat.ltb_spec k (S s + n)); simpl; auto; lia.
Qed.
Lemma filter_flat_map : forall A B (P : B -> bool) (F : A -> list B) l, filter P (flat_map F l) = flat_map (fun x => filter P (F x)) l.
Proof. induction l; simpl; auto. rewrite filter_app, IHl. auto. Qed.
Lemma filter_none : forall A (P : A -> bool) l, (forall x, In x l -> P x = false) -> filter P l = [].
Proof. induction l; simpl; intros; auto. rewrite H by auto. auto. Qed.
Lemma filter_one : forall A (F : nat -> A) (Q : A -> bool) c l, NoDup l -> In c l -> (forall x, Q (F x) = (x =? c)) -> filter Q (map F l) = [F c].
Proof.
  induction l as [|x l IH]; simpl; intros N I E; [contradiction|]. inversion N; subst. rewrite E. destruct (Nat.eqb_spec x c) as [->|D].
  - f_equal. apply filter_none. intros y Y. apply in_map_iff in Y. destruct Y as (z & <- & Z). rewrite E. destruct (Nat.eqb_spec z c); auto. congruence.
  - destruct I as [->|I]; [congruence|]. apply IH; auto.
Qed.
Lemma live_ok : forall m g, group_ok m g -> NoDup (live m g).
Proof. intros m g (N & _). apply NoDup_filter; auto. Qed.
Lemma about_enter : forall m w k c d j, ok m -> In c (live m (entered m k)) ->
  filter (is_about k c d) (enter_notices m w j) = if j =? k then [Entered k c] else [].
Proof.
  intros m w k c d j (A & _) I. unfold enter_notices. rewrite filter_app, (filter_none _ _ (map (Cleaned j) _)), app_nil_r
    by (intros x X; apply in_map_iff in X; destruct X as (y & <- & _); auto).
  destruct (Nat.eqb_spec j k) as [->|N].
  - apply filter_one; auto using live_ok. intros x. simpl. rewrite Nat.eqb_refl. auto.
  - apply filter_none. intros x X. apply in_map_iff in X. destruct X as (y & <- & _). simpl. destruct (Nat.eqb_spec j k); auto; contradiction.
Qed.
Lemma about_leave : forall m k c d j, ok m -> In d (live m (left_ m k)) ->
  filter (is_about k c d) (leave_notices m j) = if j =? k then [Left k d] else [].
Proof.
  intros m k c d j (_ & A) I. unfold leave_notices. destruct (Nat.eqb_spec j k) as [->|N].
  - apply filter_one; auto using live_ok. intros x. simpl. rewrite Nat.eqb_refl. auto.
  - apply filter_none. intros x X. apply in_map_iff in X. destruct X as (y & <- & _). simpl. destruct (Nat.eqb_spec j k); auto; contradiction.
Qed.
Definition crossing (a b k c d : nat) : list notice :=
  if (a <? k) && (k <=? b) then [Entered k c] else if (b <? k) && (k <=? a) then [Left k d] else [].
Lemma about_passage : forall m w k c d b, ok m -> In c (live m (entered m k)) -> In d (live m (left_ m k)) ->
  filter (is_about k c d) (passage m w b) = crossing (level m) b k c d.
Proof.
  intros m w k c d b O C D. unfold passage, crossing. destruct (Nat.ltb_spec (level m) b).
  - unfold upwards. rewrite filter_flat_map. fold (enter_notices m w). erewrite (flat_map_one _ _ k).
    2:{ intros j J. cbv beta. change (filter (is_about k c d) (enter_notices m w j) = []). rewrite about_enter by auto.
        destruct (Nat.eqb_spec j k); auto; contradiction. }
    change (filter (is_about k c d) (map (Entered k) (live m (entered m k)) ++ _)) with (filter (is_about k c d) (enter_notices m w k)).
    rewrite about_enter, Nat.eqb_refl by auto.
    destruct (Nat.ltb_spec b k), (Nat.leb_spec (S (level m)) k), (Nat.ltb_spec k (S (level m) + (b - level m))), (Nat.ltb_spec (level m) k), (Nat.leb_spec k b), (Nat.leb_spec k (level m)); simpl; auto; lia.
  - destruct (Nat.ltb_spec b (level m)).
    + unfold downwards. rewrite filter_app. rewrite (filter_none _ _ (if b =? 0 then _ else _)).
      2:{ intros x X. destruct (b =? 0); [|contradiction]. apply in_map_iff in X. destruct X as (y & <- & _). auto. }
      rewrite app_nil_r, filter_flat_map. erewrite (concat_rev_one _ _ k).
      2:{ intros j J. cbv beta. change (filter (is_about k c d) (leave_notices m j) = []). rewrite about_leave by auto.
        destruct (Nat.eqb_spec j k); auto; contradiction. }
      change (filter (is_about k c d) (map (Left k) (live m (left_ m k)))) with (filter (is_about k c d) (leave_notices m k)).
      rewrite about_leave, Nat.eqb_refl by auto.
      destruct (Nat.ltb_spec b k), (Nat.leb_spec (S b) k), (Nat.ltb_spec k (S b + (level m - b))), (Nat.ltb_spec (level m) k), (Nat.leb_spec k b), (Nat.leb_spec k (level m)); simpl; auto; lia.
    + destruct (Nat.ltb_spec b k), (Nat.ltb_spec (level m) k), (Nat.leb_spec k b), (Nat.leb_spec k (level m)); simpl; auto; lia.
Qed.
Lemma about_remaining : forall k c d b g, filter (is_about k c d) (map (Remaining b) g) = [].
Proof. intros. apply filter_none. intros x X. apply in_map_iff in X. destruct X as (y & <- & _). auto. Qed.
Lemma about_announcements : forall m w k c d b, ok m -> In c (live m (entered m k)) -> In d (live m (left_ m k)) ->
  filter (is_about k c d) (announcements m w b) = crossing (level m) b k c d.
Proof.
  intros m w k c d b O C D. rewrite <- (about_passage m w k c d b O C D). unfold announcements, passage.
  destruct (level m <? b); auto. destruct (b <? level m); auto. apply about_remaining.
Qed.
Lemma crossing_alternates : forall l a b k c d, alternating (Entered k c) (Left k d) l (k <=? a) ->
  alternating (Entered k c) (Left k d) (l ++ crossing a b k c d) (k <=? b).
Proof.
  intros l a b k c d H. unfold crossing.
  destruct (Nat.leb_spec k a), (Nat.leb_spec k b), (Nat.ltb_spec a k), (Nat.ltb_spec b k); simpl; rewrite ?app_nil_r; auto; try lia; constructor; auto.
Qed.
Lemma live_In : forall m g c, In c (live m g) <-> In c g /\ ~ In c (cancelled m).
Proof.
  intros. unfold live. rewrite filter_In, negb_true_iff. pose proof (memb_In nateqb_ok c (cancelled m)) as E.
  destruct (memb Nat.eqb c (cancelled m)); intuition congruence.
Qed.
Lemma step_alternates : forall conds m o m' x k c d l, ok m -> In c (live m (entered m k)) -> In d (live m (left_ m k)) ->
  o <> Cancel c -> o <> Cancel d -> (forall l e, x <> Did l (Some e)) -> step conds m o = (m', x) ->
  alternating (Entered k c) (Left k d) l (k <=? level m) ->
  alternating (Entered k c) (Left k d) (l ++ filter (is_about k c d) (notices [x])) (k <=? level m') /\
  In c (live m' (entered m' k)) /\ In d (live m' (left_ m' k)).
Proof.
  intros conds m o m' x k c d l O C D Nc Nd Q H A.
  assert (Same : forall y, alternating (Entered k c) (Left k d) l (k <=? y) -> alternating (Entered k c) (Left k d) (l ++ []) (k <=? y)) by (intros; rewrite app_nil_r; auto).
  assert (Al : forall m', alike m m' -> In c (live m' (entered m' k)) /\ In d (live m' (left_ m' k))).
  { intros m1 (E & _ & _ & _ & E1 & E2 & _). rewrite !(live_same m m1), E1, E2 by auto. auto. }
  destruct o as [w|t w|g j| |j o|c'| |]; cbn [step] in H; cbv zeta in H.
  - destruct (running m); [|inversion H; subst; simpl; auto]. destruct (loop conds w m) as ((m1 & l1) & [e|]) eqn:E; inversion H; subst; [exfalso; eapply Q; eauto|].
    destruct (stopped m) eqn:S.
    + unfold loop in E. rewrite S in E. inversion E; subst. simpl. auto.
    + apply loop_none in E; auto. destruct E as (_ & -> & E). split; auto. unfold notices. simpl. rewrite app_nil_r, about_announcements by auto.
      apply crossing_alternates; auto.
  - destruct (advance_to (length conds) w t m) as ((m1 & l1) & [e|]) eqn:E; inversion H; subst; [exfalso; eapply Q; eauto|].
    apply advance_none in E. destruct E as (<- & -> & E). split; auto. unfold notices. simpl. rewrite app_nil_r, about_passage by auto. apply crossing_alternates; auto.
  - rewrite !live_In in *. destruct (length conds <? j); inversion H; subst; [simpl; auto|]. destruct g; simpl; (split; [auto|]); auto.
    + unfold fset. destruct (Nat.eqb_spec k j); subst; rewrite ?in_app_iff; tauto.
    + unfold fset. destruct (Nat.eqb_spec k j); subst; rewrite ?in_app_iff; tauto.
  - inversion H; subst; simpl. auto.
  - destruct (length conds <? j); inversion H; subst; simpl; auto.
  - rewrite !live_In in *. inversion H; subst; simpl. split; auto. intuition congruence.
  - inversion H; subst; simpl. auto.
  - inversion H; subst; simpl. auto.
Qed.
Lemma notices_cons : forall x l, notices (x :: l) = notices [x] ++ notices l.
Proof. intros. unfold notices. simpl. rewrite app_nil_r. auto. Qed.
Lemma run_alternates : forall conds k c d ops m l, ok m -> In c (live m (entered m k)) -> In d (live m (left_ m k)) ->
  ~ In (Cancel c) ops -> ~ In (Cancel d) ops -> quiet (snd (run conds m ops)) ->
  alternating (Entered k c) (Left k d) l (k <=? level m) ->
  alternating (Entered k c) (Left k d) (l ++ filter (is_about k c d) (notices (snd (run conds m ops)))) (k <=? level (fst (run conds m ops))).
Proof.
  intros conds k c d. induction ops as [|o ops IH]; intros m l O C D Nc Nd Q A; cbn [run] in *; [simpl; rewrite app_nil_r; auto|].
  destruct (step conds m o) as (m1 & x) eqn:E. destruct (run conds m1 ops) as (m2 & outs) eqn:R. simpl in Q.
  destruct (step_alternates conds m o m1 x k c d l) as (A1 & C1 & D1); auto.
  { intros ->. apply Nc. left. auto. } { intros ->. apply Nd. left. auto. } { intros l0 e ->. apply (Q l0 e). left. auto. }
  apply step_ok in E; auto. specialize (IH m1 (l ++ filter (is_about k c d) (notices [x])) E C1 D1). rewrite R in IH. simpl in IH.
  cbn [fst snd]. rewrite notices_cons, filter_app, app_assoc. apply IH; auto; intros K; [apply Nc|apply Nd|]; try (right; auto). intros e I. apply (Q K e). right. auto.
Qed.
Lemma alternation : forall conds ops more k c d, let m := fst (run conds new_manager ops) in
  level m < k -> In c (entered m k) -> In d (left_ m k) -> ~ In c (cancelled m) -> ~ In d (cancelled m) ->
  ~ In (Cancel c) more -> ~ In (Cancel d) more -> quiet (snd (run conds m more)) ->
  alternating (Entered k c) (Left k d) (filter (is_about k c d) (notices (snd (run conds m more)))) (k <=? level (fst (run conds m more))).
Proof.
  intros conds ops more k c d m L C D Cc Cd Nc Nd Q. apply (run_alternates conds k c d more m []); auto; try (apply live_In; auto).
  - apply run_ok, new_ok.
  - destruct (Nat.leb_spec k (level m)); [lia|]. constructor.
Qed.

(** * Cancelled callbacks, and callbacks that raise *)
Definition avoids (c : nat) (l : list notice) : Prop := forall x, In x l -> about x <> Some c.
Lemma called_live : forall dead raise g k called e, call_group dead raise g = (k, called, e) -> forall c, In c called -> dead c = false.
Proof.
  intros dead raise g k called e H c I. assert (K : In c (without dead g)).
  { destruct e; [apply call_group_some in H; destruct H as (_ & q & ->); rewrite in_app_iff; auto|apply call_group_none in H; destruct H as (_ & ->); auto]. }
  apply filter_In in K. destruct K as (_ & K). apply negb_true_iff in K. auto.
Qed.
Lemma avoids_app : forall c a b, avoids c a -> avoids c b -> avoids c (a ++ b).
Proof. intros c a b A B x X. apply in_app_iff in X. destruct X; auto. Qed.
Lemma avoids_map : forall c (F : nat -> notice) l, (forall y, about (F y) = Some y) -> (forall y, In y l -> y <> c) -> avoids c (map F l).
Proof. intros c F l E H x X. apply in_map_iff in X. destruct X as (y & <- & Y). rewrite E. intros K. inversion K. eapply H; eauto. Qed.
Lemma avoids_cleaned : forall c k l, avoids c (map (Cleaned k) l).
Proof. intros c k l x X. apply in_map_iff in X. destruct X as (y & <- & _). discriminate. Qed.
Lemma avoids_called : forall c m (F : nat -> notice) raise g k called e, (forall y, about (F y) = Some y) -> In c (cancelled m) ->
  call_group (is_cancelled m) raise g = (k, called, e) -> avoids c (map F called).
Proof.
  intros c m F raise g k called e E I H. apply avoids_map; auto. intros y Y ->. eapply called_live in H; eauto.
  unfold is_cancelled in H. apply (memb_In nateqb_ok) in I. congruence.
Qed.
Lemma enter_avoids : forall n w m m' l e c, In c (cancelled m) -> enter n w m = (m', l, e) -> avoids c l /\ cancelled m' = cancelled m.
Proof.
  intros n w m m' l e c I H. unfold enter in H. cbv zeta in H. destruct (n <? S (level m)); [inversion H; subst; split; auto; intros x []|].
  destruct (call_group _ _ _) as ((kept & called) & e0) eqn:E. apply (avoids_called c _ (Entered (S (level m)))) in E; auto.
  destruct e0; simpl in H; [inversion H; subst; auto|]. destruct (clean_loop _ _ _ _) as ((stay & cleaned) & [x|]); inversion H; subst; split; auto using avoids_app, avoids_cleaned.
Qed.
Lemma leave_avoids : forall n w m m' l e c, In c (cancelled m) -> leave n w m = (m', l, e) -> avoids c l /\ cancelled m' = cancelled m.
Proof.
  intros n w m m' l e c I H. unfold leave in H. cbv zeta in H. destruct (n <? level m); [inversion H; subst; split; auto; intros x []|].
  destruct (call_group _ _ _) as ((kept & called) & e0) eqn:E. apply (avoids_called c _ (Left (level m))) in E; auto.
  destruct e0; simpl in H; [inversion H; subst; auto|]. destruct (level m - 1 =? 0); [|inversion H; subst; auto].
  destruct (call_group _ _ (normal m)) as ((kept' & called') & x) eqn:E'. apply (avoids_called c _ Normal) in E'; auto. inversion H; subst. split; auto using avoids_app.
Qed.
Lemma advance_avoids : forall c fuel n w t m m' l e, In c (cancelled m) -> advance fuel n w t m = (m', l, e) -> avoids c l /\ cancelled m' = cancelled m.
Proof.
  intros c. induction fuel as [|fuel IH]; intros n w t m m' l e I H; cbn [advance] in H; destruct (level m =? t); try (inversion H; subst; split; auto; intros x []; fail).
  destruct (if level m <? t then _ else _) as ((m1 & l1) & e1) eqn:E.
  assert (K : avoids c l1 /\ cancelled m1 = cancelled m) by (destruct (level m <? t); [eapply enter_avoids|eapply leave_avoids]; eauto).
  destruct K as (K & Kc). destruct e1; [inversion H; subst; auto|].
  destruct (advance fuel n w t m1) as ((m2 & l2) & e2) eqn:E2. inversion H; subst. apply IH in E2; [|congruence]. destruct E2. split; [apply avoids_app; auto|congruence].
Qed.
Lemma step_avoids : forall conds m o m' x c, In c (cancelled m) -> step conds m o = (m', x) -> avoids c (notices [x]) /\ In c (cancelled m').
Proof.
  intros conds m o m' x c I H. assert (N : avoids c []) by (intros y []). destruct o as [w|t w|g j| |j o|c'| |]; cbn [step] in H; cbv zeta in H.
  - destruct (running m); [|inversion H; subst; auto]. destruct (loop conds w m) as ((m1 & l1) & e) eqn:E.
    assert (K : avoids c l1 /\ cancelled m1 = cancelled m).
    { unfold loop in E. destruct (stopped m); [inversion E; subst; auto|]. cbv zeta in E. destruct (calculate conds (mem w)); [|inversion E; subst; auto].
      destruct (level (sweep m) =? a).
      - destruct (call_group _ _ _) as ((kept & called) & x0) eqn:G. apply (avoids_called c _ (Remaining a)) in G; auto. inversion E; subst. auto.
      - apply (advance_avoids c) in E; auto. }
    destruct K as (K & Kc). destruct e; inversion H; subst; unfold notices; simpl; rewrite app_nil_r, Kc; auto.
  - destruct (advance_to (length conds) w t m) as ((m1 & l1) & e) eqn:E. apply (advance_avoids c) in E; auto. destruct E as (E & Ec).
    inversion H; subst; unfold notices; simpl; rewrite app_nil_r, Ec; auto.
  - destruct (length conds <? j); inversion H; subst; auto. destruct g; auto.
  - inversion H; subst; auto.
  - destruct (length conds <? j); inversion H; subst; auto.
  - inversion H; subst; simpl; auto.
  - inversion H; subst; auto.
  - inversion H; subst; auto.
Qed.
Lemma cancelled_never : forall conds c ops m, In c (cancelled m) -> forall x, In x (notices (snd (run conds m ops))) -> about x <> Some c.
Proof.
  intros conds c. induction ops as [|o ops IH]; intros m I x X; cbn [run] in X; [contradiction|].
  destruct (step conds m o) as (m1 & y) eqn:E. specialize (IH m1). destruct (run conds m1 ops) as (m2 & outs). cbn [snd] in *.
  apply (step_avoids conds m o m1 y c) in E; auto. destruct E as (E & I'). rewrite notices_cons in X. apply in_app_iff in X. destruct X; auto.
Qed.
(** what is announced before an exception is a beginning of what would have been announced *)
Definition begins {A} (l full : list A) : Prop := exists rest, full = l ++ rest.
Lemma begins_map : forall A B (F : A -> B) l g, begins l g -> begins (map F l) (map F g).
Proof. intros A B F l g (r & ->). exists (map F r). apply map_app. Qed.
Lemma begins_trans_app : forall A (a b c : list A), begins b c -> begins (a ++ b) (a ++ c).
Proof. intros A a b c (r & ->). exists r. apply app_assoc. Qed.
Lemma begins_app : forall A (a b c : list A), begins a b -> begins a (b ++ c).
Proof. intros A a b c (r & ->). exists (r ++ c). rewrite app_assoc. auto. Qed.
Lemma begins_nil : forall A (l : list A), begins [] l.
Proof. intros. exists l. auto. Qed.
Lemma begins_refl : forall A (l : list A), begins l l.
Proof. intros. exists []. rewrite app_nil_r. auto. Qed.
Lemma call_begins : forall m raise g k called e, call_group (is_cancelled m) raise g = (k, called, e) -> begins called (live m g).
Proof.
  intros m raise g k called [e|] H.
  - apply call_group_some in H. destruct H as (_ & q & E). exists q. exact E.
  - apply call_group_none in H. destruct H as (_ & ->). apply begins_refl.
Qed.
Lemma enter_begins : forall n w m m' l e, enter n w m = (m', l, e) -> begins l (enter_notices m w (S (level m))).
Proof.
  intros n w m m' l e H. unfold enter in H. cbv zeta in H. destruct (n <? S (level m)); [inversion H; subst; apply begins_nil|].
  destruct (call_group _ _ _) as ((kept & called) & [x|]) eqn:E; simpl in H.
  - apply (call_begins (set_level m (S (level m)))) in E. inversion H; subst. apply begins_app, begins_map. exact E.
  - apply call_group_none in E. destruct E as (-> & ->). destruct (clean_loop _ _ _ _) as ((stay & cleaned) & [x|]) eqn:C; inversion H; subst.
    + apply clean_some in C. destruct C as (p & q & -> & C). apply begins_trans_app. apply begins_map. exists q. exact C.
    + apply clean_none in C. destruct C as (-> & ->). apply begins_refl.
Qed.
Lemma leave_begins : forall n w m m' l e, leave n w m = (m', l, e) ->
  begins l (leave_notices m (level m) ++ (if level m - 1 =? 0 then map Normal (live m (normal m)) else [])).
Proof.
  intros n w m m' l e H. unfold leave in H. cbv zeta in H. destruct (n <? level m); [inversion H; subst; apply begins_nil|].
  destruct (call_group _ _ _) as ((kept & called) & [x|]) eqn:E; simpl in H.
  - apply (call_begins m) in E. inversion H; subst. apply begins_app, begins_map. exact E.
  - apply call_group_none in E. destruct E as (-> & ->). destruct (level m - 1 =? 0); [|inversion H; subst; rewrite app_nil_r; apply begins_refl].
    destruct (call_group _ _ (normal m)) as ((kept' & called') & x) eqn:E. apply (call_begins (set_level (set_left m (fset (left_ m) (level m) (kept_of (is_cancelled m) (left_ m (level m))))) (level m - 1))) in E.
    inversion H; subst. apply begins_trans_app, begins_map. exact E.
Qed.
Lemma advance_begins : forall fuel n w target m m' l e, advance fuel n w target m = (m', l, e) -> begins l (passage m w target).
Proof.
  induction fuel as [|fuel IH]; intros n w target m m' l e H; cbn [advance] in H; destruct (Nat.eqb_spec (level m) target) as [E|E];
    try (inversion H; subst; apply begins_nil).
  unfold passage. destruct (Nat.ltb_spec (level m) target) as [T|T].
  - destruct (enter n w m) as ((m1 & l1) & [x|]) eqn:E1.
    + inversion H; subst. apply enter_begins in E1. rewrite upwards_cons by auto. apply begins_app; auto.
    + destruct (advance fuel n w target m1) as ((m2 & l2) & e2) eqn:E2. inversion H; subst. apply IH in E2. apply enter_none in E1.
      destruct E1 as (A1 & A2 & -> & A4 & A5). rewrite upwards_cons by auto. apply begins_trans_app. unfold passage in E2. rewrite A2 in E2.
      destruct (Nat.ltb_spec (S (level m)) target); [rewrite <- (upwards_same m m1) by (auto; intros; apply A5; lia); auto|].
      replace target with (S (level m)) in E2 by lia. rewrite Nat.ltb_irrefl in E2. destruct E2 as (r & R). destruct l2; [apply begins_nil|discriminate].
  - assert (T' : target < level m) by lia. destruct (Nat.ltb_spec target (level m)); [|lia]. rewrite downwards_cons by auto.
    assert (K : begins (leave_notices m (level m) ++ (if level m - 1 =? 0 then map Normal (live m (normal m)) else []))
      (leave_notices m (level m) ++ (if level m - 1 =? target then if target =? 0 then map Normal (live m (normal m)) else [] else downwards m (level m - 1) target))).
    { apply begins_trans_app. destruct (Nat.eqb_spec (level m - 1) 0) as [Z|Z]; [|apply begins_nil]. replace target with 0 by lia. rewrite Z. apply begins_refl. }
    destruct (leave n w m) as ((m1 & l1) & [x|]) eqn:E1.
    + inversion H; subst. apply leave_begins in E1. destruct E1 as (r & R), K as (r' & K). exists (r ++ r'). rewrite K, R, app_assoc. auto.
    + destruct (advance fuel n w target m1) as ((m2 & l2) & e2) eqn:E2. inversion H; subst. apply IH in E2. apply leave_none in E1; [|lia].
      destruct E1 as (A1 & A2 & -> & A4 & A5). unfold passage in E2. rewrite A2 in E2. rewrite <- app_assoc. apply begins_trans_app.
      destruct (Nat.eqb_spec (level m - 1) target) as [Z|Z].
      * rewrite Z, Nat.ltb_irrefl in E2. destruct E2 as (r & R). destruct l2; [|discriminate]. rewrite app_nil_r, Z. apply begins_refl.
      * destruct (Nat.eqb_spec (level m - 1) 0); [lia|]. destruct (Nat.ltb_spec (level m - 1) target); [lia|]. destruct (Nat.ltb_spec target (level m - 1)); [|lia].
        rewrite (downwards_same m m1) in E2 by auto. auto.
Qed.
Lemma check_raised : forall conds m w m' l e, running m = true -> stopped m = false -> step conds m (Check w) = (m', Did l (Some e)) ->
  running m' = false /\
  (calculate conds (mem w) = Err e /\ l = [] /\ level m' = level m \/
   exists target rest, calculate conds (mem w) = Ok target /\ announcements m w target = l ++ rest).
Proof.
  intros conds m w m' l e R S H. cbn [step] in H. rewrite R in H. destruct (loop conds w m) as ((m1 & l1) & [x|]) eqn:E; inversion H; subst. split; [reflexivity|].
  unfold loop in E. rewrite S in E. cbv zeta in E. destruct (calculate conds (mem w)) as [target|e'] eqn:C; [|inversion E; subst; left; auto].
  right. exists target. change (exists rest, Ok target = Ok target /\ announcements m w target = l ++ rest).
  assert (K : begins l (announcements m w target)).
  { change (level (sweep m)) with (level m) in E. unfold announcements. destruct (Nat.eqb_spec (level m) target) as [Q|Q].
    - destruct (call_group _ _ _) as ((kept & called) & x) eqn:G. apply (call_begins (sweep m)) in G. inversion E; subst. rewrite Nat.ltb_irrefl. apply begins_map.
      replace (live m (remains m (level m))) with (live (sweep m) (remains (sweep m) (level m))) by (exact (without_idem (is_cancelled m) _)). exact G.
    - apply advance_begins in E. rewrite passage_sweep in E. unfold passage in E. destruct (level m <? target); auto.
      destruct (Nat.ltb_spec target (level m)); auto. destruct E as (r & R'). destruct l; [apply begins_nil|discriminate]. }
  destruct K as (rest & K). eauto.
Qed.
Lemma dead_forever : forall conds ops m, running m = false -> (forall t w, ~ In (Advance t w) ops) ->
  level (fst (run conds m ops)) = level m /\ notices (snd (run conds m ops)) = [].
Proof.
  intros conds. induction ops as [|o ops IH]; intros m R N; auto. cbn [run]. destruct (step conds m o) as (m1 & x) eqn:E.
  assert (K : level m1 = level m /\ running m1 = false /\ notices [x] = []).
  { destruct o as [w|t w|g j| |j o|c'| |]; cbn [step] in E; cbv zeta in E; try (inversion E; subst; auto; fail).
    - rewrite R in E. inversion E; subst; auto.
    - exfalso. apply (N t w). left. auto.
    - destruct (length conds <? j); inversion E; subst; auto. destruct g; auto.
    - destruct (length conds <? j); inversion E; subst; auto. }
  destruct K as (L & R' & Z). specialize (IH m1 R'). destruct (run conds m1 ops) as (m2 & outs). cbn [fst snd] in *.
  destruct IH as (A & B); [intros t w I; apply (N t w); right; auto|]. split; [congruence|]. rewrite notices_cons, Z, B. auto.
Qed.
(** * The level stays among the levels *)
Lemma enter_level : forall n w m m' l e, enter n w m = (m', l, e) -> level m' = S (level m).
Proof.
  intros n w m m' l e H. unfold enter in H. cbv zeta in H. destruct (n <? S (level m)); [inversion H; auto|].
  destruct (call_group _ _ _) as ((kept & called) & [x|]); [inversion H; auto|]. simpl in H. destruct (clean_loop _ _ _ _) as ((a & b) & [x|]); inversion H; auto.
Qed.
Lemma leave_level : forall n w m m' l e, leave n w m = (m', l, e) -> level m' <= level m.
Proof.
  intros n w m m' l e H. unfold leave in H. cbv zeta in H. destruct (n <? level m); [inversion H; auto|].
  destruct (call_group _ _ _) as ((kept & called) & [x|]); [inversion H; auto|]. simpl in H.
  destruct (level m - 1 =? 0); [destruct (call_group _ _ (normal m)) as ((kept' & called') & x)|]; inversion H; subst; simpl; lia.
Qed.
Lemma advance_level : forall fuel n w t m m' l e b, level m <= b -> t <= b -> advance fuel n w t m = (m', l, e) -> level m' <= b.
Proof.
  induction fuel as [|fuel IH]; intros n w t m m' l e b L T H; cbn [advance] in H; destruct (level m =? t); try (inversion H; subst; auto; fail).
  destruct (if level m <? t then _ else _) as ((m1 & l1) & e1) eqn:E.
  assert (K : level m1 <= b) by (destruct (Nat.ltb_spec (level m) t); [apply enter_level in E|apply leave_level in E]; lia).
  destruct e1; [inversion H; subst; auto|]. destruct (advance fuel n w t m1) as ((m2 & l2) & e2) eqn:E2. inversion H; subst. exact (IH _ _ _ _ _ _ _ _ K T E2).
Qed.
Lemma step_level : forall conds m o m' x, level m <= length conds -> (forall t w, o = Advance t w -> t <= length conds) -> step conds m o = (m', x) -> level m' <= length conds.
Proof.
  intros conds m o m' x L B H. destruct o as [w|t w|g j| |j o|c'| |]; cbn [step] in H; cbv zeta in H; try (inversion H; subst; auto; fail).
  - destruct (running m); [|inversion H; subst; auto]. destruct (loop conds w m) as ((m1 & l1) & e) eqn:E.
    assert (K : level m1 <= length conds).
    { unfold loop in E. destruct (stopped m); [inversion E; subst; auto|]. cbv zeta in E. destruct (calculate conds (mem w)) eqn:C; [|inversion E; subst; auto].
      destruct (level (sweep m) =? a).
      - destruct (call_group _ _ _) as ((kept & called) & x0). inversion E; subst. auto.
      - eapply advance_level; [| |exact E]; auto. eapply calculate_le; eauto. }
    destruct e; inversion H; subst; auto.
  - destruct (advance_to (length conds) w t m) as ((m1 & l1) & e) eqn:E. inversion H; subst. eapply advance_level; [| |exact E]; eauto.
  - destruct (length conds <? j); inversion H; subst; auto. destruct g; auto.
  - destruct (length conds <? j); inversion H; subst; auto.
Qed.
Lemma level_bound : forall conds ops m, level m <= length conds -> (forall t w, In (Advance t w) ops -> t <= length conds) ->
  level (fst (run conds m ops)) <= length conds.
Proof.
  intros conds. induction ops as [|o ops IH]; intros m L B; auto. cbn [run]. destruct (step conds m o) as (m1 & x) eqn:E.
  apply step_level in E; auto. 2:{ intros t w ->. apply (B t w). left. auto. }
  specialize (IH m1 E). destruct (run conds m1 ops). apply IH. intros t w I. apply (B t w). right. auto.
Qed.
Lemma checked_total : forall conds ops w x, let m := fst (run conds new_manager ops) in
  (forall t v, In (Advance t v) ops -> t <= length conds) -> running m = true ->
  (forall c, raises w c = false) -> (forall o, collector_raises w o = false) ->
  sane (mem w) -> maximum (mem w) = Some x -> (forall f, exists b, custom (mem w) f = Ok b) ->
  exists m' l, step conds m (Check w) = (m', Did l None).
Proof. intros conds ops w x m B R C1 C2 S M C. apply (checked_calm conds m w x); auto; [apply level_bound; auto; simpl; lia|split; auto]. Qed.

Lemma registering conds m k :
  (length conds < k ->
    (forall o, step conds m (CleanupOnEntered k o) = (m, Refused IndexError)) /\
    (forall d, exists m', step conds m (Register d k) = (m', Refused IndexError) /\
       entered m' = entered m /\ left_ m' = left_ m /\ remains m' = remains m /\ level m' = level m)) /\
  (k <= length conds -> forall o, exists m', step conds m (CleanupOnEntered k o) = (m', Fine) /\ objects m' k = objects m k ++ [o] /\
     (forall j, j <> k -> objects m' j = objects m j) /\ entered m' = entered m /\ left_ m' = left_ m /\ remains m' = remains m /\ level m' = level m).
Proof.
  cbn [step]. split.
  - intros L. apply Nat.ltb_lt in L. rewrite L. split; [reflexivity|]. intros d. eexists. split; [reflexivity|]. repeat split.
  - intros L o. apply Nat.ltb_ge in L. rewrite L. eexists. split; [reflexivity|]. cbn. unfold fset. rewrite Nat.eqb_refl. repeat split.
    intros j N. apply Nat.eqb_neq in N. rewrite N. auto.
Qed.
