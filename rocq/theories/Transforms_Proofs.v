From Coq Require Import QArith Qround Qabs Lqa.
From Verif Require Import Prelude PreludeFacts MoreFacts PySeq_Model PyGen_Model Transforms_Model Transforms_Spec.
Local Open Scope Z_scope.

Lemma qlt_true a b : qlt a b = true <-> (a < b)%Q.
Proof.
  unfold qlt. rewrite negb_true_iff. split; intros H.
  - apply Qnot_le_lt. intros X. apply Qle_bool_iff in X. congruence.
  - destruct (Qle_bool b a) eqn:E; auto. apply Qle_bool_iff in E. apply Qle_not_lt in E. contradiction.
Qed.
Lemma qlt_false a b : qlt a b = false <-> (b <= a)%Q.
Proof. unfold qlt. rewrite negb_false_iff. apply Qle_bool_iff. Qed.

Lemma clip_ok v lo hi : (lo <= hi)%Q -> nearest lo hi v (clip v lo hi).
Proof.
  intros H. unfold clip. destruct (qlt v lo) eqn:E1; [apply qlt_true in E1|apply qlt_false in E1; destruct (qlt hi v) eqn:E2; [apply qlt_true in E2|apply qlt_false in E2]].
  - split; [lra|]. intros x Hx. rewrite !(Qabs_neg (v - _)) by lra. lra.
  - split; [lra|]. intros x Hx. rewrite !(Qabs_pos (v - _)) by lra. lra.
  - split; [lra|]. intros x Hx. setoid_replace (v - v)%Q with 0%Q by ring. apply Qabs_nonneg.
Qed.
Lemma clip_inside v lo hi : (lo <= v <= hi)%Q -> clip v lo hi = v.
Proof.
  intros H. unfold clip. replace (qlt v lo) with false by (symmetry; apply qlt_false; lra).
  replace (qlt hi v) with false by (symmetry; apply qlt_false; lra). reflexivity.
Qed.

(** ** percentile *)
Lemma py_index_nat {A} (l : list A) n : py_index l (Z.of_nat n) = nth_error l n.
Proof.
  unfold py_index. replace (Z.of_nat n <? 0) with false by (symmetry; apply Z.ltb_ge; lia).
  replace (Z.of_nat n <? 0) with false by (symmetry; apply Z.ltb_ge; lia). rewrite Nat2Z.id. reflexivity.
Qed.

Lemma floor_range k n : (inject_Z n <= k)%Q -> (k <= inject_Z (n + 1))%Q ->
  ((k == inject_Z n)%Q /\ Qfloor k = n /\ Qceiling k = n) \/ ((k == inject_Z (n + 1))%Q /\ Qfloor k = n + 1 /\ Qceiling k = n + 1) \/
  ((inject_Z n < k < inject_Z (n + 1))%Q /\ Qfloor k = n /\ Qceiling k = n + 1).
Proof.
  intros H1 H2. destruct (Qeq_dec k (inject_Z n)) as [E|E].
  { left. split; auto. rewrite E, Qfloor_Z, Qceiling_Z. auto. }
  destruct (Qeq_dec k (inject_Z (n + 1))) as [E'|E'].
  { right. left. split; auto. rewrite E', Qfloor_Z, Qceiling_Z. auto. }
  right. right. assert (inject_Z n < k)%Q as L1.
  { apply Qle_lteq in H1. destruct H1 as [|H1]; auto. symmetry in H1. contradiction. }
  assert (k < inject_Z (n + 1))%Q as L2 by (apply Qle_lteq in H2; destruct H2; [auto|contradiction]).
  split; [auto|]. pose proof (Qfloor_le k) as F1. pose proof (Qlt_floor k) as F2.
  pose proof (Qle_ceiling k) as C1. pose proof (Qceiling_lt k) as C2.
  assert (forall a b, (inject_Z a < inject_Z b)%Q -> a < b) as Z1 by (intros a b X; rewrite Zlt_Qlt; auto).
  pose proof (Z1 n (Qfloor k + 1) (Qlt_trans _ _ _ L1 F2)).
  pose proof (Z1 (Qfloor k) (n + 1) (Qle_lt_trans _ _ _ F1 L2)).
  pose proof (Z1 n (Qceiling k) (Qlt_le_trans _ _ _ L1 C1)).
  pose proof (Z1 (Qceiling k - 1) (n + 1) (Qlt_trans _ _ _ C2 L2)). lia.
Qed.

Definition pos_of (n : list Q) (p : Q) : Q := (inject_Z (Z.of_nat (length n) - 1) * p)%Q.
Lemma percentile_between n p i a b :
  nth_error n i = Some a -> nth_error n (S i) = Some b ->
  (inject_Z (Z.of_nat i) <= pos_of n p)%Q -> (pos_of n p <= inject_Z (Z.of_nat (S i)))%Q ->
  exists x, percentile n p = Ok x /\ (x == line (inject_Z (Z.of_nat i)) a (inject_Z (Z.of_nat (S i))) b (pos_of n p))%Q.
Proof.
  intros Ha Hb H1 H2. unfold percentile. fold (pos_of n p). set (k := pos_of n p) in *.
  assert (Z.of_nat (S i) = Z.of_nat i + 1) as ES by lia. rewrite ES in H2.
  assert (inject_Z (Z.of_nat (S i)) == inject_Z (Z.of_nat i) + 1)%Q as EQ by (rewrite ES, inject_Z_plus; reflexivity).
  assert (py_index n (Z.of_nat i + 1) = Some b) as Hb' by (rewrite <- ES, py_index_nat; auto).
  destruct (floor_range k (Z.of_nat i) H1 H2) as [(E & F & C)|[(E & F & C)|(L & F & C)]]; rewrite F, C.
  - rewrite Z.eqb_refl, py_index_nat, Ha. exists a. split; auto. unfold line. rewrite E, EQ. field.
    setoid_replace (inject_Z (Z.of_nat i) + 1 - inject_Z (Z.of_nat i))%Q with 1%Q by ring. discriminate.
  - rewrite Z.eqb_refl, Hb'. exists b. split; auto. unfold line. rewrite EQ, E, inject_Z_plus. change (inject_Z 1) with 1%Q. field.
    setoid_replace (inject_Z (Z.of_nat i) + 1 - inject_Z (Z.of_nat i))%Q with 1%Q by ring. discriminate.
  - replace (Z.of_nat i =? Z.of_nat i + 1) with false by (symmetry; apply Z.eqb_neq; lia).
    rewrite py_index_nat, Ha, Hb'. eexists. split; [reflexivity|]. unfold line. rewrite EQ, inject_Z_plus. change (inject_Z 1) with 1%Q.
    field. setoid_replace (inject_Z (Z.of_nat i) + 1 - inject_Z (Z.of_nat i))%Q with 1%Q by ring. discriminate.
Qed.

Lemma percentile_single x p : percentile [x] p = Ok x.
Proof.
  unfold percentile. cbn [length]. change (Z.of_nat 1 - 1) with 0. cbv zeta.
  assert ((inject_Z 0 * p) == inject_Z 0)%Q as E by (change (inject_Z 0) with 0%Q; ring).
  rewrite (Qfloor_comp _ _ E), (Qceiling_comp _ _ E). reflexivity.
Qed.

Lemma line_bounds x1 y1 x2 y2 x : (x1 < x2)%Q -> (x1 <= x <= x2)%Q -> (y1 <= y2)%Q -> (y1 <= line x1 y1 x2 y2 x <= y2)%Q.
Proof.
  intros H1 H2 H3. unfold line.
  assert (0 <= (x - x1) * (y2 - y1) / (x2 - x1))%Q as A.
  { apply Qle_shift_div_l; [lra|]. setoid_replace (0 * (x2 - x1))%Q with 0%Q by ring. apply Qmult_le_0_compat; lra. }
  assert ((x - x1) * (y2 - y1) / (x2 - x1) <= y2 - y1)%Q as B.
  { apply Qle_shift_div_r; [lra|]. rewrite (Qmult_comm (y2 - y1)). apply Qmult_le_compat_r; lra. }
  lra.
Qed.
Lemma line_bounds_desc x1 y1 x2 y2 x : (x1 < x2)%Q -> (x1 <= x <= x2)%Q -> (y2 <= y1)%Q -> (y2 <= line x1 y1 x2 y2 x <= y1)%Q.
Proof.
  intros H1 H2 H3. pose proof (line_bounds x1 (-y1) x2 (-y2) x H1 H2 ltac:(lra)) as H.
  setoid_replace (line x1 (- y1) x2 (- y2) x) with (- line x1 y1 x2 y2 x)%Q in H by (unfold line; field; lra). lra.
Qed.
Lemma line_mono x1 y1 x2 y2 x x' : (x1 < x2)%Q -> (y1 <= y2)%Q -> (x <= x')%Q -> (line x1 y1 x2 y2 x <= line x1 y1 x2 y2 x')%Q.
Proof.
  intros H1 H2 H3. unfold line. apply Qplus_le_r. apply Qle_shift_div_l; [lra|].
  setoid_replace ((x - x1) * (y2 - y1) / (x2 - x1) * (x2 - x1))%Q with ((x - x1) * (y2 - y1))%Q by (field; lra).
  apply Qmult_le_compat_r; lra.
Qed.

(** a cell of the grid for every percent in [0, 1] *)
Lemma cell n p : (2 <= length n)%nat -> (0 <= p <= 1)%Q ->
  exists i, (S i < length n)%nat /\ (inject_Z (Z.of_nat i) <= pos_of n p)%Q /\ (pos_of n p <= inject_Z (Z.of_nat (S i)))%Q.
Proof.
  intros Hn Hp. unfold pos_of. set (m := Z.of_nat (length n) - 1).
  assert (0 <= inject_Z m)%Q as Hm by (change 0%Q with (inject_Z 0); rewrite <- Zle_Qle; lia).
  set (k := (inject_Z m * p)%Q). assert (0 <= k)%Q as K0 by (apply Qmult_le_0_compat; lra).
  assert (k <= inject_Z m)%Q as K1.
  { unfold k. setoid_replace (inject_Z m) with (inject_Z m * 1)%Q at 2 by ring. rewrite !(Qmult_comm (inject_Z m)). apply Qmult_le_compat_r; lra. }
  destruct (Z_lt_le_dec (Qfloor k) m) as [L|L].
  - pose proof (Qfloor_le k) as F1. pose proof (Qlt_floor k) as F2.
    assert (0 <= Qfloor k) as F0 by (change 0 with (Qfloor 0); apply Qfloor_resp_le; auto).
    exists (Z.to_nat (Qfloor k)). split; [lia|]. rewrite Nat2Z.inj_succ, Z2Nat.id by lia. split; [auto|]. unfold Z.succ. lra.
  - assert (k == inject_Z m)%Q as E.
    { apply Qle_antisym; auto. apply Qle_trans with (inject_Z (Qfloor k)); [rewrite <- Zle_Qle; auto|apply Qfloor_le]. }
    exists (length n - 2)%nat. split; [lia|]. replace (Z.of_nat (S (length n - 2))) with m by lia.
    rewrite E. split; [rewrite <- Zle_Qle; lia|apply Qle_refl].
Qed.

Lemma inj_succ_lt i : (inject_Z (Z.of_nat i) < inject_Z (Z.of_nat (S i)))%Q.
Proof. rewrite <- Zlt_Qlt. lia. Qed.

Lemma percentile_cases n p : n <> [] -> (0 <= p <= 1)%Q ->
  (exists x, n = [x] /\ percentile n p = Ok x) \/
  (exists i a b x, nth_error n i = Some a /\ nth_error n (S i) = Some b /\ percentile n p = Ok x /\
    (inject_Z (Z.of_nat i) <= pos_of n p <= inject_Z (Z.of_nat (S i)))%Q /\
    (x == line (inject_Z (Z.of_nat i)) a (inject_Z (Z.of_nat (S i))) b (pos_of n p))%Q).
Proof.
  intros Hn Hp. destruct n as [|x [|y r]]; [congruence|left; exists x; split; auto; apply percentile_single|right].
  destruct (cell (x :: y :: r) p) as (i & Hi & H1 & H2); [simpl; lia|auto|]. set (l := x :: y :: r) in *.
  destruct (nth_error l i) as [a|] eqn:Ea; [|apply nth_error_None in Ea; lia].
  destruct (nth_error l (S i)) as [b|] eqn:Eb; [|apply nth_error_None in Eb; lia].
  destruct (percentile_between l p i a b Ea Eb H1 H2) as (v & Ev & Hv). exists i, a, b, v. auto 10.
Qed.

Lemma percentile_bounds n p lo hi : n <> [] -> ordered n -> (0 <= p <= 1)%Q ->
  nth_error n 0 = Some lo -> nth_error n (length n - 1) = Some hi ->
  exists x, percentile n p = Ok x /\ (lo <= x <= hi)%Q.
Proof.
  intros Hn Ho Hp Hlo Hhi. destruct (percentile_cases n p Hn Hp) as [(x & -> & E)|(i & a & b & x & Ha & Hb & E & Hk & Hx)].
  - simpl in *. exists x. inversion Hlo; inversion Hhi; subst. split; auto. lra.
  - exists x. split; auto. assert (S i < length n)%nat as Hi by (apply nth_error_Some; congruence).
    assert (a <= b)%Q as Hab by (apply (Ho i (S i)); auto).
    assert (lo <= a)%Q by (apply (Ho 0%nat i); auto; lia). assert (b <= hi)%Q by (apply (Ho (S i) (length n - 1)%nat); auto; lia).
    pose proof (line_bounds _ a _ b _ (inj_succ_lt i) Hk Hab). lra.
Qed.

Lemma percentile_mono n p q x y : n <> [] -> ordered n -> (0 <= p)%Q -> (p <= q)%Q -> (q <= 1)%Q ->
  percentile n p = Ok x -> percentile n q = Ok y -> (x <= y)%Q.
Proof.
  intros Hn Ho H0 Hpq H1 Ex Ey.
  destruct (percentile_cases n p Hn ltac:(lra)) as [(z & -> & E)|(i & a & b & x' & Ha & Hb & E & Hk & Hx)].
  { rewrite percentile_single in *. inversion Ex; inversion Ey; subst. lra. }
  destruct (percentile_cases n q Hn ltac:(lra)) as [(z & -> & E')|(j & c & d & y' & Hc & Hd & E' & Hk' & Hy)].
  { rewrite percentile_single in *. inversion Ex; inversion Ey; subst. lra. }
  rewrite E in Ex. rewrite E' in Ey. inversion Ex; inversion Ey; subst. rewrite Hx, Hy.
  assert (pos_of n p <= pos_of n q)%Q as Hpos.
  { unfold pos_of. rewrite !(Qmult_comm (inject_Z _)). apply Qmult_le_compat_r; auto. change 0%Q with (inject_Z 0).
    rewrite <- Zle_Qle. destruct n; [congruence|simpl length; lia]. }
  assert (a <= b)%Q as Hab by (apply (Ho i (S i)); auto). assert (c <= d)%Q as Hcd by (apply (Ho j (S j)); auto).
  destruct (lt_eq_lt_dec i j) as [[Hij|Hij]|Hij].
  - assert (b <= c)%Q by (apply (Ho (S i) j); auto).
    pose proof (line_bounds _ a _ b _ (inj_succ_lt i) Hk Hab). pose proof (line_bounds _ c _ d _ (inj_succ_lt j) Hk' Hcd). lra.
  - subst j. rewrite Ha in Hc. rewrite Hb in Hd. inversion Hc; inversion Hd; subst. apply line_mono; auto. apply inj_succ_lt.
  - (* then both stand at the same point *)
    assert (inject_Z (Z.of_nat (S j)) <= inject_Z (Z.of_nat i))%Q as X by (rewrite <- Zle_Qle; lia).
    assert (pos_of n p == inject_Z (Z.of_nat i))%Q as P1 by lra. assert (pos_of n q == inject_Z (Z.of_nat (S j)))%Q as P2 by lra.
    assert (inject_Z (Z.of_nat (S j)) == inject_Z (Z.of_nat i))%Q as P3 by lra.
    assert (S j = i) as <-. { unfold Qeq in P3. simpl in P3. lia. }
    rewrite Hd in Ha. inversion Ha; subst.
    pose proof (inj_succ_lt j). pose proof (inj_succ_lt (S j)).
    setoid_replace (line (inject_Z (Z.of_nat (S j))) a (inject_Z (Z.of_nat (S (S j)))) b (pos_of n p)) with a by (unfold line; rewrite P1; field; lra).
    setoid_replace (line (inject_Z (Z.of_nat j)) c (inject_Z (Z.of_nat (S j))) a (pos_of n q)) with a by (unfold line; rewrite P2; field; lra).
    lra.
Qed.

(** ** linear_interpolate *)
Lemma bisect_ok a x : ordered a -> forall fuel lo hi, (hi - lo < fuel)%nat -> (lo <= hi)%nat -> (hi <= length a)%nat ->
  (forall i v, (i < lo)%nat -> nth_error a i = Some v -> (v < x)%Q) ->
  (forall i v, (hi <= i)%nat -> nth_error a i = Some v -> (x <= v)%Q) ->
  let r := bisect_left_loop fuel a x lo hi in
  (lo <= r <= hi)%nat /\ (forall i v, (i < r)%nat -> nth_error a i = Some v -> (v < x)%Q) /\
  (forall i v, (r <= i)%nat -> nth_error a i = Some v -> (x <= v)%Q).
Proof.
  intros Ho. induction fuel as [|fuel IH]; intros lo hi Hf Hlh Hh Hlo Hhi; [lia|]. cbn [bisect_left_loop].
  destruct (Nat.ltb lo hi) eqn:E.
  - apply Nat.ltb_lt in E. set (mid := Nat.div2 (lo + hi)).
    assert (lo <= mid < hi)%nat as Hm. { unfold mid. rewrite Nat.div2_div. pose proof (Nat.div_mod (lo + hi) 2). pose proof (Nat.mod_upper_bound (lo + hi) 2). lia. }
    assert (exists m, nth_error a mid = Some m) as [m Em] by (destruct (nth_error a mid) eqn:X; eauto; apply nth_error_None in X; lia).
    rewrite (nth_error_nth a mid 0%Q Em). destruct (qlt m x) eqn:Ex.
    + apply qlt_true in Ex. destruct (IH (S mid) hi) as (R1 & R2 & R3); auto; try lia.
      * intros i v Hi Hv. assert (v <= m)%Q by (apply (Ho i mid); auto; lia). lra.
      * split; [lia|auto].
    + apply qlt_false in Ex. destruct (IH lo mid) as (R1 & R2 & R3); auto; try lia.
      * intros i v Hi Hv. assert (m <= v)%Q by (apply (Ho mid i); auto; lia). lra.
      * split; [lia|auto].
  - apply Nat.ltb_ge in E. assert (lo = hi) by lia. subst. split; [lia|]. auto.
Qed.

Lemma nth_last {A} (l : list A) : l <> [] -> py_index l (-1) = nth_error l (length l - 1).
Proof.
  intros H. unfold py_index. change (-1 <? 0) with true. cbv iota. destruct l as [|x l]; [congruence|].
  replace (-1 + Z.of_nat (length (x :: l)) <? 0) with false by (symmetry; apply Z.ltb_ge; simpl length; lia).
  f_equal. simpl length. lia.
Qed.

Lemma interpolate_ok series t c : series <> [] -> ordered (map fst series) ->
  forall t0 v0 tn vn, nth_error series 0 = Some (t0, v0) -> nth_error series (length series - 1) = Some (tn, vn) ->
  ((t < t0)%Q -> linear_interpolate series t c = if c then Ok v0 else Err ValueError) /\
  ((tn < t)%Q -> linear_interpolate series t c = if c then Ok vn else Err ValueError) /\
  ((t == t0)%Q -> linear_interpolate series t c = Ok v0) /\
  (forall i t1 v1 t2 v2, nth_error series i = Some (t1, v1) -> nth_error series (S i) = Some (t2, v2) -> (t1 < t <= t2)%Q ->
     exists x, linear_interpolate series t c = Ok x /\ (x == line t1 v1 t2 v2 t)%Q).
Proof.
  intros Hn Ho t0 v0 tn vn H0 Hl. unfold linear_interpolate.
  rewrite (nth_last series Hn), Hl. replace (py_index series 0) with (Some (t0, v0)) by (rewrite <- H0; symmetry; apply (py_index_nat series 0%nat)).
  assert (nth_error (map fst series) 0 = Some t0) as M0 by (rewrite nth_error_map, H0; reflexivity).
  assert (nth_error (map fst series) (length series - 1) = Some tn) as Mn by (rewrite nth_error_map, Hl; reflexivity).
  assert (t0 <= tn)%Q as H0n by (apply (Ho 0%nat (length series - 1)%nat); auto; lia).
  split; [|split; [|split]].
  - intros H. apply qlt_true in H. rewrite H. reflexivity.
  - intros H. replace (qlt t t0) with false by (symmetry; apply qlt_false; lra). apply qlt_true in H. rewrite H. reflexivity.
  - intros H. replace (qlt t t0) with false by (symmetry; apply qlt_false; lra).
    replace (qlt tn t) with false by (symmetry; apply qlt_false; lra). apply Qeq_bool_iff in H. rewrite H. reflexivity.
  - intros i t1 v1 t2 v2 H1 H2 Ht.
    assert (S i < length series)%nat as Hi by (apply nth_error_Some; congruence).
    assert (nth_error (map fst series) i = Some t1) as M1 by (rewrite nth_error_map, H1; reflexivity).
    assert (nth_error (map fst series) (S i) = Some t2) as M2 by (rewrite nth_error_map, H2; reflexivity).
    assert (t0 <= t1)%Q by (apply (Ho 0%nat i); auto; lia).
    assert (t2 <= tn)%Q by (apply (Ho (S i) (length series - 1)%nat); auto; lia).
    replace (qlt t t0) with false by (symmetry; apply qlt_false; lra).
    replace (qlt tn t) with false by (symmetry; apply qlt_false; lra).
    destruct (Qeq_bool t t0) eqn:E; [apply Qeq_bool_iff in E; lra|].
    destruct (bisect_ok (map fst series) t Ho (S (length (map fst series))) 0 (length (map fst series))) as (R1 & R2 & R3); try lia.
    { intros j v Hj Hv. assert (j < length (map fst series))%nat by (apply nth_error_Some; congruence). lia. }
    fold (bisect_left (map fst series) t) in R1, R2, R3. set (r := bisect_left (map fst series) t) in *.
    assert (r = S i) as Er.
    { destruct (lt_eq_lt_dec r (S i)) as [[X|X]|X]; auto.
      - assert (t <= t1)%Q by (apply (R3 i); auto; lia). lra.
      - assert (t2 < t)%Q by (apply (R2 (S i)); auto). lra. }
    rewrite Er. replace (Z.of_nat (S i) - 1) with (Z.of_nat i) by lia.
    replace (Z.of_nat i =? Z.of_nat (length series) - 1) with false by (symmetry; apply Z.eqb_neq; lia).
    replace (Z.of_nat i + 1) with (Z.of_nat (S i)) by lia. rewrite !py_index_nat, H1, H2.
    replace (Qle_bool t1 t) with true by (symmetry; apply Qle_bool_iff; lra).
    replace (Qle_bool t t2) with true by (symmetry; apply Qle_bool_iff; lra). simpl.
    destruct (Qeq_bool t2 t1) eqn:E2; [apply Qeq_bool_iff in E2; lra|].
    eexists. split; [reflexivity|]. unfold line. field. lra.
Qed.

Lemma strictly_ordered_ordered l : strictly_ordered l -> ordered l.
Proof.
  intros H i j a b Hij Ha Hb. destruct (Nat.eq_dec i j) as [->|]; [rewrite Ha in Hb; inversion Hb; lra|].
  apply Qlt_le_weak. apply (H i j); auto. lia.
Qed.

(** the stored value at every stored abscissa *)
Lemma interpolate_stored series t v c : strictly_ordered (map fst series) -> In (t, v) series ->
  exists x, linear_interpolate series t c = Ok x /\ (x == v)%Q.
Proof.
  intros Ho Hin. apply In_nth_error in Hin. destruct Hin as [i Hi].
  assert (series <> []) as Hn by (intros ->; destruct i; discriminate).
  assert (i < length series)%nat as Hil by (apply nth_error_Some; congruence).
  destruct (nth_error series 0) as [[t0 v0]|] eqn:E0; [|apply nth_error_None in E0; lia].
  destruct (nth_error series (length series - 1)) as [[tn vn]|] eqn:En; [|apply nth_error_None in En; lia].
  destruct (interpolate_ok series t c Hn (strictly_ordered_ordered _ Ho) t0 v0 tn vn E0 En) as (_ & _ & A & B).
  destruct i as [|i].
  - rewrite Hi in E0. inversion E0; subst. exists v0. split; [apply A|]; apply Qeq_refl.
  - destruct (nth_error series i) as [[t1 v1]|] eqn:E1; [|apply nth_error_None in E1; lia].
    assert (t1 < t)%Q as Hlt by (apply (Ho i (S i)); [lia|rewrite nth_error_map, E1; reflexivity|rewrite nth_error_map, Hi; reflexivity]).
    destruct (B i t1 v1 t v E1 Hi) as (x & Ex & Hx); [lra|]. exists x. split; auto. rewrite Hx. unfold line. field. lra.
Qed.

(** between the first and the last abscissa there is always a value, between neighbours *)
Lemma interpolate_inside series t c : series <> [] -> ordered (map fst series) ->
  forall t0 v0 tn vn, nth_error series 0 = Some (t0, v0) -> nth_error series (length series - 1) = Some (tn, vn) ->
  (t0 < t <= tn)%Q -> exists i t1 v1 t2 v2 x, nth_error series i = Some (t1, v1) /\ nth_error series (S i) = Some (t2, v2) /\
    (t1 < t <= t2)%Q /\ linear_interpolate series t c = Ok x /\ ((v1 <= x <= v2)%Q \/ (v2 <= x <= v1)%Q).
Proof.
  intros Hn Ho t0 v0 tn vn H0 Hl Ht.
  assert (exists i, (S i < length series)%nat /\ forall t1 v1 t2 v2, nth_error series i = Some (t1, v1) ->
            nth_error series (S i) = Some (t2, v2) -> (t1 < t <= t2)%Q) as (i & Hi & Hc).
  { assert (forall k, (k < length series)%nat -> (exists tk vk, nth_error series k = Some (tk, vk) /\ (t <= tk)%Q) ->
      exists i, (S i < length series)%nat /\ forall t1 v1 t2 v2, nth_error series i = Some (t1, v1) ->
            nth_error series (S i) = Some (t2, v2) -> (t1 < t <= t2)%Q) as G.
    { induction k as [|k IH]; intros Hk (tk & vk & Ek & Hle).
      - rewrite H0 in Ek. inversion Ek; subst. lra.
      - destruct (nth_error series k) as [[t1 v1]|] eqn:E1; [|apply nth_error_None in E1; lia].
        destruct (Qlt_le_dec t1 t) as [L|L].
        + exists k. split; auto. intros a b c' d Ha Hb. rewrite E1 in Ha. rewrite Ek in Hb. inversion Ha; inversion Hb; subst. lra.
        + apply IH; [lia|]. exists t1, v1. auto. }
    apply (G (length series - 1)%nat); [destruct series; [congruence|simpl; lia]|]. exists tn, vn. split; [auto|lra]. }
  destruct (nth_error series i) as [[t1 v1]|] eqn:E1; [|apply nth_error_None in E1; lia].
  destruct (nth_error series (S i)) as [[t2 v2]|] eqn:E2; [|apply nth_error_None in E2; lia].
  specialize (Hc t1 v1 t2 v2 eq_refl eq_refl).
  destruct (interpolate_ok series t c Hn Ho t0 v0 tn vn H0 Hl) as (_ & _ & _ & B).
  destruct (B i t1 v1 t2 v2 E1 E2 Hc) as (x & Ex & Hx). exists i, t1, v1, t2, v2, x.
  split; auto. split; auto. split; auto. split; auto. rewrite Hx.
  destruct (Qlt_le_dec v2 v1) as [L|L]; [right; apply line_bounds_desc; lra|left; apply line_bounds; lra].
Qed.

(** ** the rest *)
Lemma pad_loop_ok {T} (m : Z) (f : nat -> T) : m <> 0 -> forall k fuel i l,
  (k < fuel)%nat -> (m | Z.of_nat (length l + k)) -> (forall n', (n' < k)%nat -> ~ (m | Z.of_nat (length l + n'))) ->
  pad_loop fuel m f i l = Ok (l ++ map f (seq i k)).
Proof.
  intros Hm. induction k as [|k IH]; intros fuel i l Hf Hd Hmin; (destruct fuel as [|fuel]; [lia|]); cbn [pad_loop];
    (replace (m =? 0) with false by (symmetry; apply Z.eqb_neq; auto)).
  - rewrite Nat.add_0_r in Hd. replace (Z.of_nat (length l) mod m =? 0) with true; [simpl; rewrite app_nil_r; auto|].
    symmetry. apply Z.eqb_eq. apply Z.mod_divide; auto.
  - replace (Z.of_nat (length l) mod m =? 0) with false.
    2: { symmetry. apply Z.eqb_neq. intros X. apply Z.mod_divide in X; auto. apply (Hmin 0%nat); [lia|]. rewrite Nat.add_0_r. auto. }
    rewrite (IH fuel (S i) (l ++ [f i])).
    + rewrite <- app_assoc. reflexivity.
    + lia.
    + rewrite app_length. simpl. replace (length l + 1 + k)%nat with (length l + S k)%nat by lia. auto.
    + intros n' Hn'. rewrite app_length. simpl. replace (length l + 1 + n')%nat with (length l + S n')%nat by lia. apply Hmin. lia.
Qed.
Lemma pad_distance (m : Z) (n : nat) : m <> 0 ->
  exists k, (k < Z.to_nat (Z.abs m))%nat /\ (m | Z.of_nat (n + k)) /\ forall k', (k' < k)%nat -> ~ (m | Z.of_nat (n + k')).
Proof.
  intros Hm. set (a := Z.abs m). assert (0 < a) as Ha by lia.
  assert (forall x, (m | x) <-> (a | x)) as Hda by (intros x; unfold a; symmetry; apply Z.divide_abs_l).
  exists (Z.to_nat ((- Z.of_nat n) mod a)). pose proof (Z.mod_pos_bound (- Z.of_nat n) a Ha) as B. split; [lia|]. split.
  - apply Hda. rewrite Nat2Z.inj_add, Z2Nat.id by lia. exists (- (- Z.of_nat n / a)).
    pose proof (Z.div_mod (- Z.of_nat n) a). lia.
  - intros k' Hk' Hd. apply Hda in Hd. destruct Hd as [q Hq].
    assert ((- Z.of_nat n) mod a = Z.of_nat k') as E.
    { symmetry. apply Z.mod_unique with (- q); lia. }
    lia.
Qed.
Lemma pad_ok {T} (none : T) l m pw pf : m <> 0 -> (pw = None \/ pf = None) ->
  exists l', pad_to_multiple_of_length none l m pw pf = Ok l' /\
    padded (match pf with Some f => f | None => fun _ => match pw with Some x => x | None => none end end) m l l'.
Proof.
  intros Hm Hp. destruct (pad_distance m (length l) Hm) as (k & Hk & Hd & Hmin).
  assert (forall f, pad_loop (S (Z.to_nat (Z.abs m))) m f 0 l = Ok (l ++ map f (seq 0 k)) /\ padded f m l (l ++ map f (seq 0 k))) as G.
  { intros f. split.
    - apply pad_loop_ok; auto.
    - exists k. split; auto. split; auto. rewrite app_length, map_length, seq_length. auto. }
  unfold pad_to_multiple_of_length. destruct pw as [x|], pf as [f|]; [destruct Hp; discriminate|..]; eexists; apply G.
Qed.

Lemma split_loop_ok {T} (p : T -> bool) l : forall ns sh,
  split_loop p l ns sh = (ns ++ filter (fun x => negb (p x)) l, sh ++ filter p l).
Proof.
  induction l as [|x l IH]; intros ns sh; simpl; [rewrite !app_nil_r; auto|].
  destruct (p x); rewrite IH, <- app_assoc; reflexivity.
Qed.
Lemma filter_perm_parts {T} (p : T -> bool) l : Permutation l (filter p l ++ filter (fun x => negb (p x)) l).
Proof.
  induction l as [|x l IH]; simpl; auto. destruct (p x); simpl; [constructor; auto|].
  apply Permutation_cons_app. auto.
Qed.

Lemma indices_loop_ok {T} (eqb : T -> T -> bool) : eqb_ok eqb -> forall l idx d,
  match indices_loop eqb idx l d with
  | Ok r => NoDup l /\ (forall x, In x l -> dget eqb d x = None) /\
            (forall x z, dget eqb r x = Some z <-> dget eqb d x = Some z \/ exists i, nth_error l i = Some x /\ z = idx + Z.of_nat i)
  | Err e => e = ValueError /\ (~ NoDup l \/ exists x, In x l /\ dget eqb d x <> None)
  end.
Proof.
  intros He. induction l as [|v l IH]; intros idx d; simpl.
  - split; [constructor|]. split; [contradiction|]. intros x z. split; auto. intros [H|(i & H & _)]; auto. destruct i; discriminate.
  - unfold dmem. destruct (dget eqb d v) as [w|] eqn:E.
    + split; auto. right. exists v. split; auto. congruence.
    + specialize (IH (idx + 1) (dset eqb d v idx)). destruct (indices_loop eqb (idx + 1) l (dset eqb d v idx)) as [r|e].
      * destruct IH as (H1 & H2 & H3).
        assert (~ In v l) as Hv by (intros X; specialize (H2 _ X); rewrite (dget_dset_eq He) in H2; discriminate).
        split; [constructor; auto|]. split.
        -- intros x [<-|Hx]; auto. specialize (H2 _ Hx). destruct (eqb_dec He x v) as [->|Hne]; [contradiction|].
           rewrite (dget_dset_neq He) in H2; auto.
        -- intros x z. rewrite H3. destruct (eqb_dec He x v) as [->|Hne].
           ++ rewrite (dget_dset_eq He). split.
              ** intros [H|(i & H & Hz)]; [inversion H; subst; right; exists 0%nat; split; [auto|lia]|].
                 apply nth_error_In in H. contradiction.
              ** intros [H|(i & H & Hz)]; [congruence|]. destruct i; [left; f_equal; lia|]. simpl in H. apply nth_error_In in H. contradiction.
           ++ rewrite (dget_dset_neq He) by auto. split.
              ** intros [H|(i & H & Hz)]; auto. right. exists (S i). split; [auto|lia].
              ** intros [H|(i & H & Hz)]; auto. destruct i; simpl in H; [inversion H; congruence|]. right. exists i. split; [auto|lia].
      * destruct IH as [-> H]. split; auto. destruct H as [H|(x & Hx & Hd)].
        -- left. intros N. inversion N; auto.
        -- destruct (eqb_dec He x v) as [->|Hne].
           ++ left. intros N. inversion N; contradiction.
           ++ right. exists x. split; auto. rewrite (dget_dset_neq He) in Hd; auto.
Qed.

Lemma words_loop_ok {T} (eqb : T -> T -> bool) : eqb_ok eqb -> forall l i d, NoDup l ->
  forall x z, dget eqb (words_loop eqb i l d) x = Some z <->
    (exists j, nth_error l j = Some x /\ z = i + Z.of_nat j) \/ (~ In x l /\ dget eqb d x = Some z).
Proof.
  intros He. induction l as [|v l IH]; intros i d Hnd x z; simpl.
  - split; auto. intros [(j & H & _)|[_ H]]; auto. destruct j; discriminate.
  - inversion Hnd; subst. rewrite IH by auto. destruct (eqb_dec He x v) as [->|Hne].
    + rewrite (dget_dset_eq He). split.
      * intros [(j & H & _)|[_ H]]; [apply nth_error_In in H; contradiction|]. inversion H; subst. left. exists 0%nat. split; [auto|lia].
      * intros [(j & H & Hz)|[H _]]; [|exfalso; auto]. destruct j; [right; split; auto; f_equal; lia|].
        simpl in H. apply nth_error_In in H. contradiction.
    + rewrite (dget_dset_neq He) by auto. split.
      * intros [(j & H & Hz)|[Hni H]]; [left; exists (S j); split; [auto|lia]|]. right. split; auto. intros [X|X]; auto.
      * intros [(j & H & Hz)|[Hni H]]; [|right; auto]. destruct j; simpl in H; [inversion H; congruence|]. left. exists j. split; [auto|lia].
Qed.

Lemma is_subset_ok {K V} (eqK : K -> K -> bool) (eqV : V -> V -> bool) (sub sup : dict K V) :
  eqb_ok eqK -> eqb_ok eqV ->
  is_subset eqK eqV sub sup = true <-> forall k v, In (k, v) sub -> dget eqK sup k = Some v.
Proof.
  intros HK HV. unfold is_subset. induction sub as [|[k v] t IH]; simpl.
  - split; auto. contradiction.
  - destruct (dget eqK sup k) as [v2|] eqn:E.
    + destruct (eqV v v2) eqn:Ev; simpl.
      * apply HV in Ev. subst. rewrite IH. split; intros H; auto. intros k0 v0 [X|X]; [inversion X; subst|]; auto.
      * split; [discriminate|]. intros H. specialize (H k v (or_introl eq_refl)). apply (eqb_false_iff HV) in Ev. congruence.
    + split; [discriminate|]. intros H. specialize (H k v (or_introl eq_refl)). congruence.
Qed.

Lemma unpack_ok {K V} (eqK : K -> K -> bool) (d : dict K V) f raise_ : forall args,
  (forall key, In key args -> raise_ = true -> dget eqK d key <> None) ->
  (forall key v, In key args -> dget eqK d key = Some v -> exists w, f v = Ok w) ->
  let g := unpack_dict eqK d args f raise_ in
  ends g = None /\ Forall2 (fun key out => match dget eqK d key with
                                           | Some v => exists w, f v = Ok w /\ out = Some w
                                           | None => out = None end) args (map fst (yields g)).
Proof.
  induction args as [|key t IH]; intros H1 H2; simpl; [split; auto|].
  destruct IH as [I1 I2]; [intros k Hk; apply H1; right; auto|intros k v Hk; apply H2; right; auto|].
  destruct (dget eqK d key) as [v|] eqn:E.
  - destruct (H2 key v (or_introl eq_refl) E) as [w Ew]. rewrite Ew. simpl. split; auto. constructor; auto. rewrite E. eauto.
  - destruct raise_; simpl.
    + exfalso. apply (H1 key (or_introl eq_refl) eq_refl). auto.
    + split; auto. constructor; auto. rewrite E. auto.
Qed.
Lemma unpack_missing {K V} (eqK : K -> K -> bool) (d : dict K V) f : forall pre key post,
  (forall k, In k pre -> exists v w, dget eqK d k = Some v /\ f v = Ok w) -> dget eqK d key = None ->
  let g := unpack_dict eqK d (pre ++ key :: post) f true in
  ends g = Some KeyError /\ length (yields g) = length pre.
Proof.
  induction pre as [|k t IH]; intros key post Hp Hk; simpl.
  - rewrite Hk. simpl. auto.
  - destruct (Hp k (or_introl eq_refl)) as (v & w & E & Ef). rewrite E, Ef. simpl.
    destruct (IH key post) as [I1 I2]; auto. intros k' Hk'. apply Hp. right. auto.
Qed.
