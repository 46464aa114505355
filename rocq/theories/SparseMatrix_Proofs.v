From Verif Require Import Prelude PreludeFacts Order_Spec SparseMatrix_Model SparseMatrix_Spec Writeback_Proofs DictObjects_Proofs.
Open Scope Z_scope.

Lemma zeqb_ok : eqb_ok Z.eqb.
Proof. exact Z.eqb_eq. Qed.

Lemma zmax_Some l : forall m, zmax l = Some m -> In m l /\ forall x, In x l -> x <= m.
Proof.
  induction l as [|x t IH]; simpl; intros m H; [discriminate|].
  destruct (zmax t) as [m'|] eqn:E.
  - injection H as <-. destruct (IH m' eq_refl) as [A B]. split.
    + destruct (Z.max_spec x m') as [[_ ->]|[_ ->]]; auto.
    + intros y [<-|Hy]; [lia|]. specialize (B y Hy). lia.
  - injection H as <-. split; auto. destruct t as [|y t]; [intros y [<-|[]]; lia|].
    simpl in E. destruct (zmax t); discriminate.
Qed.
Lemma zmax_In l x : In x l -> exists m, zmax l = Some m.
Proof. destruct l as [|y t]; simpl; [tauto|]. intros _. destruct (zmax t); eauto. Qed.

Section SparseMatrixProofs.
  Context {V : Type}.
  Local Notation dgz := (dget Z.eqb).

  Definition cellr (rows : dict Z (dict Z V)) (c r : Z) : option V :=
    match dgz rows r with Some d => dgz d c | None => None end.
  Definition cell (s : smat V) : cells := cellr (sm_rows s).

  Definition b2n (b : bool) : nat := if b then 1%nat else 0%nat.
  Definition cnt (rows : dict Z (dict Z V)) (c : Z) : nat :=
    length (filter (fun e => dmem Z.eqb (snd e) c) rows).
  Definition has (rows : dict Z (dict Z V)) (c r : Z) : bool :=
    match cellr rows c r with Some _ => true | None => false end.

  Lemma has_old rows c r : has rows c r = match dgz rows r with Some d => dmem Z.eqb d c | None => false end.
  Proof. unfold has, cellr, dmem. destruct (dgz rows r); auto. Qed.

  Lemma cnt_dset rows r d c :
    (cnt (dset Z.eqb rows r d) c + b2n (has rows c r) = cnt rows c + b2n (dmem Z.eqb d c))%nat.
  Proof.
    rewrite has_old. unfold cnt. induction rows as [|[r' d'] t IH]; simpl.
    - destruct (dmem Z.eqb d c); simpl; lia.
    - destruct (Z.eqb r' r) eqn:E; simpl.
      + destruct (dmem Z.eqb d c), (dmem Z.eqb d' c); simpl; lia.
      + destruct (dmem Z.eqb d' c); simpl; lia.
  Qed.
  Lemma cnt_ddel rows r c : (cnt (ddel Z.eqb rows r) c + b2n (has rows c r) = cnt rows c)%nat.
  Proof.
    rewrite has_old. unfold cnt. induction rows as [|[r' d'] t IH]; simpl; auto.
    destruct (Z.eqb r' r) eqn:E; simpl.
    - destruct (dmem Z.eqb d' c); simpl; lia.
    - destruct (dmem Z.eqb d' c); simpl; lia.
  Qed.
  Lemma cnt_pos rows c : dwf rows -> (cnt rows c <> 0%nat <-> exists r, cellr rows c r <> None).
  Proof.
    intros W. unfold cnt. split.
    - intros H. destruct (filter _ rows) as [|[r d] t] eqn:E; [simpl in H; lia|].
      assert (Hin : In (r, d) (filter (fun e => dmem Z.eqb (snd e) c) rows)) by (rewrite E; simpl; auto).
      apply filter_In in Hin. destruct Hin as [Hin Hm]. exists r. unfold cellr.
      rewrite (In_dget zeqb_ok _ _ W Hin). simpl in Hm. unfold dmem in Hm. destruct (dgz d c); congruence.
    - intros (r & H). unfold cellr in H. destruct (dgz rows r) as [d|] eqn:E; [|congruence].
      apply (dget_In zeqb_ok) in E.
      assert (Hin : In (r, d) (filter (fun e => dmem Z.eqb (snd e) c) rows)).
      { apply filter_In. split; auto. simpl. unfold dmem. destruct (dgz d c); congruence. }
      destruct (filter _ rows); simpl in *; [tauto|lia].
  Qed.

  Definition SInv (s : smat V) : Prop :=
    dwf (sm_rows s) /\ (forall r d, dgz (sm_rows s) r = Some d -> dwf d /\ d <> []) /\ dwf (sm_kcc s) /\
    (forall c, dgz (sm_kcc s) c = match cnt (sm_rows s) c with O => None | n => Some n end) /\
    extent (cell s) (sm_nc s) (sm_nr s).

  Lemma empty_inv : SInv sm_empty.
  Proof.
    split; [constructor|]. split; [discriminate|]. split; [constructor|]. split; [intros; reflexivity|].
    split; [intros c r H; destruct H; reflexivity|]. auto.
  Qed.

  Definition updc (m : cells) (c r : Z) (v : option V) : cells :=
    fun x y => if (x =? c) && (y =? r) then v else m x y.

  Lemma cellr_dset rows r d x y : cellr (dset Z.eqb rows r d) x y = if y =? r then dgz d x else cellr rows x y.
  Proof.
    unfold cellr. rewrite (dget_dset_if _ zeqb_ok). rewrite (Z.eqb_sym r y). destruct (y =? r); auto.
  Qed.
  Lemma cellr_ddel rows r x y : dwf rows -> cellr (ddel Z.eqb rows r) x y = if y =? r then None else cellr rows x y.
  Proof.
    intros W. unfold cellr. rewrite (dget_ddel_if _ zeqb_ok) by auto. rewrite (Z.eqb_sym r y). destruct (y =? r); auto.
  Qed.

  Lemma incr_ok (d : dict Z nat) c c' : dwf d ->
    dwf (kcc_incr d c) /\
    dgz (kcc_incr d c) c' = if c =? c' then Some (match dgz d c with Some n => S n | None => 1%nat end) else dgz d c'.
  Proof.
    intros W. unfold kcc_incr. destruct (dgz d c); (split; [apply dset_wf; auto using zeqb_ok|]);
      rewrite (dget_dset_if _ zeqb_ok); auto.
  Qed.

  Lemma sm_put_ok s c r v : SInv s -> 0 <= c -> 0 <= r ->
    SInv (sm_put s c r v) /\ forall x y, cell (sm_put s c r v) x y = updc (cell s) c r (Some v) x y.
  Proof.
    intros (W & WR & WK & K & E1 & E2 & E3) Hc Hr.
    set (row := match dgz (sm_rows s) r with Some d => d | None => [] end).
    assert (Erows : sm_rows (sm_put s c r v) = dset Z.eqb (sm_rows s) r (dset Z.eqb row c v)).
    { unfold sm_put, row. destruct (dgz (sm_rows s) r); auto. }
    assert (Ekcc : sm_kcc (sm_put s c r v) = if has (sm_rows s) c r then sm_kcc s else kcc_incr (sm_kcc s) c).
    { unfold sm_put. rewrite has_old. destruct (dgz (sm_rows s) r) as [d|]; simpl; auto. }
    assert (Enc : sm_nc (sm_put s c r v) = if Z.leb (sm_nc s) c then c + 1 else sm_nc s).
    { unfold sm_put. destruct (dgz (sm_rows s) r); auto. }
    assert (Enr : sm_nr (sm_put s c r v) = if Z.leb (sm_nr s) r then r + 1 else sm_nr s).
    { unfold sm_put. destruct (dgz (sm_rows s) r); auto. }
    assert (Wrow : dwf row).
    { unfold row. destruct (dgz (sm_rows s) r) eqn:E; [apply (WR r); auto|constructor]. }
    assert (Hcell : forall x y, cell (sm_put s c r v) x y = updc (cell s) c r (Some v) x y).
    { intros x y. unfold cell, updc. rewrite Erows, cellr_dset. destruct (y =? r) eqn:Ey; simpl.
      - apply Z.eqb_eq in Ey. subst y. rewrite (dget_dset_if _ zeqb_ok). rewrite (Z.eqb_sym c x), andb_true_r.
        destruct (x =? c); auto. unfold cellr, row. destruct (dgz (sm_rows s) r); auto.
      - rewrite andb_false_r. auto. }
    split; auto. split; [rewrite Erows; apply dset_wf; auto using zeqb_ok|]. split; [|split; [|split]].
    - intros r' d. rewrite Erows, (dget_dset_if _ zeqb_ok). destruct (r =? r'); [|apply WR].
      intros [= <-]. split; [apply dset_wf; auto using zeqb_ok|]. destruct row as [|[a b] t]; simpl; [congruence|].
      destruct (a =? c); congruence.
    - rewrite Ekcc. destruct (has (sm_rows s) c r); auto. apply (incr_ok (sm_kcc s) c c); auto.
    - intros c'. rewrite Erows, Ekcc.
      pose proof (cnt_dset (sm_rows s) r (dset Z.eqb row c v) c') as Hcnt.
      assert (Hm : dmem Z.eqb (dset Z.eqb row c v) c' = if c' =? c then true else has (sm_rows s) c' r).
      { unfold dmem. rewrite (dget_dset_if _ zeqb_ok). rewrite (Z.eqb_sym c c'). destruct (c' =? c); auto.
        rewrite has_old. unfold row, dmem. destruct (dgz (sm_rows s) r); auto. }
      rewrite Hm in Hcnt. destruct (c' =? c) eqn:Ec.
      + apply Z.eqb_eq in Ec. subst c'. destruct (has (sm_rows s) c r); simpl in Hcnt.
        * replace (cnt (dset Z.eqb (sm_rows s) r (dset Z.eqb row c v)) c) with (cnt (sm_rows s) c) by lia. apply K.
        * rewrite (proj2 (incr_ok (sm_kcc s) c c WK)). rewrite Z.eqb_refl, K.
          replace (cnt (dset Z.eqb (sm_rows s) r (dset Z.eqb row c v)) c) with (S (cnt (sm_rows s) c)) by lia.
          destruct (cnt (sm_rows s) c); auto.
      + replace (cnt (dset Z.eqb (sm_rows s) r (dset Z.eqb row c v)) c') with (cnt (sm_rows s) c')
          by (destruct (has (sm_rows s) c' r); simpl in Hcnt; lia).
        rewrite <- K. destruct (has (sm_rows s) c r); auto. rewrite (proj2 (incr_ok (sm_kcc s) c c' WK)).
        rewrite Z.eqb_sym, Ec. auto.
    - assert (Ocr : occupied (cell (sm_put s c r v)) c r).
      { unfold occupied. rewrite Hcell. unfold updc. rewrite !Z.eqb_refl. simpl. congruence. }
      assert (Oold : forall x y, occupied (cell s) x y -> occupied (cell (sm_put s c r v)) x y).
      { intros x y. unfold occupied. rewrite Hcell. unfold updc. destruct ((x =? c) && (y =? r)); auto. congruence. }
      split; [|split].
      + intros x y. rewrite Enc, Enr. unfold occupied. rewrite Hcell. unfold updc.
        destruct ((x =? c) && (y =? r)) eqn:E.
        * apply andb_true_iff in E. destruct E as [Ex Ey]. apply Z.eqb_eq in Ex, Ey. subst. intros _.
          destruct (Z.leb_spec (sm_nc s) c), (Z.leb_spec (sm_nr s) r); lia.
        * intros H. specialize (E1 x y H). destruct (Z.leb_spec (sm_nc s) c), (Z.leb_spec (sm_nr s) r); lia.
      + right. rewrite Enc. destruct (Z.leb_spec (sm_nc s) c).
        * exists r. replace (c + 1 - 1) with c by lia. auto.
        * destruct E2 as [E2|(y & E2)]; [lia|]. exists y. auto.
      + right. rewrite Enr. destruct (Z.leb_spec (sm_nr s) r).
        * exists c. replace (r + 1 - 1) with r by lia. auto.
        * destruct E3 as [E3|(x & E3)]; [lia|]. exists x. auto.
  Qed.

  Lemma sm_drop_ok s c r : SInv s ->
    (cell s c r = None \/ exists x y, occupied (cell s) x y /\ (x, y) <> (c, r)) ->
    exists s', sm_drop s c r = (s', None) /\ SInv s' /\ forall x y, cell s' x y = updc (cell s) c r None x y.
  Proof.
    intros I Hor. pose proof I as (W & WR & WK & K & E1 & E2 & E3).
    assert (Noop : cell s c r = None -> forall x y, cell s x y = updc (cell s) c r None x y).
    { intros E x y. unfold updc. destruct ((x =? c) && (y =? r)) eqn:Exy; auto.
      apply andb_true_iff in Exy. destruct Exy as [Ex Ey]. apply Z.eqb_eq in Ex, Ey. subst. auto. }
    unfold sm_drop. destruct (dgz (sm_rows s) r) as [row|] eqn:Er.
    2:{ exists s. split; auto. split; auto. apply Noop. unfold cell, cellr. rewrite Er. auto. }
    unfold dmem. destruct (dgz row c) as [v|] eqn:Ec.
    2:{ exists s. split; auto. split; auto. apply Noop. unfold cell, cellr. rewrite Er. auto. }
    assert (Hcr : cell s c r = Some v) by (unfold cell, cellr; rewrite Er; auto).
    destruct Hor as [Hor|(x0 & y0 & O0 & N0)]; [congruence|].
    set (rows' := match ddel Z.eqb row c with [] => ddel Z.eqb (sm_rows s) r | _ => dset Z.eqb (sm_rows s) r (ddel Z.eqb row c) end).
    destruct (WR r row Er) as [Wrow Nrow].
    assert (Wr' : dwf rows').
    { unfold rows'. destruct (ddel Z.eqb row c); [apply ddel_wf|apply dset_wf]; auto; exact zeqb_ok. }
    assert (Hcell : forall x y, cellr rows' x y = updc (cell s) c r None x y).
    { intros x y. unfold rows', updc. destruct (ddel Z.eqb row c) as [|e t] eqn:Ed.
      - rewrite cellr_ddel by auto. destruct (y =? r) eqn:Ey; [|rewrite andb_false_r; auto].
        apply Z.eqb_eq in Ey. subst y. rewrite andb_true_r. destruct (x =? c) eqn:Ex; auto.
        unfold cell, cellr. rewrite Er. pose proof (dget_ddel_if Z.eqb zeqb_ok row c x Wrow) as H. rewrite Ed in H.
        rewrite Z.eqb_sym, Ex in H. auto.
      - rewrite <- Ed. rewrite cellr_dset. destruct (y =? r) eqn:Ey; [|rewrite andb_false_r; auto].
        apply Z.eqb_eq in Ey. subst y. rewrite andb_true_r. rewrite (dget_ddel_if _ zeqb_ok) by auto.
        rewrite (Z.eqb_sym c x). destruct (x =? c); auto. unfold cell, cellr. rewrite Er. auto. }
    assert (WR' : forall r' d, dgz rows' r' = Some d -> dwf d /\ d <> []).
    { intros r' d. unfold rows'. destruct (ddel Z.eqb row c) as [|e t] eqn:Ed.
      - rewrite (dget_ddel_if _ zeqb_ok) by auto. destruct (r =? r'); [discriminate|apply WR].
      - rewrite (dget_dset_if _ zeqb_ok). destruct (r =? r'); [|apply WR]. intros [= <-]. split; [|congruence].
        rewrite <- Ed. apply ddel_wf; auto using zeqb_ok. }
    assert (Hcnt : forall c', (cnt rows' c' + (if Z.eqb c' c then 1 else 0) = cnt (sm_rows s) c')%nat).
    { intros c'. assert (Hh : has (sm_rows s) c' r = dmem Z.eqb row c') by (rewrite has_old, Er; auto).
      unfold rows'. destruct (ddel Z.eqb row c) as [|e t] eqn:Ed.
      - pose proof (cnt_ddel (sm_rows s) r c') as H. rewrite Hh in H.
        destruct (c' =? c) eqn:Ex.
        + apply Z.eqb_eq in Ex. subst. unfold dmem in H. rewrite Ec in H. simpl in H. lia.
        + pose proof (dget_ddel_if Z.eqb zeqb_ok row c c' Wrow) as G. rewrite Ed, Z.eqb_sym, Ex in G. simpl in G.
          unfold dmem in H. rewrite <- G in H. simpl in H. lia.
      - pose proof (cnt_dset (sm_rows s) r (ddel Z.eqb row c) c') as H. rewrite <- Ed. rewrite Hh in H.
        unfold dmem in H. rewrite (dget_ddel_if _ zeqb_ok), (Z.eqb_sym c c') in H by auto.
        destruct (c' =? c) eqn:Ex.
        + apply Z.eqb_eq in Ex. subst. rewrite Ec in H. simpl in H. lia.
        + lia. }
    pose proof (Hcnt c) as Hcc. rewrite Z.eqb_refl in Hcc.
    pose proof (K c) as Kc. destruct (cnt (sm_rows s) c) as [|n] eqn:Ecn; [lia|].
    assert (Hkd : exists kcc', kcc_decr (sm_kcc s) c = Some kcc' /\ dwf kcc' /\
              forall c', dgz kcc' c' = match cnt rows' c' with O => None | m => Some m end).
    { unfold kcc_decr. rewrite Kc. eexists. split; [reflexivity|]. destruct (Nat.eqb (S n) 1) eqn:En.
      - apply Nat.eqb_eq in En. split; [apply ddel_wf; auto using zeqb_ok|]. intros c'.
        rewrite (dget_ddel_if _ zeqb_ok) by auto. specialize (Hcnt c'). rewrite (Z.eqb_sym c c').
        destruct (c' =? c) eqn:Ex.
        + apply Z.eqb_eq in Ex. subst. replace (cnt rows' c) with 0%nat by lia. auto.
        + rewrite K. replace (cnt rows' c') with (cnt (sm_rows s) c') by lia. auto.
      - apply Nat.eqb_neq in En. split; [apply dset_wf; auto using zeqb_ok|]. intros c'.
        rewrite (dget_dset_if _ zeqb_ok). specialize (Hcnt c'). rewrite (Z.eqb_sym c c').
        destruct (c' =? c) eqn:Ex.
        + apply Z.eqb_eq in Ex. subst. rewrite Ecn in Hcnt. replace (S n - 1)%nat with (cnt rows' c) by lia.
          destruct (cnt rows' c); [lia|auto].
        + rewrite K. replace (cnt rows' c') with (cnt (sm_rows s) c') by lia. auto. }
    destruct Hkd as (kcc' & -> & WK' & K').
    assert (O0' : cellr rows' x0 y0 <> None).
    { rewrite Hcell. unfold updc. destruct ((x0 =? c) && (y0 =? r)) eqn:E; auto.
      apply andb_true_iff in E. destruct E as [Ex Ey]. apply Z.eqb_eq in Ex, Ey. subst. congruence. }
    assert (Kin : forall x, In x (dkeys kcc') <-> exists y, cellr rows' x y <> None).
    { intros x. rewrite <- (cnt_pos rows' x Wr'). specialize (K' x). split.
      - intros H. destruct (dget_key_Some zeqb_ok kcc' x H) as [m Hm]. destruct (cnt rows' x); congruence.
      - intros H. destruct (cnt rows' x); [congruence|]. apply (dget_Some_key zeqb_ok _ _ K'). }
    destruct (zmax_In (dkeys kcc') x0) as [mc Emc]. { apply Kin. eauto. }
    rewrite Emc.
    assert (Rin : forall y, In y (dkeys rows') <-> exists x, cellr rows' x y <> None).
    { intros y. split.
      - intros H. destruct (dget_key_Some zeqb_ok rows' y H) as [d Hd]. destruct (WR' y d Hd) as [Wd Nd].
        destruct d as [|[x w] t]; [congruence|]. exists x. unfold cellr. rewrite Hd. simpl. rewrite Z.eqb_refl. congruence.
      - intros (x & H). unfold cellr in H. destruct (dgz rows' y) eqn:E; [|congruence].
        apply (dget_Some_key zeqb_ok _ _ E). }
    destruct (zmax_In (dkeys rows') y0) as [mr Emr]. { apply Rin. eauto. }
    rewrite Emr. eexists. split; [reflexivity|].
    destruct (zmax_Some _ _ Emc) as [Mc1 Mc2]. destruct (zmax_Some _ _ Emr) as [Mr1 Mr2].
    split; [|exact Hcell].
    split; [exact Wr'|]. split; [exact WR'|]. split; [exact WK'|]. split; [exact K'|]. cbn [sm_nc sm_nr].
    split; [|split].
    - intros x y O. change (cellr rows' x y <> None) in O. pose proof O as O2. rewrite Hcell in O2. unfold updc in O2.
      destruct ((x =? c) && (y =? r)); [congruence|]. specialize (E1 x y O2).
      specialize (Mc2 x (proj2 (Kin x) (ex_intro _ y O))). specialize (Mr2 y (proj2 (Rin y) (ex_intro _ x O))). lia.
    - right. apply Kin in Mc1. destruct Mc1 as (y & Hy). exists y. replace (mc + 1 - 1) with mc by lia. exact Hy.
    - right. apply Rin in Mr1. destruct Mr1 as (x & Hx). exists x. replace (mr + 1 - 1) with mr by lia. exact Hx.
  Qed.

  (** ** Loops of assignments and deletions *)
  Definition Rep (s : smat V) (m : cells) : Prop := SInv s /\ forall x y, cell s x y = m x y.
  Definition wr := ((Z * Z) * option V)%type.
  Definition doit (s : smat V) (w : wr) : smat V * option exn := sm_setitem s (fst (fst w)) (snd (fst w)) (snd w).

  Lemma sanitize_nonneg i n : 0 <= i -> sanitize i n = i.
  Proof. intros H. unfold sanitize. destruct (Z.ltb_spec i 0); lia. Qed.
  Lemma sanitize_idx i n : sanitize i n = idx i n.
  Proof. reflexivity. Qed.

  Lemma setitem_ok s m c r v : Rep s m -> 0 <= c -> 0 <= r ->
    (v = None -> m c r = None \/ exists x y, occupied m x y /\ (x, y) <> (c, r)) ->
    exists s', sm_setitem s c r v = (s', None) /\ Rep s' (updc m c r v).
  Proof.
    intros [I E] Hc Hr Hv. unfold sm_setitem, sm_delitem. rewrite !sanitize_nonneg by auto.
    assert (U : forall w x y, updc (cell s) c r w x y = updc m c r w x y).
    { intros w x y. unfold updc. destruct (_ && _); auto. }
    destruct v as [v|].
    - eexists. split; [reflexivity|]. destruct (sm_put_ok s c r v I Hc Hr) as [I' E']. split; auto.
      intros x y. rewrite E'. auto.
    - destruct (sm_drop_ok s c r I) as (s' & A & I' & E').
      { destruct (Hv eq_refl) as [H|(x & y & H & N)]; [left; rewrite E; auto|right; exists x, y].
        unfold occupied in *. rewrite E. auto. }
      exists s'. split; auto. split; auto. intros x y. rewrite E'. auto.
  Qed.

  Fixpoint apply_writes (m : cells) (ws : list wr) : cells :=
    match ws with [] => m | w :: t => apply_writes (updc m (fst (fst w)) (snd (fst w)) (snd w)) t end.

  Lemma writes_ok (ws : list wr) : forall s m, Rep s m ->
    (forall c r v, In ((c, r), v) ws -> 0 <= c /\ 0 <= r) ->
    NoDup (map fst ws) ->
    (forall c r, In ((c, r), None) ws -> m c r = None) \/ (exists x y, occupied m x y /\ ~ In (x, y) (map fst ws)) ->
    exists s', for_each doit ws s = (s', None) /\ Rep s' (apply_writes m ws).
  Proof.
    induction ws as [|[[c r] v] t IH]; intros s m R Hn N C; simpl.
    - exists s. auto.
    - simpl in N. inversion N as [|? ? N1 N2]; subst.
      destruct (Hn c r v) as [Hc Hr]; [simpl; auto|].
      destruct (setitem_ok s m c r v R Hc Hr) as (s1 & E & R1).
      { intros ->. destruct C as [C|(x & y & O & H)]; [left; apply C; simpl; auto|right].
        exists x, y. split; auto. intros Exy. apply H. simpl. rewrite Exy. auto. }
      unfold doit at 1. simpl. rewrite E.
      destruct (IH s1 (updc m c r v) R1) as (s2 & E2 & R2).
      + intros c' r' v' Hin. apply (Hn c' r' v'). simpl; auto.
      + auto.
      + destruct C as [C|(x & y & O & H)]; [left|right].
        * intros c' r' Hin. unfold updc. destruct ((c' =? c) && (r' =? r)) eqn:Ex.
          -- apply andb_true_iff in Ex. destruct Ex as [Ex Ey]. apply Z.eqb_eq in Ex, Ey. subst.
             exfalso. apply N1. apply (in_map fst) in Hin. exact Hin.
          -- apply C. simpl; auto.
        * exists x, y. split; [|intros Hin; apply H; simpl; auto]. unfold occupied, updc.
          destruct ((x =? c) && (y =? r)) eqn:Ex; auto.
          apply andb_true_iff in Ex. destruct Ex as [Ex Ey]. apply Z.eqb_eq in Ex, Ey. subst.
          exfalso. apply H. simpl; auto.
      + exists s2. auto.
  Qed.

  Lemma apply_writes_in (ws : list wr) : forall m c r v, NoDup (map fst ws) -> In ((c, r), v) ws -> apply_writes m ws c r = v.
  Proof.
    assert (Out : forall ws m c r, ~ In (c, r) (map fst ws) -> apply_writes m ws c r = m c r).
    { clear ws. induction ws as [|[[c0 r0] v0] t IH]; intros m c r H; simpl in *; auto.
      rewrite IH by tauto. unfold updc. destruct ((c =? c0) && (r =? r0)) eqn:Ex; auto.
      apply andb_true_iff in Ex. destruct Ex as [Ex Ey]. apply Z.eqb_eq in Ex, Ey. subst. tauto. }
    induction ws as [|[[c0 r0] v0] t IH]; intros m c r v N Hin; simpl in *; [tauto|].
    inversion N; subst. destruct Hin as [[= -> -> ->]|Hin]; auto.
    rewrite Out by auto. unfold updc. rewrite !Z.eqb_refl. auto.
  Qed.
  Lemma apply_writes_out (ws : list wr) : forall m c r, ~ In (c, r) (map fst ws) -> apply_writes m ws c r = m c r.
  Proof.
    induction ws as [|[[c0 r0] v0] t IH]; intros m c r H; simpl in *; auto.
    rewrite IH by tauto. unfold updc. destruct ((c =? c0) && (r =? r0)) eqn:Ex; auto.
    apply andb_true_iff in Ex. destruct Ex as [Ex Ey]. apply Z.eqb_eq in Ex, Ey. subst. tauto.
  Qed.

  (** a loop that performs the writes of a call *)
  Lemma multi_ok s m cols rows (o : sm_op V) (ws : list wr) : Rep s m ->
    (forall c r v, In ((c, r), v) ws -> 0 <= c /\ 0 <= r) -> NoDup (map fst ws) ->
    (forall c r v, In ((c, r), v) ws -> writes cols rows o c r = Some v) ->
    (forall c r v, writes cols rows o c r = Some v -> In ((c, r), v) ws \/ (v = None /\ m c r = None)) ->
    deletes_nothing m cols rows o \/ leaves_a_cell m cols rows o ->
    exists s', for_each doit ws s = (s', None) /\
      Rep s' (fun c r => match writes cols rows o c r with Some v => v | None => m c r end).
  Proof.
    intros R Hn N H1 H2 C. destruct (writes_ok ws s m R Hn N) as (s' & E & I & Ec).
    { destruct C as [C|(x & y & O & H)]; [left|right].
      - intros c r Hin. apply C. apply H1. auto.
      - exists x, y. split; auto. intros Hin. apply in_map_iff in Hin. destruct Hin as ([[c r] v] & Exy & Hin).
        simpl in Exy. injection Exy as -> ->. apply H1 in Hin. congruence. }
    exists s'. split; auto. split; auto. intros x y. rewrite Ec.
    destruct (writes cols rows o x y) as [v|] eqn:Ew.
    - destruct (H2 x y v Ew) as [Hin|[-> Hm]]; [apply apply_writes_in; auto|].
      destruct (in_dec (fun a b : Z * Z => ltac:(decide equality; apply Z.eq_dec)) (x, y) (map fst ws)) as [Hin|Hin].
      + apply in_map_iff in Hin. destruct Hin as ([[c r] v] & Exy & Hin). simpl in Exy. injection Exy as -> ->.
        pose proof (H1 x y v Hin) as Hw. rewrite Ew in Hw. injection Hw as <-. apply apply_writes_in; auto.
      + rewrite apply_writes_out; auto.
    - apply apply_writes_out. intros Hin. apply in_map_iff in Hin. destruct Hin as ([[c r] v] & Exy & Hin).
      simpl in Exy. injection Exy as -> ->. apply H1 in Hin. congruence.
  Qed.

  Lemma for_each_ext {S A} (f g : S -> A -> S * option exn) l : (forall s x, f s x = g s x) ->
    forall s, for_each f l s = for_each g l s.
  Proof. intros H. induction l as [|x t IH]; intros s; simpl; auto. rewrite H. destruct (g s x) as [s' [e|]]; auto. Qed.
  Lemma for_each_map {S A B} (f : S -> B -> S * option exn) (h : A -> B) l : forall s,
    for_each (fun s x => f s (h x)) l s = for_each f (map h l) s.
  Proof. induction l as [|x t IH]; intros s; simpl; auto. destruct (f s (h x)) as [s' [e|]]; auto. Qed.
  Lemma for_each_app {S A} (f : S -> A -> S * option exn) l1 l2 : forall s,
    for_each f (l1 ++ l2) s = match for_each f l1 s with (s', None) => for_each f l2 s' | p => p end.
  Proof. induction l1 as [|x t IH]; intros s; simpl; auto. destruct (f s x) as [s' [e|]]; auto. Qed.
  Lemma for_each_flat {S A B} (f : S -> B -> S * option exn) (h : A -> list B) l : forall s,
    for_each (fun s x => for_each f (h x) s) l s = for_each f (flat_map h l) s.
  Proof.
    induction l as [|x t IH]; intros s; simpl; auto. rewrite for_each_app.
    destruct (for_each f (h x) s) as [s' [e|]]; auto.
  Qed.

  Lemma In_enumZ {A} (l : list A) : forall a i x, In (i, x) (enumZ a l) <-> a <= i /\ nth_error l (Z.to_nat (i - a)) = Some x.
  Proof.
    induction l as [|y t IH]; intros a i x; simpl.
    - split; [tauto|]. intros [_ H]. destruct (Z.to_nat (i - a)); discriminate.
    - rewrite IH. split.
      + intros [[= -> ->]|[H1 H2]].
        * split; [lia|]. replace (i - i) with 0 by lia. reflexivity.
        * split; [lia|]. replace (Z.to_nat (i - a)) with (S (Z.to_nat (i - (a + 1)))) by lia. auto.
      + intros [H1 H2]. destruct (Z.eq_dec i a) as [->|Hn].
        * left. replace (a - a) with 0 in H2 by lia. simpl in H2. congruence.
        * right. split; [lia|]. replace (Z.to_nat (i - a)) with (S (Z.to_nat (i - (a + 1)))) in H2 by lia. auto.
  Qed.
  Lemma In_enumZ0 {A} (l : list A) i x : In (i, x) (enumZ 0 l) <-> at_ l i = Some x.
  Proof.
    rewrite In_enumZ. unfold at_. replace (i - 0) with i by lia. destruct (Z.ltb_spec i 0).
    - split; [lia|discriminate].
    - intuition.
  Qed.
  Lemma at_nonneg {A} (l : list A) i x : at_ l i = Some x -> 0 <= i.
  Proof. unfold at_. destruct (Z.ltb_spec i 0); [discriminate|auto]. Qed.
  Lemma NoDup_enumZ {A} (l : list A) : forall a, NoDup (map fst (enumZ a l)).
  Proof.
    induction l as [|y t IH]; intros a; simpl; constructor; auto.
    intros Hin. apply in_map_iff in Hin. destruct Hin as ([i x] & E & Hin). simpl in E. subst.
    apply In_enumZ in Hin. lia.
  Qed.
  Lemma In_rangeZ n x : In x (rangeZ n) <-> 0 <= x < n.
  Proof.
    unfold rangeZ. rewrite in_map_iff. split.
    - intros (k & <- & H). apply in_seq in H. lia.
    - intros H. exists (Z.to_nat x). split; [lia|]. apply in_seq. lia.
  Qed.
  Lemma NoDup_rangeZ n : NoDup (rangeZ n).
  Proof.
    unfold rangeZ. apply FinFun.Injective_map_NoDup; [|apply seq_NoDup]. intros a b H. lia.
  Qed.

  Lemma NoDup_map_inj {A B} (f : A -> B) l : (forall x y, In x l -> In y l -> f x = f y -> x = y) -> NoDup l -> NoDup (map f l).
  Proof.
    induction l as [|x t IH]; simpl; intros H N; constructor; inversion N; subst.
    - intros Hin. apply in_map_iff in Hin. destruct Hin as (y & E & Hy). assert (y = x) by auto. subst. auto.
    - apply IH; auto.
  Qed.
  Lemma NoDup_app_intro {A} (l1 l2 : list A) : NoDup l1 -> NoDup l2 -> (forall x, In x l1 -> ~ In x l2) -> NoDup (l1 ++ l2).
  Proof.
    induction l1 as [|x t IH]; simpl; auto. intros N1 N2 D. inversion N1; subst. constructor.
    - rewrite in_app_iff. intros [H|H]; auto. apply (D x); auto.
    - apply IH; auto.
  Qed.
  Lemma NoDup_flat_map {A B} (f : A -> list B) l :
    (forall x, In x l -> NoDup (f x)) ->
    (forall x y z, In x l -> In y l -> In z (f x) -> In z (f y) -> x = y) -> NoDup l -> NoDup (flat_map f l).
  Proof.
    induction l as [|x t IH]; simpl; intros H1 H2 N; [constructor|]. inversion N; subst.
    apply NoDup_app_intro; [auto| |].
    - apply IH; auto. intros a b z Ha Hb. apply H2; auto.
    - intros z Hz Hin. apply in_flat_map in Hin. destruct Hin as (y & Hy & Hzy).
      assert (x = y) by (apply (H2 x y z); auto). subst. auto.
  Qed.

  Definition row_ws (r : Z) (vs : list (option V)) : list wr := map (fun p => ((fst p, r), snd p)) (enumZ 0 vs).
  Definition col_ws (c : Z) (vs : list (option V)) : list wr := map (fun p => ((c, fst p), snd p)) (enumZ 0 vs).
  Lemma In_row_ws r0 vs c r v : In ((c, r), v) (row_ws r0 vs) <-> r = r0 /\ at_ vs c = Some v.
  Proof.
    unfold row_ws. rewrite in_map_iff. split.
    - intros ([i x] & [= <- <- <-] & H). apply In_enumZ0 in H. auto.
    - intros [-> H]. exists (c, v). split; auto. apply In_enumZ0; auto.
  Qed.
  Lemma In_col_ws c0 vs c r v : In ((c, r), v) (col_ws c0 vs) <-> c = c0 /\ at_ vs r = Some v.
  Proof.
    unfold col_ws. rewrite in_map_iff. split.
    - intros ([i x] & [= <- <- <-] & H). apply In_enumZ0 in H. auto.
    - intros [-> H]. exists (r, v). split; auto. apply In_enumZ0; auto.
  Qed.
  Lemma NoDup_row_ws r vs : NoDup (map fst (row_ws r vs)).
  Proof.
    unfold row_ws. rewrite map_map. simpl. rewrite <- (map_map fst (fun i => (i, r))).
    apply NoDup_map_inj; [|apply NoDup_enumZ]. intros x y _ _ [= ->]; auto.
  Qed.
  Lemma NoDup_col_ws c vs : NoDup (map fst (col_ws c vs)).
  Proof.
    unfold col_ws. rewrite map_map. simpl. rewrite <- (map_map fst (fun i => (c, i))).
    apply NoDup_map_inj; [|apply NoDup_enumZ]. intros x y _ _ [= ->]; auto.
  Qed.

  (** writing a whole matrix, each coordinate scaled by k > 0 *)
  Definition all_ws (k : Z) (m : list (list (option V))) : list wr :=
    flat_map (fun p => map (fun q => ((fst q * k, fst p * k), snd q)) (enumZ 0 (snd p))) (enumZ 0 m).
  Lemma In_all_ws k m c r v : 0 < k -> In ((c, r), v) (all_ws k m) <->
    exists c0 r0 row, c = c0 * k /\ r = r0 * k /\ at_ m r0 = Some row /\ at_ row c0 = Some v.
  Proof.
    intros Hk. unfold all_ws. rewrite in_flat_map. split.
    - intros ([r0 row] & H1 & H2). apply in_map_iff in H2. destruct H2 as ([c0 v0] & [= <- <- <-] & H2). simpl in *.
      exists c0, r0, row. apply In_enumZ0 in H1, H2. auto.
    - intros (c0 & r0 & row & -> & -> & H1 & H2). exists (r0, row). split; [apply In_enumZ0; auto|].
      apply in_map_iff. exists (c0, v). split; auto. apply In_enumZ0; auto.
  Qed.
  Lemma map_flat_map {A B C} (g : B -> C) (f : A -> list B) l : map g (flat_map f l) = flat_map (fun x => map g (f x)) l.
  Proof. induction l as [|x t IH]; simpl; auto. rewrite map_app, IH. auto. Qed.
  Lemma NoDup_keys_NoDup {A B} (l : list (A * B)) : NoDup (map fst l) -> NoDup l.
  Proof. intros H. apply NoDup_map_inv in H. auto. Qed.
  Lemma NoDup_all_ws k m : 0 < k -> NoDup (map fst (all_ws k m)).
  Proof.
    intros Hk. unfold all_ws. rewrite map_flat_map. apply NoDup_flat_map.
    - intros [r row] _. rewrite map_map. simpl. rewrite <- (map_map fst (fun i => (i * k, r * k))).
      apply NoDup_map_inj; [|apply NoDup_enumZ]. intros x y _ _ [= H]. nia.
    - intros [r row] [r' row'] [c d] H1 H2 H3 H4. simpl in *. rewrite map_map in H3, H4. apply in_map_iff in H3, H4.
      destruct H3 as (p & [= E1 E2] & _). destruct H4 as (q & [= E3 E4] & _). assert (r = r') by nia. subst r'.
      apply In_enumZ in H1, H2. destruct H1 as [_ H1], H2 as [_ H2]. congruence.
    - apply NoDup_keys_NoDup. apply NoDup_enumZ.
  Qed.

  Lemma all_ok k m : 0 < k ->
    exists s', for_each doit (all_ws k m) sm_empty = (s', None) /\ Rep s' (apply_writes (fun _ _ => None) (all_ws k m)).
  Proof.
    intros Hk. apply writes_ok.
    - split; [apply empty_inv|auto].
    - intros c r v H. apply In_all_ws in H; auto. destruct H as (c0 & r0 & row & -> & -> & H1 & H2).
      apply at_nonneg in H1, H2. nia.
    - apply NoDup_all_ws; auto.
    - left. auto.
  Qed.

  (** ** Reading *)
  Lemma at_map_range (f : Z -> option V) n c : 0 <= c < n -> at_ (map f (rangeZ n)) c = Some (f c).
  Proof.
    intros H. unfold at_. destruct (Z.ltb_spec c 0); [lia|]. unfold rangeZ. rewrite map_map.
    rewrite nth_error_map. erewrite nth_error_nth' with (d := 0%nat) by (rewrite seq_length; lia).
    rewrite seq_nth by lia. simpl. f_equal. f_equal. lia.
  Qed.
  Lemma at_map_range' (f : Z -> list (option V)) n c : 0 <= c < n -> at_ (map f (rangeZ n)) c = Some (f c).
  Proof.
    intros H. unfold at_. destruct (Z.ltb_spec c 0); [lia|]. unfold rangeZ. rewrite map_map.
    rewrite nth_error_map. erewrite nth_error_nth' with (d := 0%nat) by (rewrite seq_length; lia).
    rewrite seq_nth by lia. simpl. f_equal. f_equal. lia.
  Qed.
  Lemma length_map_range {A} (f : Z -> A) n : 0 <= n -> Z.of_nat (length (map f (rangeZ n))) = n.
  Proof. intros H. unfold rangeZ. rewrite !map_length, seq_length. lia. Qed.

  Lemma get_row_map (s : smat V) r : sm_get_row s r = map (fun c => cell s c r) (rangeZ (sm_nc s)).
  Proof. unfold sm_get_row, cell, cellr. destruct (dgz (sm_rows s) r); auto. Qed.
  Lemma extent_nonneg (m : @cells V) cols rows : extent m cols rows -> 0 <= cols /\ 0 <= rows.
  Proof.
    intros (A & B & C). split.
    - destruct B as [->|(r & O)]; [lia|]. apply A in O. lia.
    - destruct C as [->|(c & O)]; [lia|]. apply A in O. lia.
  Qed.
  Lemma extent_empty (m : @cells V) cols rows : extent m cols rows -> (cols = 0 <-> rows = 0).
  Proof.
    intros (A & B & C). split; intros E; subst.
    - destruct C as [C|(c & O)]; auto. apply A in O. lia.
    - destruct B as [B|(c & O)]; auto. apply A in O. lia.
  Qed.

  Lemma collect_ok {A} (f : Z -> res A) (g : Z -> A) l : (forall x, In x l -> f x = Ok (g x)) -> collect (map f l) = Ok (map g l).
  Proof.
    induction l as [|x t IH]; simpl; intros H; auto. rewrite H by auto. rewrite IH by auto. reflexivity.
  Qed.

  Lemma getitem_ok (s : smat V) c r :
    sm_getitem s c r = if (idx r (sm_nr s) <? sm_nr s) && (idx c (sm_nc s) <? sm_nc s)
                       then Ok (cell s (idx c (sm_nc s)) (idx r (sm_nr s))) else Err IndexError.
  Proof.
    unfold sm_getitem. change sanitize with idx.
    rewrite (Z.ltb_antisym (sm_nr s)), (Z.ltb_antisym (sm_nc s)).
    destruct (sm_nr s <=? idx r (sm_nr s)); simpl; auto. destruct (sm_nc s <=? idx c (sm_nc s)); simpl; auto.
    unfold cell, cellr. destruct (dgz (sm_rows s) (idx r (sm_nr s))); auto.
  Qed.
  Lemma idx_nonneg i n : 0 <= i -> idx i n = i.
  Proof. intros H. unfold idx. destruct (Z.ltb_spec i 0); lia. Qed.

  (** min and max *)
  Lemma best_loop_ok better (P : total_preorder better) l : forall y,
    exists v, sm_best_loop better l (Some y) = Ok (Some v) /\ (v = y \/ In (Some v) l) /\
      better y v = false /\ forall x : V, In (Some x) l -> better x v = false.
  Proof.
    destruct P as [Pa Pt].
    assert (Pi : forall a, better a a = false) by (intros a; destruct (better a a) eqn:E; auto; rewrite (Pa _ _ E) in E; auto).
    induction l as [|[x|] t IH]; intros y; simpl.
    - exists y. split; [reflexivity|]. split; [auto|]. split; [auto|]. intros x [].
    - destruct (better x y) eqn:E.
      + destruct (IH x) as (v & A & B & C & D). exists v. split; auto. split; [destruct B as [->|]; auto|]. split.
        * apply (Pt v x y); auto.
        * intros z [[= <-]|H]; auto.
      + destruct (IH y) as (v & A & B & C & D). exists v. split; auto. split; [destruct B as [->|]; auto|]. split; auto.
        intros z [[= <-]|H]; auto. apply (Pt v y x); auto.
    - destruct (IH y) as (v & A & B & C & D). exists v. split; auto. split; [destruct B as [->|]; auto|]. split; auto.
      intros z [H|H]; [discriminate|auto].
  Qed.

  Lemma In_iter (s : smat V) v : SInv s -> (In (Some v) (concat (sm_iter s)) <-> exists c r, cell s c r = Some v).
  Proof.
    intros (_ & _ & _ & _ & E1 & _). rewrite in_concat. unfold sm_iter. split.
    - intros (l & H1 & H2). apply in_map_iff in H1. destruct H1 as (r & <- & _). rewrite get_row_map in H2.
      apply in_map_iff in H2. destruct H2 as (c & H & _). eauto.
    - intros (c & r & H). assert (O : occupied (cell s) c r) by (unfold occupied; congruence). apply E1 in O.
      exists (sm_get_row s r). split; [apply in_map; apply In_rangeZ; lia|]. rewrite get_row_map.
      apply in_map_iff. exists c. split; auto. apply In_rangeZ; lia.
  Qed.

  (** ** Every call *)
  Lemma nest_ok k (l : list (list (option V))) : forall s,
    for_each (fun n p => for_each (fun n q => sm_setitem n (fst q * k) (fst p * k) (snd q)) (enumZ 0 (snd p)) n) (enumZ 0 l) s
    = for_each doit (all_ws k l) s.
  Proof.
    intros s. unfold all_ws. rewrite <- for_each_flat. apply for_each_ext. intros s0 p.
    rewrite <- for_each_map. apply for_each_ext. intros s1 q. reflexivity.
  Qed.
  Lemma from_ok (l : list (list (option V))) : sm_from l = for_each doit (all_ws 1 l) sm_empty.
  Proof.
    rewrite <- nest_ok. unfold sm_from. apply for_each_ext. intros s0 p. apply for_each_ext. intros s1 q.
    rewrite !Z.mul_1_r. auto.
  Qed.

  Lemma apply_all k (l : list (list (option V))) c r : 0 < k ->
    apply_writes (fun _ _ => None) (all_ws k l) (c * k) (r * k) =
    match at_ l r with
    | Some row => match at_ row c with Some v => v | None => None end
    | None => None
    end.
  Proof.
    intros Hk.
    assert (Out : (forall row v, at_ l r = Some row -> at_ row c = Some v -> False) ->
                  apply_writes (fun _ _ => None) (all_ws k l) (c * k) (r * k) = None).
    { intros H. rewrite apply_writes_out; auto. intros Hin. apply in_map_iff in Hin.
      destruct Hin as ([[c' r'] v'] & E & Hin). simpl in E. injection E as -> ->. apply In_all_ws in Hin; auto.
      destruct Hin as (c0 & r0 & row & E1 & E2 & H1 & H2). assert (c0 = c) by nia. assert (r0 = r) by nia. subst. eauto. }
    destruct (at_ l r) as [row|] eqn:El; [destruct (at_ row c) as [v|] eqn:Er|].
    - apply apply_writes_in; [apply NoDup_all_ws; auto|]. apply In_all_ws; auto. exists c, r, row. auto.
    - apply Out. congruence.
    - apply Out. congruence.
  Qed.
  Lemma apply_all_odd (l : list (list (option V))) c r : Z.even c && Z.even r = false ->
    apply_writes (fun _ _ => None) (all_ws 2 l) c r = None.
  Proof.
    intros H. rewrite apply_writes_out; auto. intros Hin. apply in_map_iff in Hin.
    destruct Hin as ([[c' r'] v'] & E & Hin). simpl in E. injection E as -> ->. apply In_all_ws in Hin; [|lia].
    destruct Hin as (c0 & r0 & row & E1 & E2 & _). subst. rewrite !Z.even_mul in H. simpl in H.
    rewrite !orb_true_r in H. discriminate.
  Qed.

  Lemma unit_ok (s : smat V) (o : sm_op V) ws p : SInv s ->
    p = for_each doit ws s ->
    (forall c r v, In ((c, r), v) ws -> 0 <= c /\ 0 <= r) -> NoDup (map fst ws) ->
    (forall c r v, In ((c, r), v) ws -> writes (sm_nc s) (sm_nr s) o c r = Some v) ->
    (forall c r v, writes (sm_nc s) (sm_nr s) o c r = Some v -> In ((c, r), v) ws \/ (v = None /\ cell s c r = None)) ->
    deletes_nothing (cell s) (sm_nc s) (sm_nr s) o \/ leaves_a_cell (cell s) (sm_nc s) (sm_nr s) o ->
    let '(s', out) := mo_unit p in
    out = MONone /\ SInv s' /\
    forall c r, cell s' c r = match writes (sm_nc s) (sm_nr s) o c r with Some v => v | None => cell s c r end.
  Proof.
    intros I -> H1 H2 H3 H4 H5.
    destruct (multi_ok s (cell s) _ _ o ws (conj I (fun _ _ => eq_refl)) H1 H2 H3 H4 H5) as (s' & E & I' & C).
    rewrite E. simpl. auto.
  Qed.

  Lemma cell_out (s : smat V) c r : SInv s -> (c < 0 \/ sm_nc s <= c \/ r < 0 \/ sm_nr s <= r) -> cell s c r = None.
  Proof.
    intros (_ & _ & _ & _ & A & _) H. destruct (cell s c r) eqn:E; auto. exfalso.
    assert (O : occupied (cell s) c r) by (unfold occupied; congruence). apply A in O. lia.
  Qed.

  Variable ltV : V -> V -> bool.
  Hypothesis P : total_preorder ltV.

  Lemma flip_preorder : total_preorder (fun x y => ltV y x).
  Proof. destruct P as [A B]. split; [auto|]. intros a b c H1 H2. apply (B c b a); auto. Qed.

  Lemma best_ok better (s : smat V) : total_preorder better -> SInv s -> (sm_nr s = 0 \/ occupied (cell s) 0 0) ->
    if sm_nr s =? 0 then sm_best better s = Err IndexError
    else exists v, sm_best better s = Ok (Some v) /\ is_best better (cell s) v.
  Proof.
    intros Pb I H. pose proof I as (_ & _ & _ & _ & X). unfold sm_best. rewrite getitem_ok.
    rewrite (idx_nonneg 0 (sm_nr s)), (idx_nonneg 0 (sm_nc s)) by lia. destruct (Z.eqb_spec (sm_nr s) 0) as [E|E].
    - rewrite E. reflexivity.
    - destruct H as [H|H]; [contradiction|]. pose proof H as H'. apply X in H'. 
      destruct (Z.ltb_spec 0 (sm_nr s)); [|lia]. destruct (Z.ltb_spec 0 (sm_nc s)); [|lia]. simpl.
      unfold occupied in H. destruct (cell s 0 0) as [y|] eqn:Ey; [|contradiction].
      destruct (best_loop_ok better Pb (concat (sm_iter s)) y) as (v & A & B & C & D).
      exists v. split; auto. split.
      + destruct B as [->|B]; [eauto|]. apply (In_iter s v I) in B. auto.
      + intros c r x Hx. apply D. apply (In_iter s x I). eauto.
  Qed.

  Lemma sm_step_ok s o : SInv s -> safe (cell s) (sm_nc s) (sm_nr s) o ->
    let '(s', out) := sm_step ltV s o in
    answer ltV (cell s) (sm_nc s) (sm_nr s) o out /\ SInv s' /\
    forall c r, cell s' c r = after (cell s) (sm_nc s) (sm_nr s) o c r.
  Proof.
    intros I (B & S & C). pose proof I as (_ & _ & _ & _ & X).
    destruct (extent_nonneg _ _ _ X) as [Hnc Hnr]. pose proof (extent_empty _ _ _ X) as X0.
    destruct o; cbn beta iota delta [sm_step answer after]; cbn beta iota delta [safe] in S;
      cbn beta iota delta [before_start] in B; try (apply orb_false_iff in B; destruct B as [B1 B2]; apply Z.ltb_ge in B1, B2);
      try apply Z.ltb_ge in B.
    - (* MSet *)
      eapply (unit_ok s (MSet c r v) [((idx c (sm_nc s), idx r (sm_nr s)), v)]); auto.
      + simpl. unfold doit, sm_setitem, sm_delitem. simpl. change sanitize with idx.
        rewrite (idx_nonneg (idx c (sm_nc s))), (idx_nonneg (idx r (sm_nr s))) by lia.
        destruct v; auto. destruct (sm_drop s _ _) as [? [?|]]; auto.
      + intros c0 r0 v0 [[= <- <- <-]|[]]. lia.
      + simpl. constructor; [tauto|constructor].
      + intros c0 r0 v0 [[= <- <- <-]|[]]. simpl. rewrite !Z.eqb_refl. auto.
      + intros c0 r0 v0. simpl. destruct (Z.eqb_spec c0 (idx c (sm_nc s))), (Z.eqb_spec r0 (idx r (sm_nr s))); simpl;
          try discriminate. intros [= <-]. subst. auto.
    - (* MSetRow *)
      eapply (unit_ok s (MSetRow r vs) (row_ws (idx r (sm_nr s)) vs)); auto.
      + unfold sm_set_row, row_ws. rewrite <- for_each_map. reflexivity.
      + intros c0 r0 v0 Hin. apply In_row_ws in Hin. destruct Hin as [-> Hin]. apply at_nonneg in Hin. lia.
      + apply NoDup_row_ws.
      + intros c0 r0 v0 Hin. apply In_row_ws in Hin. destruct Hin as [-> Hin]. simpl. rewrite Z.eqb_refl. auto.
      + intros c0 r0 v0. simpl. destruct (Z.eqb_spec r0 (idx r (sm_nr s))); [|discriminate]. intros H. left.
        apply In_row_ws. auto.
    - (* MSetCol *)
      eapply (unit_ok s (MSetCol c vs) (col_ws (idx c (sm_nc s)) vs)); auto.
      + unfold sm_set_col, col_ws. rewrite <- for_each_map. reflexivity.
      + intros c0 r0 v0 Hin. apply In_col_ws in Hin. destruct Hin as [-> Hin]. apply at_nonneg in Hin. lia.
      + apply NoDup_col_ws.
      + intros c0 r0 v0 Hin. apply In_col_ws in Hin. destruct Hin as [-> Hin]. simpl. rewrite Z.eqb_refl. auto.
      + intros c0 r0 v0. simpl. destruct (Z.eqb_spec c0 (idx c (sm_nc s))); [|discriminate]. intros H. left.
        apply In_col_ws. auto.
    - (* MSetAll *)
      unfold sm_set_all. rewrite from_ok. destruct (all_ok 1 m) as (s' & E & I' & Ec); [lia|]. rewrite E. simpl.
      split; auto. split; auto. intros c r. rewrite Ec.
      rewrite <- (apply_all 1 m c r) by lia. rewrite !Z.mul_1_r. auto.
    - (* MDel *)
      eapply (unit_ok s (MDel c r) [((idx c (sm_nc s), idx r (sm_nr s)), None)]); auto.
      + simpl. unfold doit, sm_setitem, sm_delitem. simpl. change sanitize with idx.
        rewrite (idx_nonneg (idx c (sm_nc s))), (idx_nonneg (idx r (sm_nr s))) by lia.
        destruct (sm_drop s _ _) as [? [?|]]; auto.
      + intros c0 r0 v0 [[= <- <- <-]|[]]. lia.
      + simpl. constructor; [tauto|constructor].
      + intros c0 r0 v0 [[= <- <- <-]|[]]. simpl. rewrite !Z.eqb_refl. auto.
      + intros c0 r0 v0. simpl. destruct (Z.eqb_spec c0 (idx c (sm_nc s))), (Z.eqb_spec r0 (idx r (sm_nr s))); simpl;
          try discriminate. intros [= <-]. subst. auto.
    - (* MDelRow *)
      eapply (unit_ok s (MDelRow r) (map (fun c => ((c, idx r (sm_nr s)), None)) (rangeZ (sm_nc s)))); auto.
      + unfold sm_del_row. rewrite <- for_each_map. reflexivity.
      + intros c0 r0 v0 Hin. apply in_map_iff in Hin. destruct Hin as (c & [= <- <- <-] & Hin). apply In_rangeZ in Hin. lia.
      + rewrite map_map. simpl. apply NoDup_map_inj; [|apply NoDup_rangeZ]. congruence.
      + intros c0 r0 v0 Hin. apply in_map_iff in Hin. destruct Hin as (c & [= <- <- <-] & Hin). simpl.
        rewrite Z.eqb_refl. auto.
      + intros c0 r0 v0. simpl. destruct (Z.eqb_spec r0 (idx r (sm_nr s))); [|discriminate]. intros [= <-]. subst.
        destruct (Z_lt_dec c0 0); [right; split; auto; apply cell_out; auto|].
        destruct (Z_lt_dec c0 (sm_nc s)); [left|right; split; auto; apply cell_out; auto; lia].
        apply in_map_iff. exists c0. split; auto. apply In_rangeZ. lia.
    - (* MDelCol *)
      eapply (unit_ok s (MDelCol c) (map (fun r => ((idx c (sm_nc s), r), None)) (rangeZ (sm_nr s)))); auto.
      + unfold sm_del_col. rewrite <- for_each_map. reflexivity.
      + intros c0 r0 v0 Hin. apply in_map_iff in Hin. destruct Hin as (r & [= <- <- <-] & Hin). apply In_rangeZ in Hin. lia.
      + rewrite map_map. simpl. apply NoDup_map_inj; [|apply NoDup_rangeZ]. congruence.
      + intros c0 r0 v0 Hin. apply in_map_iff in Hin. destruct Hin as (r & [= <- <- <-] & Hin). simpl.
        rewrite Z.eqb_refl. auto.
      + intros c0 r0 v0. simpl. destruct (Z.eqb_spec c0 (idx c (sm_nc s))); [|discriminate]. intros [= <-]. subst.
        destruct (Z_lt_dec r0 0); [right; split; auto; apply cell_out; auto|].
        destruct (Z_lt_dec r0 (sm_nr s)); [left|right; split; auto; apply cell_out; auto; lia].
        apply in_map_iff. exists r0. split; auto. apply In_rangeZ. lia.
    - (* MClear *) split; auto. split; [apply empty_inv|auto].
    - (* MDeleteRow *)
      destruct S as (c1 & O). pose proof O as Or. apply X in Or. unfold occupied, cell, cellr in O.
      destruct (dgz (sm_rows s) r) as [row|] eqn:Er; [|contradiction].
      assert (Wr : dwf row) by (apply I in Er; apply Er).
      eapply (unit_ok s (MDeleteRow r) (map (fun c => ((c, r), None)) (dkeys row))); auto.
      + unfold sm_delete_row. rewrite Er. rewrite Er. rewrite <- for_each_map. destruct s. reflexivity.
      + intros c0 r0 v0 Hin. apply in_map_iff in Hin. destruct Hin as (c & [= <- <- <-] & Hin).
        split; [|lia]. destruct (dget_key_Some zeqb_ok row c Hin) as [v Ev].
        assert (O' : occupied (cell s) c r) by (unfold occupied, cell, cellr; rewrite Er; congruence). apply X in O'. lia.
      + rewrite map_map. simpl. apply NoDup_map_inj; [congruence|]. exact Wr.
      + intros c0 r0 v0 Hin. apply in_map_iff in Hin. destruct Hin as (c & [= <- <- <-] & Hin). simpl.
        rewrite Z.eqb_refl. auto.
      + intros c0 r0 v0. simpl. destruct (Z.eqb_spec r0 r); [|discriminate]. intros [= <-]. subst.
        destruct (dgz row c0) as [v|] eqn:Ev.
        * left. apply in_map_iff. exists c0. split; auto. apply (dget_Some_key zeqb_ok row c0 Ev).
        * right. split; auto. unfold cell, cellr. rewrite Er. auto.
    - (* MAppendRow *)
      eapply (unit_ok s (MAppendRow vs) (row_ws (sm_nr s) vs)); auto.
      + unfold sm_append_row, row_ws. rewrite <- for_each_map. reflexivity.
      + intros c0 r0 v0 Hin. apply In_row_ws in Hin. destruct Hin as [-> Hin]. apply at_nonneg in Hin. lia.
      + apply NoDup_row_ws.
      + intros c0 r0 v0 Hin. apply In_row_ws in Hin. destruct Hin as [-> Hin]. simpl. rewrite Z.eqb_refl. auto.
      + intros c0 r0 v0. simpl. destruct (Z.eqb_spec r0 (sm_nr s)); [|discriminate]. intros H. left.
        apply In_row_ws. auto.
    - (* MGet *)
      split; auto. rewrite getitem_ok. destruct (_ && _); auto.
    - (* MRow *)
      split; [|auto]. unfold sm_row_slice. change sanitize with idx. destruct (Z.ltb_spec (idx r (sm_nr s)) (sm_nr s)) as [L|L].
      + rewrite (collect_ok _ (fun c => cell s c (idx r (sm_nr s)))).
        * simpl. eexists. split; [reflexivity|]. split; [apply length_map_range; auto|].
          intros c Hc. rewrite (at_map_range (fun c => cell s c (idx r (sm_nr s)))) by auto. auto.
        * intros c Hc. apply In_rangeZ in Hc. rewrite getitem_ok.
          rewrite (idx_nonneg (idx r (sm_nr s))) by auto. rewrite (idx_nonneg c) by lia.
          destruct (Z.ltb_spec (idx r (sm_nr s)) (sm_nr s)); [|lia]. destruct (Z.ltb_spec c (sm_nc s)); [|lia]. auto.
      + destruct (Z.eqb_spec (sm_nc s) 0) as [E|E]; [rewrite E; reflexivity|].
        unfold rangeZ. destruct (Z.to_nat (sm_nc s)) eqn:En; [lia|]. simpl. rewrite getitem_ok.
        rewrite (idx_nonneg (idx r (sm_nr s))) by auto. destruct (Z.ltb_spec (idx r (sm_nr s)) (sm_nr s)); [lia|]. auto.
    - (* MCol *)
      split; [|auto]. unfold sm_col_slice. change sanitize with idx. destruct (Z.ltb_spec (idx c (sm_nc s)) (sm_nc s)) as [L|L].
      + rewrite (collect_ok _ (fun r => cell s (idx c (sm_nc s)) r)).
        * simpl. eexists. split; [reflexivity|]. split; [apply length_map_range; auto|].
          intros r Hr. rewrite (at_map_range (fun r => cell s (idx c (sm_nc s)) r)) by auto. auto.
        * intros r Hr. apply In_rangeZ in Hr. rewrite getitem_ok.
          rewrite (idx_nonneg (idx c (sm_nc s))) by auto. rewrite (idx_nonneg r) by lia.
          destruct (Z.ltb_spec (idx c (sm_nc s)) (sm_nc s)); [|lia]. destruct (Z.ltb_spec r (sm_nr s)); [|lia]. auto.
      + destruct (Z.eqb_spec (sm_nr s) 0) as [E|E]; [rewrite E; reflexivity|].
        unfold rangeZ. destruct (Z.to_nat (sm_nr s)) eqn:En; [lia|]. simpl. rewrite getitem_ok.
        rewrite (idx_nonneg (idx c (sm_nc s))) by auto. destruct (Z.ltb_spec (idx c (sm_nc s)) (sm_nc s)); [lia|].
        rewrite andb_false_r. auto.
    - (* MGetRow *)
      split; auto. rewrite get_row_map. eexists. split; [reflexivity|]. split; [apply length_map_range; auto|].
      intros c Hc. rewrite (at_map_range (fun c => cell s c r)) by auto. auto.
    - (* MIter *)
      split; auto. unfold sm_iter. eexists. split; [reflexivity|]. split; [apply length_map_range; auto|].
      intros r Hr. eexists. split; [apply at_map_range'; auto|]. rewrite get_row_map.
      split; [apply length_map_range; auto|].
      intros c Hc. rewrite (at_map_range (fun c => cell s c r)) by auto. auto.
    - split; auto.
    - split; auto.
    - split; auto.
    - destruct S.
    - (* MMax *)
      split; auto. pose proof (best_ok _ s flip_preorder I S) as Bo. destruct (Z.eqb (sm_nr s) 0).
      + rewrite Bo. auto.
      + destruct Bo as (v & E & Bo). rewrite E. simpl. eauto.
    - (* MMin *)
      split; auto. pose proof (best_ok _ s P I S) as Bo. destruct (Z.eqb (sm_nr s) 0).
      + rewrite Bo. auto.
      + destruct Bo as (v & E & Bo). rewrite E. simpl. eauto.
    - (* MShoot *)
      unfold sm_shoot. rewrite nest_ok. destruct (all_ok 2 (sm_iter s)) as (s' & E & I' & Ec); [lia|]. rewrite E.
      split; auto. split; auto. intros c r. rewrite Ec. destruct (Z.even c && Z.even r) eqn:Ev.
      + apply andb_true_iff in Ev. destruct Ev as [E1 E2]. apply Z.even_spec in E1, E2.
        destruct E1 as [c' ->]. destruct E2 as [r' ->]. rewrite !(Z.mul_comm 2), !Z.div_mul by lia.
        rewrite apply_all by lia. unfold sm_iter.
        destruct (Z_lt_dec r' 0) as [L|L].
        { unfold at_ at 1. destruct (Z.ltb_spec r' 0); [|lia]. symmetry. apply cell_out; auto. }
        destruct (Z_lt_dec r' (sm_nr s)) as [L2|L2].
        * rewrite at_map_range' by lia. rewrite get_row_map.
          destruct (Z_lt_dec c' 0) as [L3|L3].
          { unfold at_ at 1. destruct (Z.ltb_spec c' 0); [|lia]. symmetry. apply cell_out; auto. }
          destruct (Z_lt_dec c' (sm_nc s)) as [L4|L4].
          { rewrite (at_map_range (fun c => cell s c r')) by lia. auto. }
          unfold at_. destruct (Z.ltb_spec c' 0); [lia|].
          rewrite (proj2 (nth_error_None _ _)) by (unfold rangeZ; rewrite !map_length, seq_length; lia).
          symmetry. apply cell_out; auto. lia.
        * unfold at_ at 1. destruct (Z.ltb_spec r' 0); [lia|].
          rewrite (proj2 (nth_error_None _ _)) by (unfold rangeZ; rewrite !map_length, seq_length; lia).
          symmetry. apply cell_out; auto. lia.
      + apply apply_all_odd; auto.
    - (* MNeighbours *)
      split; auto. eexists. split; [reflexivity|].
      assert (M : forall c' r', In (c', r') (sm_neighbours s c r diagonals) <->
                  (0 <= c' < sm_nc s /\ 0 <= r' < sm_nr s /\ (c', r') <> (c, r) /\ Z.abs (c' - c) <= 1 /\ Z.abs (r' - r) <= 1 /\
                  (diagonals = true \/ c' = c \/ r' = r))).
      { intros c' r'. unfold sm_neighbours. rewrite in_flat_map. split.
        - intros (dr & Hdr & H). apply in_flat_map in H. destruct H as (dc & Hdc & H).
          assert (Hr : -1 <= dr <= 1) by (simpl in Hdr; lia). assert (Hc : -1 <= dc <= 1) by (simpl in Hdc; lia).
          clear Hdr Hdc.
          destruct (Z.eqb_spec dr 0), (Z.eqb_spec dc 0); simpl in H; [contradiction| | |];
          destruct (Z.ltb_spec 1 (Z.abs dc + Z.abs dr)), diagonals; simpl in H; try contradiction;
          destruct (Z.ltb_spec (c + dc) 0); simpl in H; try contradiction;
          destruct (Z.ltb_spec (r + dr) 0); simpl in H; try contradiction;
          destruct (Z.leb_spec (sm_nc s) (c + dc)); simpl in H; try contradiction;
          destruct (Z.leb_spec (sm_nr s) (r + dr)); simpl in H; try contradiction;
          destruct H as [[= <- <-]|[]];
          (split; [lia|]); (split; [lia|]); (split; [intros [= ? ?]; lia|]); (split; [lia|]); (split; [lia|]); auto; right; lia.
        - intros (H1 & H2 & H3 & H4 & H5 & H6). exists (r' - r). split; [simpl; lia|].
          apply in_flat_map. exists (c' - c). split; [simpl; lia|].
          replace (c + (c' - c)) with c' by lia. replace (r + (r' - r)) with r' by lia.
          assert (H7 : ~ (c' = c /\ r' = r)) by (intros [-> ->]; apply H3; auto).
          destruct (Z.eqb_spec (r' - r) 0), (Z.eqb_spec (c' - c) 0); try (exfalso; lia);
          destruct (Z.ltb_spec 1 (Z.abs (c' - c) + Z.abs (r' - r))), diagonals; simpl; 
          try (exfalso; destruct H6 as [?|H6]; [discriminate|lia]);
          destruct (Z.ltb_spec c' 0), (Z.ltb_spec r' 0); try (exfalso; lia); simpl;
          destruct (Z.leb_spec (sm_nc s) c'), (Z.leb_spec (sm_nr s) r'); try (exfalso; lia); simpl; auto. }
      split; auto.
      clear. assert (N : NoDup [-1; 0; 1]) by (repeat constructor; simpl; lia).
      unfold sm_neighbours. apply NoDup_flat_map; auto.
      + intros dr _. apply NoDup_flat_map; auto.
        * intros dc _. destruct (_ && _); [constructor|]. destruct (_ && _); [constructor|].
          destruct (_ || _); [constructor|]. destruct (_ || _); [constructor|]. repeat constructor. simpl; tauto.
        * intros x y z _ _ Hx Hy.
          assert (Ex : fst z = c + x /\ fst z = c + y); [|lia].
          split; [revert Hx|revert Hy]; repeat match goal with |- context [if ?b then _ else _] => destruct b end;
          simpl; try tauto; intros [<-|[]]; auto.
      + intros x y z _ _ Hx Hy. assert (Ex : snd z = r + x /\ snd z = r + y); [|lia].
        apply in_flat_map in Hx, Hy. destruct Hx as (dc & _ & Hx), Hy as (dc' & _ & Hy).
        split; [revert Hx|revert Hy]; repeat match goal with |- context [if ?b then _ else _] => destruct b end;
          simpl; try tauto; intros [<-|[]]; auto.
  Qed.

  Lemma sm_run_ok ops : forall s, SInv s ->
    sm_session ltV true (cell s) (sm_nc s) (sm_nr s) ops (fst (sm_run ltV s ops)).
  Proof.
    induction ops as [|o t IH]; intros s I; simpl; auto.
    pose proof (sm_step_ok s o I) as Hs. destruct (sm_step ltV s o) as [s1 out] eqn:Es.
    destruct (sm_run ltV s1 t) as [outs s2] eqn:Er. simpl. intros Hsafe. destruct (Hs Hsafe) as (A & I1 & C).
    exists (cell s1), (sm_nc s1), (sm_nr s1). split.
    { unfold respects. destruct Hsafe as [-> _]. auto. }
    split; [apply I1|]. specialize (IH s1 I1). rewrite Er in IH. exact IH.
  Qed.

  Lemma sm_session_ok (data : list (list (option V))) ops :
    snd (sm_init data) = None /\
    exists m cols rows,
      (forall c r, m c r = after (fun _ _ => None) 0 0 (MSetAll data) c r) /\ extent m cols rows /\
      sm_session ltV true m cols rows ops (fst (sm_run ltV (fst (sm_init data)) ops)).
  Proof.
    assert (E : sm_init data = sm_set_all sm_empty data) by (destruct data; reflexivity). rewrite E.
    pose proof (sm_step_ok sm_empty (MSetAll data) empty_inv) as H.
    cbn beta iota delta [sm_step] in H.
    assert (Hn : snd (sm_set_all sm_empty data) = None).
    { unfold sm_set_all. rewrite from_ok. destruct (all_ok 1 data) as (s' & E' & _); [lia|]. rewrite E'. auto. }
    destruct (sm_set_all sm_empty data) as [s e]. simpl in Hn. subst e. simpl in *. split; auto.
    destruct H as (_ & I & C).
    { split; auto. split; auto. left. intros c r; simpl. discriminate. }
    exists (cell s), (sm_nc s), (sm_nr s). split; [exact C|]. split; [apply I|]. apply sm_run_ok; auto.
  Qed.
End SparseMatrixProofs.
