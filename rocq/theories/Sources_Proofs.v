From Coq Require ListDec.
From Verif Require Import Prelude PreludeFacts MoreFacts Sources_Model Sources_Spec.
Local Open Scope Z_scope.

Section TreeInd.
  Variable P : tree -> Prop.
  Hypothesis HL : forall z, P (TLeaf z).
  Hypothesis HD : forall d, Forall (fun p => P (snd p)) d -> P (TDict d).
  Hypothesis HT : forall l, Forall P l -> P (TList l).
  Fixpoint tree_ind' (t : tree) : P t :=
    match t with
    | TLeaf z => HL z
    | TDict d => HD d ((fix go (d : list (Z * tree)) : Forall (fun p => P (snd p)) d :=
                          match d with [] => Forall_nil _ | p :: r => Forall_cons p (tree_ind' (snd p)) (go r) end) d)
    | TList l => HT l ((fix go (l : list tree) : Forall P l :=
                          match l with [] => Forall_nil _ | x :: r => Forall_cons x (tree_ind' x) (go r) end) l)
    end.
End TreeInd.

Section SrcInd.
  Variable C : Type.
  Variable P : source C -> Prop.
  Hypothesis H1 : forall r, P (SLoad r).
  Hypothesis H2 : forall c, P (SStatic c).
  Hypothesis H3 : forall l, Forall P l -> P (SAlternative l).
  Hypothesis H4 : forall s, P s -> P (SOptional s).
  Hypothesis H5 : forall l o f, Forall P l -> P (SMerging l o f).
  Hypothesis H6 : forall k s, P s -> P (SBuildObjectFrom k s).
  Fixpoint source_ind' (s : source C) : P s :=
    let go := fix go (l : list (source C)) : Forall P l :=
                match l with [] => Forall_nil _ | x :: r => Forall_cons x (source_ind' x) (go r) end in
    match s with
    | SLoad r => H1 r
    | SStatic c => H2 c
    | SAlternative l => H3 l (go l)
    | SOptional s' => H4 s' (source_ind' s')
    | SMerging l o f => H5 l o f (go l)
    | SBuildObjectFrom k s' => H6 k s' (source_ind' s')
    end.
End SrcInd.

Scheme rep_mut := Induction for rep Sort Prop
with ri_mut := Induction for rep_items Sort Prop
with re_mut := Induction for rep_elems Sort Prop.
Combined Scheme rep_all from rep_mut, ri_mut, re_mut.
Scheme sr_mut := Induction for src_rep Sort Prop
with ss_mut := Induction for srcs_rep Sort Prop.
Combined Scheme src_all from sr_mut, ss_mut.

(** ** trees *)
Lemma wf_dict d : tree_wf (TDict d) <-> dwf d /\ forall k x, In (k, x) d -> tree_wf x.
Proof.
  simpl. split; intros [W H]; split; auto; clear W; induction d as [|[k x] r IH]; auto.
  - intros k0 x0 [].
  - destruct H as [Hx Hr]. intros k0 x0 [E|Hin]; [inversion E; subst; auto|]. apply (IH Hr _ _ Hin).
  - split; [apply (H k); left; auto|]. apply IH. intros k0 x0 Hin. apply (H k0). right. auto.
Qed.
Lemma wf_list l : tree_wf (TList l) <-> forall x, In x l -> tree_wf x.
Proof.
  simpl. split; intros H; induction l as [|x r IH]; auto.
  - intros x [].
  - destruct H as [Hx Hr]. intros x0 [E|Hin]; [subst; auto|]. apply (IH Hr _ Hin).
  - split; [apply H; left; auto|]. apply IH. intros x0 Hin. apply H. right. auto.
Qed.

Definition join_entry (d2 : list (Z * tree)) (p : Z * tree) : Z * tree :=
  let (k, x) := p in (k, match dget Z.eqb d2 k with Some y => join x y | None => x end).
Lemma join_dict d1 d2 : join (TDict d1) (TDict d2) =
  TDict (map (join_entry d2) d1 ++ filter (fun p => negb (dmem Z.eqb d1 (fst p))) d2).
Proof. reflexivity. Qed.
Definition join_step (cur : dict Z tree) (p : Z * tree) : dict Z tree :=
  dset Z.eqb cur (fst p) (match dget Z.eqb cur (fst p) with Some x => join x (snd p) | None => snd p end).

Lemma dset_map_entry d2 cur k y x : dget Z.eqb d2 k = None -> dwf cur -> dget Z.eqb cur k = Some x ->
  map (join_entry d2) (dset Z.eqb cur k (join x y)) = map (join_entry ((k, y) :: d2)) cur.
Proof.
  intros Hk. induction cur as [|[k' x'] r IH]; intros W Hx; [discriminate|]. simpl in Hx. cbn [dset].
  inversion W as [|? ? Hn Wr]; subst. destruct (Z.eqb k' k) eqn:E.
  - apply Z.eqb_eq in E. subst. inversion Hx; subst. cbn [map]. f_equal.
    + unfold join_entry. rewrite Hk. simpl. rewrite Z.eqb_refl. reflexivity.
    + apply map_ext_in. intros [k0 x0] Hin. unfold join_entry. simpl.
      destruct (Z.eqb k k0) eqn:E0; auto. apply Z.eqb_eq in E0. subst. exfalso. apply Hn. apply (in_map fst) in Hin. auto.
  - cbn [map]. f_equal; [|apply IH; auto]. unfold join_entry. simpl. rewrite Z.eqb_sym, E. reflexivity.
Qed.
Lemma dset_append (d : dict Z tree) k y : dget Z.eqb d k = None -> dset Z.eqb d k y = d ++ [(k, y)].
Proof.
  induction d as [|[k' x] r IH]; simpl; auto. destruct (Z.eqb k' k) eqn:E; [discriminate|]. intros H. f_equal. auto.
Qed.
Lemma fold_join : forall d2 cur, dwf d2 -> dwf cur -> TDict (fold_left join_step d2 cur) = join (TDict cur) (TDict d2).
Proof.
  induction d2 as [|[k y] r IH]; intros cur W2 W1.
  - rewrite join_dict. simpl. rewrite app_nil_r. f_equal. induction cur as [|[k x] cur' IHc]; simpl; auto. inversion W1. f_equal. auto.
  - inversion W2 as [|? ? Hk Wr]; subst. cbn [fold_left]. rewrite IH; auto.
    2: { unfold join_step. apply (dset_wf zeqb_ok); auto. }
    assert (dget Z.eqb r k = None) as Hkr by (apply (dget_None zeqb_ok); auto).
    rewrite !join_dict. f_equal. unfold join_step. cbn [fst snd]. destruct (dget Z.eqb cur k) as [x|] eqn:E.
    + rewrite (dset_map_entry r cur k y x Hkr W1 E). f_equal. cbn [filter fst].
      unfold dmem at 2. rewrite E. cbn [negb]. apply filter_ext_in. intros [k0 x0] Hin. cbn [fst]. f_equal.
      unfold dmem. rewrite (dget_dset_neq zeqb_ok); auto. intros ->. apply Hk. apply (in_map fst) in Hin. auto.
    + rewrite (dset_append _ _ _ E), map_app, <- app_assoc. f_equal.
      * apply map_ext_in. intros [k0 x0] Hin. unfold join_entry. simpl. destruct (Z.eqb k k0) eqn:E0; auto.
        apply Z.eqb_eq in E0. subst. apply (dget_None zeqb_ok) in E. exfalso. apply E. apply (in_map fst) in Hin. auto.
      * cbn [map]. unfold join_entry. rewrite Hkr. cbn [filter fst]. unfold dmem at 2. rewrite E. cbn [negb app]. f_equal.
        apply filter_ext_in. intros [k0 x0] Hin. cbn [fst]. f_equal.
        assert (k0 <> k) as Hne by (intros ->; apply Hk; apply (in_map fst) in Hin; auto).
        unfold dmem. rewrite <- (dset_append _ _ _ E), (dget_dset_neq zeqb_ok); auto.
Qed.

Lemma dget_app_l {V} (d1 d2 : dict Z V) k : dget Z.eqb (d1 ++ d2) k = match dget Z.eqb d1 k with Some x => Some x | None => dget Z.eqb d2 k end.
Proof. induction d1 as [|[k' x] r IH]; simpl; auto. destruct (Z.eqb k' k); auto. Qed.
Lemma dget_map_entry d2 d1 k : dget Z.eqb (map (join_entry d2) d1) k =
  match dget Z.eqb d1 k with Some x => Some (match dget Z.eqb d2 k with Some y => join x y | None => x end) | None => None end.
Proof.
  induction d1 as [|[k' x] r IH]; simpl; auto. destruct (Z.eqb k' k) eqn:E; auto. apply Z.eqb_eq in E. subst. reflexivity.
Qed.
Lemma dget_filter_out (d1 d2 : list (Z * tree)) k :
  dget Z.eqb (filter (fun p => negb (dmem Z.eqb d1 (fst p))) d2) k = if dmem Z.eqb d1 k then None else dget Z.eqb d2 k.
Proof.
  induction d2 as [|[k' y] r IH]; simpl; [destruct (dmem _ _ _); auto|].
  destruct (dmem Z.eqb d1 k') eqn:E; simpl.
  - rewrite IH. destruct (dmem Z.eqb d1 k) eqn:E2; auto. destruct (Z.eqb k' k) eqn:E3; auto. apply Z.eqb_eq in E3. congruence.
  - destruct (Z.eqb k' k) eqn:E3; auto. apply Z.eqb_eq in E3. subst. rewrite E. auto.
Qed.
(** the entry of a joined dictionary under each key *)
Lemma join_get d1 d2 d k : join (TDict d1) (TDict d2) = TDict d ->
  dget Z.eqb d k = match dget Z.eqb d1 k, dget Z.eqb d2 k with
                   | Some x, Some y => Some (join x y)
                   | Some x, None => Some x
                   | None, y => y
                   end.
Proof.
  rewrite join_dict. intros H. inversion H; subst. rewrite dget_app_l, dget_map_entry, dget_filter_out. unfold dmem.
  destruct (dget Z.eqb d1 k); auto. destruct (dget Z.eqb d2 k); auto.
Qed.
Lemma join_wf : forall t1 t2, tree_wf t1 -> tree_wf t2 -> tree_wf (join t1 t2).
Proof.
  induction t1 as [z|d1 IH|l1 IH] using tree_ind'; intros [z2|d2|l2] W1 W2; try exact W2.
  - apply wf_dict in W1. apply wf_dict in W2. destruct W1 as [W1 V1], W2 as [W2 V2].
    rewrite Forall_forall in IH. rewrite join_dict. apply wf_dict. split.
    + unfold dwf, dkeys. rewrite map_app, map_map.
      replace (map (fun x => fst (join_entry d2 x)) d1) with (map fst d1) by (apply map_ext; intros [k x]; reflexivity).
      apply NoDup_app_intro; auto.
      * apply filter_wf. auto.
      * intros k Hk1 Hk2. apply in_map_iff in Hk2. destruct Hk2 as ([k' y] & <- & Hin). apply filter_In in Hin. destruct Hin as [_ Hm].
        simpl in Hm. apply negb_true_iff in Hm. assert (dmem Z.eqb d1 k' = true) by (apply (dmem_In zeqb_ok); auto). simpl in *. congruence.
    + intros k x Hin. apply in_app_or in Hin. destruct Hin as [Hin|Hin].
      * apply in_map_iff in Hin. destruct Hin as ([k' x'] & E & Hin). inversion E; subst.
        destruct (dget Z.eqb d2 k) as [y|] eqn:Ey; [|apply (V1 k); auto].
        apply (IH (k, x') Hin); [apply (V1 k); auto|apply (V2 k); apply (dget_In zeqb_ok); auto].
      * apply filter_In in Hin. apply (V2 k). tauto.
  - apply wf_list. intros x Hx. cbn [join] in Hx. apply in_app_or in Hx.
    destruct Hx; [apply (proj1 (wf_list l1) W1)|apply (proj1 (wf_list l2) W2)]; auto.
Qed.

(** ** paths *)
Lemma join_path_override : forall path t1 t2 x,
  at_path t2 path = Some x -> (forall d, x <> TDict d) -> (forall l, x <> TList l) -> at_path (join t1 t2) path = Some x.
Proof.
  induction path as [|k path IH]; intros t1 t2 x H Hd Hl.
  - simpl in *. inversion H; subst. destruct t1, x; try reflexivity; [exfalso; eapply Hd; eauto|exfalso; eapply Hl; eauto].
  - cbn [at_path] in H. destruct t2 as [|d2|]; try discriminate. destruct (dget Z.eqb d2 k) as [y|] eqn:Ey; [|discriminate].
    destruct t1 as [|d1|]; try (cbn [join at_path]; rewrite Ey; auto; fail).
    destruct (join (TDict d1) (TDict d2)) as [|d|] eqn:E; try (rewrite join_dict in E; discriminate).
    cbn [at_path]. rewrite (join_get d1 d2 d k E), Ey. destruct (dget Z.eqb d1 k) as [x1|]; auto.
Qed.
Lemma join_path_keeps : forall path d1 t2 , says_nothing_of t2 path -> forall x, at_path (TDict d1) path = Some x -> at_path (join (TDict d1) t2) path = Some x.
Proof.
  induction path as [|k path IH]; intros d1 t2 Hn x H; [contradiction|]. cbn [at_path says_nothing_of] in *.
  destruct t2 as [|d2|]; try contradiction.
  destruct (join (TDict d1) (TDict d2)) as [|d|] eqn:E; try (rewrite join_dict in E; discriminate).
  cbn [at_path]. rewrite (join_get d1 d2 d k E). destruct (dget Z.eqb d1 k) as [x1|] eqn:E1; [|discriminate].
  destruct (dget Z.eqb d2 k) as [y|]; auto.
  destruct x1 as [z|d1'|l1].
  - destruct path; [contradiction|discriminate].
  - auto.
  - destruct path; [contradiction|discriminate].
Qed.
Lemma join_path_new : forall path d1 t2 x, says_nothing_of (TDict d1) path -> at_path t2 path = Some x -> at_path (join (TDict d1) t2) path = Some x.
Proof.
  induction path as [|k path IH]; intros d1 t2 x Hn H; [contradiction|]. cbn [at_path says_nothing_of] in *.
  destruct t2 as [|d2|]; try discriminate.
  destruct (join (TDict d1) (TDict d2)) as [|d|] eqn:E; try (rewrite join_dict in E; discriminate).
  cbn [at_path]. rewrite (join_get d1 d2 d k E). destruct (dget Z.eqb d2 k) as [y|] eqn:E2; [|discriminate].
  destruct (dget Z.eqb d1 k) as [x1|] eqn:E1; auto.
  destruct x1 as [z|d1'|l1].
  - destruct path; contradiction.
  - auto.
  - destruct path; contradiction.
Qed.

(** ** memory *)
Definition agree (f : list nat) (m m' : mem) : Prop := forall a, In a f -> nth_error m' a = nth_error m a.
Lemma rep_frame_all m m' :
  (forall v t f, rep m v t f -> agree f m m' -> rep m' v t f) /\
  (forall d td f, rep_items m d td f -> agree f m m' -> rep_items m' d td f) /\
  (forall l tl f, rep_elems m l tl f -> agree f m m' -> rep_elems m' l tl f).
Proof.
  apply (rep_all m (fun v t f _ => agree f m m' -> rep m' v t f) (fun d td f _ => agree f m m' -> rep_items m' d td f)
                   (fun l tl f _ => agree f m m' -> rep_elems m' l tl f)).
  - constructor.
  - intros a d td f Hn _ IH Ha. apply rep_dict with d; [rewrite Ha; [auto|left; auto]|]. apply IH. intros b Hb. apply Ha. right. auto.
  - intros a l tl f Hn _ IH Ha. apply rep_list with l; [rewrite Ha; [auto|left; auto]|]. apply IH. intros b Hb. apply Ha. right. auto.
  - constructor.
  - intros k v t d td f g _ IH1 _ IH2 Ha. constructor; [apply IH1|apply IH2]; intros b Hb; apply Ha; apply in_or_app; auto.
  - constructor.
  - intros v t l tl f g _ IH1 _ IH2 Ha. constructor; [apply IH1|apply IH2]; intros b Hb; apply Ha; apply in_or_app; auto.
Qed.
Lemma rep_frame m m' v t f : rep m v t f -> agree f m m' -> rep m' v t f.
Proof. apply (proj1 (rep_frame_all m m')). Qed.
Lemma items_frame m m' d td f : rep_items m d td f -> agree f m m' -> rep_items m' d td f.
Proof. apply (proj1 (proj2 (rep_frame_all m m'))). Qed.
Lemma elems_frame m m' l tl f : rep_elems m l tl f -> agree f m m' -> rep_elems m' l tl f.
Proof. apply (proj2 (proj2 (rep_frame_all m m'))). Qed.
Lemma rep_in_mem_all m :
  (forall v t f, rep m v t f -> forall a, In a f -> (a < length m)%nat) /\
  (forall d td f, rep_items m d td f -> forall a, In a f -> (a < length m)%nat) /\
  (forall l tl f, rep_elems m l tl f -> forall a, In a f -> (a < length m)%nat).
Proof.
  apply (rep_all m (fun v t f _ => forall a, In a f -> (a < length m)%nat) (fun d td f _ => forall a, In a f -> (a < length m)%nat)
                   (fun l tl f _ => forall a, In a f -> (a < length m)%nat)).
  - intros z a [].
  - intros a d td f Hn _ IH b [<-|Hb]; auto. apply nth_error_Some. congruence.
  - intros a l tl f Hn _ IH b [<-|Hb]; auto. apply nth_error_Some. congruence.
  - intros a [].
  - intros k v t d td f g _ IH1 _ IH2 a Ha. apply in_app_or in Ha. destruct Ha; auto.
  - intros a [].
  - intros v t l tl f g _ IH1 _ IH2 a Ha. apply in_app_or in Ha. destruct Ha; auto.
Qed.
Lemma rep_in_mem m v t f a : rep m v t f -> In a f -> (a < length m)%nat.
Proof. intros H. apply (proj1 (rep_in_mem_all m) v t f H). Qed.

Lemma items_keys m d td f : rep_items m d td f -> dkeys d = dkeys td.
Proof. induction 1; simpl; auto. unfold dkeys in *. f_equal. auto. Qed.
Lemma items_get m d td f k : rep_items m d td f -> match dget Z.eqb td k with
  | None => dget Z.eqb d k = None
  | Some tx => exists x fx g, dget Z.eqb d k = Some x /\ rep m x tx fx /\ Permutation f (fx ++ g) /\
      forall m' x' tx' f', agree g m m' -> rep m' x' tx' f' ->
        exists fs, rep_items m' (dset Z.eqb d k x') (dset Z.eqb td k tx') fs /\ Permutation fs (f' ++ g)
  end.
Proof.
  induction 1 as [|k' v t d td f g Hv Hd IH]; simpl; auto. destruct (Z.eqb k' k) eqn:E.
  - exists v, f, g. split; auto. split; auto. split; [reflexivity|]. intros m' x' tx' f' Ha Hr.
    exists (f' ++ g). split; [|reflexivity]. constructor; auto. apply (items_frame _ _ _ _ _ Hd Ha).
  - destruct (dget Z.eqb td k) as [tx|]; auto. destruct IH as (x & fx & g' & Hx & Hr & Hp & Hs).
    exists x, fx, (f ++ g'). split; auto. split; auto. split.
    { rewrite Hp. rewrite !app_assoc. apply Permutation_app_tail. apply Permutation_app_comm. }
    intros m' x' tx' f' Ha Hr'. destruct (Hs m' x' tx' f') as (fs & Hfs & Hpfs); auto.
    { intros b Hb. apply Ha. apply in_or_app. auto. }
    exists (f ++ fs). split.
    + constructor; auto. apply (rep_frame _ _ _ _ _ Hv). intros b Hb. apply Ha. apply in_or_app. auto.
    + rewrite Hpfs. rewrite !app_assoc. apply Permutation_app_tail. apply Permutation_app_comm.
Qed.
Lemma items_append m d td f k x tx fx : rep_items m d td f -> dget Z.eqb td k = None -> rep m x tx fx ->
  exists fs, rep_items m (dset Z.eqb d k x) (dset Z.eqb td k tx) fs /\ Permutation fs (fx ++ f).
Proof.
  intros H. revert fx. induction H as [|k' v t d td f g Hv Hd IH]; intros fx Hn Hx; simpl in *.
  - exists (fx ++ []). split; [constructor; auto; constructor|]. reflexivity.
  - destruct (Z.eqb k' k) eqn:E; [discriminate|]. destruct (IH fx Hn Hx) as (fs & Hfs & Hp). exists (f ++ fs).
    split; [constructor; auto|]. rewrite Hp. rewrite !app_assoc. apply Permutation_app_tail. apply Permutation_app_comm.
Qed.
Lemma elems_app m l tl f l' tl' f' : rep_elems m l tl f -> rep_elems m l' tl' f' -> rep_elems m (l ++ l') (tl ++ tl') (f ++ f').
Proof. induction 1; intros H2; simpl; auto. rewrite <- app_assoc. constructor; auto. Qed.

Lemma NoDup_app_inv {A} (l1 l2 : list A) : NoDup (l1 ++ l2) -> NoDup l1 /\ NoDup l2 /\ forall x, In x l1 -> ~ In x l2.
Proof.
  induction l1 as [|a l1 IH]; simpl; intros H; [split; [constructor|split; auto]|].
  inversion H as [|? ? Hn Hr]; subst. destruct (IH Hr) as (H1 & H2 & H3). split; [|split; auto].
  - constructor; auto. intros X. apply Hn. apply in_or_app. auto.
  - intros x [<-|Hx]; auto. intros X. apply Hn. apply in_or_app. auto.
Qed.

Fixpoint height (t : tree) : nat :=
  match t with
  | TLeaf _ => 0
  | TDict d => S (fold_right (fun p h => Nat.max (height (snd p)) h) 0%nat d)
  | TList _ => 1
  end.
Lemma height_dict d k x : dget Z.eqb d k = Some x -> (height x < height (TDict d))%nat.
Proof.
  simpl. induction d as [|[k' x'] r IH]; simpl; [discriminate|]. destruct (Z.eqb k' k); intros H; [inversion H; subst; lia|].
  specialize (IH H). lia.
Qed.

(** merging two separate configurations: nothing else is touched *)
Lemma merge_ok : forall fuel m v1 v2 t1 t2 f1 f2, (height t1 < fuel)%nat ->
  rep m v1 t1 f1 -> rep m v2 t2 f2 -> NoDup (f1 ++ f2) -> tree_wf t1 -> tree_wf t2 ->
  exists m' v f, merge_dicts fuel m v1 v2 = Ok (m', v) /\ rep m' v (join t1 t2) f /\ incl f (f1 ++ f2) /\ NoDup f /\
    length m' = length m /\ (forall a, ~ In a (f1 ++ f2) -> nth_error m' a = nth_error m a).
Proof.
  induction fuel as [|fuel IH]; intros m v1 v2 t1 t2 f1 f2 Hh R1 R2 Hnd W1 W2; [lia|]. cbn [merge_dicts].
  destruct (NoDup_app_inv _ _ Hnd) as (N1 & N2 & N12).
  assert (forall o, o = Ok (m, v2) -> join t1 t2 = t2 ->
    exists m' v f, o = Ok (m', v) /\ rep m' v (join t1 t2) f /\ incl f (f1 ++ f2) /\ NoDup f /\
    length m' = length m /\ (forall a, ~ In a (f1 ++ f2) -> nth_error m' a = nth_error m a)) as Other.
  { intros o -> Hj. exists m, v2, f2. rewrite Hj. split; auto. split; auto. split; [apply incl_appr; apply incl_refl|]. auto. }
  inversion R1 as [z1|a d1 td1 g1 Hn1 I1|a l1 tl1 g1 Hn1 I1]; subst; cbn [deref].
  - apply Other; auto.
  - inversion R2 as [z2|b d2 td2 g2 Hn2 I2|b l2 tl2 g2 Hn2 I2]; subst; cbn [deref]; rewrite ?Hn1, ?Hn2; cbn [option_map].
    + apply Other; auto.
    + clear Other. apply wf_dict in W1. apply wf_dict in W2. destruct W1 as [W1 V1], W2 as [W2 V2].
      rewrite <- fold_join by auto. rewrite (items_keys _ _ _ _ I2).
      assert (a < length m)%nat as Ham by (apply nth_error_Some; congruence).
      assert (~ In a g2 /\ a <> b /\ ~ In b g1 /\ ~ In b g2) as (Hag2 & Hab & Hbg1 & Hbg2).
      { inversion N2; subst. split; [|split; [|split]].
        - intros X. apply (N12 a); [left; auto|right; auto].
        - intros ->. apply (N12 b); left; auto.
        - intros X. apply (N12 b); [right; auto|left; auto].
        - auto. }
      assert (forall rest pre m1 cur tcur fcur drest fr,
        td2 = pre ++ rest -> nth_error m1 a = Some (CDict cur) -> rep_items m1 cur tcur fcur ->
        (forall c, In c fcur -> In c g1 \/ In c g2) -> NoDup (a :: fcur) -> length m1 = length m ->
        (forall c, ~ In c (a :: g1 ++ g2) \/ In c fr -> nth_error m1 c = nth_error m c) ->
        (forall k tx, In k (dkeys rest) -> dget Z.eqb tcur k = Some tx -> (height tx < fuel)%nat /\ tree_wf tx) ->
        rep_items m drest rest fr -> NoDup fr -> (forall c, In c fr -> In c g2 /\ ~ In c fcur) ->
        (forall k v, In (k, v) drest -> dget Z.eqb d2 k = Some v) ->
        exists m' v f, res_bind (merge_keys (merge_dicts fuel) m1 a b (dkeys rest)) (fun m' => Ok (m', VRef a)) = Ok (m', v) /\
          rep m' v (TDict (fold_left join_step rest tcur)) f /\ incl f ((a :: g1) ++ b :: g2) /\ NoDup f /\ length m' = length m /\
          (forall c, ~ In c ((a :: g1) ++ b :: g2) -> nth_error m' c = nth_error m c)) as Loop.
      { induction rest as [|[k ty] rest IHr]; intros pre m1 cur tcur fcur drest fr Htd Hc Rc Hfc Hndc Hlen Hout Htx Rd Hndr Hdis Hget.
        - simpl. exists m1, (VRef a), (a :: fcur). split; auto. split; [apply rep_dict with cur; auto|]. split; [|split; auto; split; auto].
          + intros c [<-|X]; [left; auto|]. right. apply in_or_app. destruct (Hfc c X); auto. right. right. auto.
          + intros c X. apply Hout. left. intros [<-|Y]; apply X; [left; auto|]. right. apply in_app_or in Y. apply in_or_app.
            destruct Y; auto. right. right. auto.
        - inversion Rd as [|? y ? drest' ? fy fr' Ry Rd']; subst. cbn [dkeys map fst merge_keys].
          destruct (NoDup_app_inv _ _ Hndr) as (Nfy & Nfr & Nyr).
          assert (dwf ((k, ty) :: rest)) as Wrest.
          { unfold dwf, dkeys in W2 |- *. rewrite map_app in W2. apply NoDup_app_inv in W2. tauto. }
          inversion Wrest as [|? ? Hkrest Wrest']; subst.
          assert (dget Z.eqb d2 k = Some y) as Hy by (apply Hget; left; auto).
          assert (~ In b (a :: g1 ++ g2)) as Hb by (intros [X|X]; [auto|]; apply in_app_or in X; destruct X; auto).
          assert (dict_get m1 b k = Some y) as Hdb by (unfold dict_get; rewrite (Hout b (or_introl Hb)), Hn2; auto).
          assert (dict_get m1 a k = dget Z.eqb cur k) as Hda by (unfold dict_get; rewrite Hc; auto).
          rewrite Hda, Hdb.
          assert (rep m1 y ty fy) as Ry1.
          { apply (rep_frame _ _ _ _ _ Ry). intros c X. apply Hout. right. apply in_or_app. auto. }
          assert (tree_wf ty) as Wty by (apply (V2 k); apply in_or_app; right; left; auto).
          inversion Hndc as [|? ? Hac Nc]; subst.
          assert (forall c, In c fy -> In c g2 /\ ~ In c fcur) as Dy by (intros c X; apply Hdis; apply in_or_app; auto).
          assert (forall c, In c fr' -> In c g2 /\ ~ In c fcur) as Dr by (intros c X; apply Hdis; apply in_or_app; auto).
          assert (~ In a fy) as Hafy by (intros X; apply Hag2; apply Dy; auto).
          assert (~ In a fr') as Hafr by (intros X; apply Hag2; apply Dr; auto).
          cbn [fold_left]. unfold join_step at 2. cbn [fst snd].
          assert (forall m2 r fs tr,
            nth_error m2 a = Some (CDict cur) -> length m2 = length m1 ->
            (forall c, ~ In c (a :: fcur ++ fy) -> nth_error m2 c = nth_error m1 c) ->
            rep_items (dict_set m2 a k r) (dset Z.eqb cur k r) (dset Z.eqb tcur k tr) fs ->
            (forall c, In c fs -> In c fcur \/ In c fy) -> NoDup fs ->
            exists m' v f, res_bind (merge_keys (merge_dicts fuel) (dict_set m2 a k r) a b (dkeys rest)) (fun m' => Ok (m', VRef a)) = Ok (m', v) /\
              rep m' v (TDict (fold_left join_step rest (dset Z.eqb tcur k tr))) f /\ incl f ((a :: g1) ++ b :: g2) /\ NoDup f /\ length m' = length m /\
              (forall c, ~ In c ((a :: g1) ++ b :: g2) -> nth_error m' c = nth_error m c)) as Next.
          { intros m2 r fs tr Hc2 Hl2 Ho2 Rfs Hfs Nfs.
            assert (dict_set m2 a k r = upd m2 a (CDict (dset Z.eqb cur k r))) as Eds by (unfold dict_set; rewrite Hc2; auto).
            apply (IHr (pre ++ [(k, ty)]) (dict_set m2 a k r) (dset Z.eqb cur k r) (dset Z.eqb tcur k tr) fs drest' fr').
            - rewrite <- app_assoc. auto.
            - rewrite Eds. apply nth_error_upd_eq. lia.
            - auto.
            - intros c X. destruct (Hfs c X) as [Y|Y]; auto. right. apply Dy. auto.
            - constructor; auto. intros X. destruct (Hfs a X); auto.
            - rewrite Eds, upd_length. lia.
            - intros c X.
              assert (c <> a) as Hca. { intros ->. destruct X as [X|X]; [apply X; left; auto|auto]. }
              rewrite Eds, nth_error_upd_neq by auto. rewrite Ho2.
              + apply Hout. destruct X as [X|X]; [auto|right; apply in_or_app; auto].
              + intros [Y|Y]; [congruence|]. apply in_app_or in Y. destruct X as [X|X].
                * apply X. right. apply in_or_app. destruct Y as [Y|Y]; [apply Hfc; auto|right; apply Dy; auto].
                * destruct Y as [Y|Y]; [apply (proj2 (Dr c X)); auto|apply (Nyr c); auto].
            - intros k0 tx Hk0 Hg. assert (k0 <> k) as Hne by (intros ->; auto).
              rewrite (dget_dset_neq zeqb_ok) in Hg by auto. apply (Htx k0); auto. right. auto.
            - auto.
            - auto.
            - intros c X. split; [apply Dr; auto|]. intros Y. destruct (Hfs c Y) as [Y'|Y']; [apply (proj2 (Dr c X)); auto|apply (Nyr c); auto].
            - intros k0 v0 Hin. apply Hget. right. auto. }
          pose proof (items_get _ _ _ _ k Rc) as Hg. destruct (dget Z.eqb tcur k) as [tx|] eqn:Etx.
          + destruct Hg as (x & fx & g & Hx & Rx & Hp & Hset). rewrite Hx.
            assert (NoDup (fx ++ g)) as Nfg by (rewrite <- Hp; auto). destruct (NoDup_app_inv _ _ Nfg) as (Nfx & Ng & Nxg).
            assert (forall c, In c fx -> In c fcur) as Fx by (intros c X; apply (Permutation_in c (Permutation_sym Hp)); apply in_or_app; auto).
            assert (forall c, In c g -> In c fcur) as Fg by (intros c X; apply (Permutation_in c (Permutation_sym Hp)); apply in_or_app; auto).
            destruct (Htx k tx (or_introl eq_refl) Etx) as [Hht Wtx].
            destruct (IH m1 x y tx ty fx fy) as (m2 & r & fr2 & E & Rr & Hi2 & Nr2 & Hl2 & Ho2); auto.
            { apply NoDup_app_intro; auto. intros c X Y. apply (proj2 (Dy c Y)). auto. }
            rewrite E. cbn [res_bind].
            assert (~ In a fx) as Hafx by (intros X; apply Hac; auto).
            assert (~ In a (fx ++ fy)) as Hafxy by (intros X; apply in_app_or in X; destruct X; auto).
            assert (nth_error m2 a = Some (CDict cur)) as Hc2 by (rewrite Ho2; auto).
            assert (dict_set m2 a k r = upd m2 a (CDict (dset Z.eqb cur k r))) as Eds by (unfold dict_set; rewrite Hc2; auto).
            destruct (Hset (dict_set m2 a k r) r (join tx ty) fr2) as (fs & Rfs & Pfs).
            { intros c X. rewrite Eds, nth_error_upd_neq by (intros ->; apply Hac; auto). apply Ho2. intros Y. apply in_app_or in Y.
              destruct Y as [Y|Y]; [apply (Nxg c); auto|apply (proj2 (Dy c Y)); auto]. }
            { apply (rep_frame _ _ _ _ _ Rr). intros c X. rewrite Eds. apply nth_error_upd_neq. intros <-. apply Hi2 in X. auto. }
            apply (Next m2 r fs (join tx ty)); auto.
            * intros c X. apply Ho2. intros Y. apply X. right. apply in_or_app. apply in_app_or in Y. destruct Y; auto.
            * intros c X. apply (Permutation_in c Pfs) in X. apply in_app_or in X. destruct X as [X|X]; auto.
              apply Hi2 in X. apply in_app_or in X. destruct X; auto.
            * apply (Permutation_NoDup (Permutation_sym Pfs)). apply NoDup_app_intro; auto.
              intros c X Y. apply Hi2 in X. apply in_app_or in X. destruct X as [X|X]; [apply (Nxg c); auto|].
              apply (proj2 (Dy c X)). auto.
          + rewrite Hg.
            assert (dict_set m1 a k y = upd m1 a (CDict (dset Z.eqb cur k y))) as Eds by (unfold dict_set; rewrite Hc; auto).
            destruct (items_append (dict_set m1 a k y) cur tcur fcur k y ty fy) as (fs & Rfs & Pfs); auto.
            { apply (items_frame _ _ _ _ _ Rc). intros c X. rewrite Eds. apply nth_error_upd_neq. intros <-. auto. }
            { apply (rep_frame _ _ _ _ _ Ry1). intros c X. rewrite Eds. apply nth_error_upd_neq. intros <-. auto. }
            apply (Next m1 y fs ty); auto.
            * intros c X. apply (Permutation_in c Pfs) in X. apply in_app_or in X. destruct X; auto.
            * apply (Permutation_NoDup (Permutation_sym Pfs)). apply NoDup_app_intro; auto. intros c X Y. apply (proj2 (Dy c X)). auto. }
      inversion N2; subst.
      apply (Loop td2 [] m d1 td1 g1 d2 g2); auto.
      * intros k tx _ Hg. split; [pose proof (height_dict _ _ _ Hg); simpl in *; lia|]. apply (V1 k). apply (dget_In zeqb_ok). auto.
      * intros c X. split; auto. intros Y. apply (N12 c); right; auto.
      * intros k v Hin. apply (In_dget zeqb_ok); auto. unfold dwf. rewrite (items_keys _ _ _ _ I2). auto.
    + apply Other; auto.
  - inversion R2 as [z2|b d2 td2 g2 Hn2 I2|b l2 tl2 g2 Hn2 I2]; subst; cbn [deref]; rewrite ?Hn1, ?Hn2; cbn [option_map].
    + apply Other; auto.
    + apply Other; auto.
    + exists (upd m a (CList (l1 ++ l2))), (VRef a), (a :: g1 ++ g2). split; auto.
      assert (a < length m)%nat as Ham by (apply nth_error_Some; congruence).
      inversion N1; inversion N2; subst.
      assert (~ In a g2) as Hag2 by (intros X; apply (N12 a); [left; auto|right; auto]).
      assert (forall f, ~ In a f -> agree f m (upd m a (CList (l1 ++ l2)))) as Fr.
      { intros f Hf c X. apply nth_error_upd_neq. intros <-. auto. }
      split; [|split; [|split; [|split]]].
      * cbn [join]. apply rep_list with (l1 ++ l2); [apply nth_error_upd_eq; auto|].
        apply elems_app; [apply (elems_frame _ _ _ _ _ I1); auto|apply (elems_frame _ _ _ _ _ I2); auto].
      * intros c [<-|X]; [left; auto|]. right. apply in_app_or in X. apply in_or_app. destruct X; auto. right. right. auto.
      * constructor; [intros X; apply in_app_or in X; destruct X; auto|]. apply NoDup_app_intro; auto.
        intros c X Y. apply (N12 c); right; auto.
      * apply upd_length.
      * intros c X. apply nth_error_upd_neq. intros <-. apply X. left. auto.
Qed.

(** ** new objects *)
Lemma alloc_ok : forall t m, exists ext v f, alloc m t = (m ++ ext, v) /\ rep (m ++ ext) v t f /\ NoDup f /\
  (forall a, In a f -> (length m <= a)%nat).
Proof.
  induction t as [z|d IH|l IH] using tree_ind'; intros m.
  - exists [], (VLeaf z), []. rewrite app_nil_r. split; auto. split; [constructor|]. split; [constructor|]. intros a [].
  - assert (forall m, exists ext d' f,
      (fix items (m : mem) (d : list (Z * tree)) : mem * dict Z val :=
         match d with
         | [] => (m, [])
         | (k, x) :: r => let (m1, v) := alloc m x in let (m2, r') := items m1 r in (m2, (k, v) :: r')
         end) m d = (m ++ ext, d') /\ rep_items (m ++ ext) d' d f /\ NoDup f /\ (forall a, In a f -> (length m <= a)%nat)) as G.
    { clear m. induction IH as [|[k x] r Hx Hr IHr]; intros m.
      - exists [], [], []. rewrite app_nil_r. split; auto. split; [constructor|]. split; [constructor|]. intros a [].
      - destruct (Hx m) as (e1 & v & f & E1 & R1 & N1 & L1). cbn [snd] in *. rewrite E1.
        destruct (IHr (m ++ e1)) as (e2 & d' & g & E2 & R2 & N2 & L2). rewrite E2.
        exists (e1 ++ e2), ((k, v) :: d'), (f ++ g). rewrite app_assoc. split; auto.
        assert (forall a, In a f -> (a < length (m ++ e1))%nat) as B1 by (intros a; apply (rep_in_mem _ _ _ _ _ R1)).
        split; [|split].
        + constructor; auto. apply (rep_frame _ _ _ _ _ R1). intros a Ha. rewrite nth_error_app1; auto.
        + apply NoDup_app_intro; auto. intros a Ha Hb. specialize (B1 a Ha). specialize (L2 a Hb). lia.
        + intros a Ha. apply in_app_or in Ha. destruct Ha as [Ha|Ha]; [auto|]. specialize (L2 a Ha). rewrite app_length in L2. lia. }
    destruct (G m) as (ext & d' & f & E & R & N & L). cbn [alloc]. rewrite E.
    exists (ext ++ [CDict d']), (VRef (length (m ++ ext))), (length (m ++ ext) :: f). rewrite app_assoc. split; auto.
    assert (forall a, In a f -> (a < length (m ++ ext))%nat) as B by (intros a; apply (proj1 (proj2 (rep_in_mem_all (m ++ ext))) _ _ _ R)).
    split; [|split].
    + apply rep_dict with d'.
      * rewrite nth_error_app2, Nat.sub_diag by lia. auto.
      * apply (items_frame _ _ _ _ _ R). intros a Ha. rewrite nth_error_app1; auto.
    + constructor; auto. intros X. specialize (B _ X). lia.
    + intros a [<-|Ha]; auto. rewrite app_length. lia.
  - assert (forall m, exists ext l' f,
      (fix elems (m : mem) (l : list tree) : mem * list val :=
         match l with
         | [] => (m, [])
         | x :: r => let (m1, v) := alloc m x in let (m2, r') := elems m1 r in (m2, v :: r')
         end) m l = (m ++ ext, l') /\ rep_elems (m ++ ext) l' l f /\ NoDup f /\ (forall a, In a f -> (length m <= a)%nat)) as G.
    { clear m. induction IH as [|x r Hx Hr IHr]; intros m.
      - exists [], [], []. rewrite app_nil_r. split; auto. split; [constructor|]. split; [constructor|]. intros a [].
      - destruct (Hx m) as (e1 & v & f & E1 & R1 & N1 & L1). rewrite E1.
        destruct (IHr (m ++ e1)) as (e2 & d' & g & E2 & R2 & N2 & L2). rewrite E2.
        exists (e1 ++ e2), (v :: d'), (f ++ g). rewrite app_assoc. split; auto.
        assert (forall a, In a f -> (a < length (m ++ e1))%nat) as B1 by (intros a; apply (rep_in_mem _ _ _ _ _ R1)).
        split; [|split].
        + constructor; auto. apply (rep_frame _ _ _ _ _ R1). intros a Ha. rewrite nth_error_app1; auto.
        + apply NoDup_app_intro; auto. intros a Ha Hb. specialize (B1 a Ha). specialize (L2 a Hb). lia.
        + intros a Ha. apply in_app_or in Ha. destruct Ha as [Ha|Ha]; [auto|]. specialize (L2 a Ha). rewrite app_length in L2. lia. }
    destruct (G m) as (ext & d' & f & E & R & N & L). cbn [alloc]. rewrite E.
    exists (ext ++ [CList d']), (VRef (length (m ++ ext))), (length (m ++ ext) :: f). rewrite app_assoc. split; auto.
    assert (forall a, In a f -> (a < length (m ++ ext))%nat) as B by (intros a; apply (proj2 (proj2 (rep_in_mem_all (m ++ ext))) _ _ _ R)).
    split; [|split].
    + apply rep_list with d'.
      * rewrite nth_error_app2, Nat.sub_diag by lia. auto.
      * apply (elems_frame _ _ _ _ _ R). intros a Ha. rewrite nth_error_app1; auto.
    + constructor; auto. intros X. specialize (B _ X). lia.
    + intros a [<-|Ha]; auto. rewrite app_length. lia.
Qed.

(** ** sources *)
Lemma src_frame_all m m' :
  (forall s ts f, src_rep m s ts f -> agree f m m' -> src_rep m' s ts f) /\
  (forall l tl f, srcs_rep m l tl f -> agree f m m' -> srcs_rep m' l tl f).
Proof.
  apply (src_all m (fun s ts f _ => agree f m m' -> src_rep m' s ts f) (fun l tl f _ => agree f m m' -> srcs_rep m' l tl f));
    try (intros; constructor; auto; fail).
  - intros v t f R W Ha. constructor; auto. apply (rep_frame _ _ _ _ _ R Ha).
  - intros s ts l tl f g _ IH1 _ IH2 Ha. constructor; [apply IH1|apply IH2]; intros b Hb; apply Ha; apply in_or_app; auto.
Qed.
Lemma src_in_mem_all m :
  (forall s ts f, src_rep m s ts f -> forall a, In a f -> (a < length m)%nat) /\
  (forall l tl f, srcs_rep m l tl f -> forall a, In a f -> (a < length m)%nat).
Proof.
  apply (src_all m (fun s ts f _ => forall a, In a f -> (a < length m)%nat) (fun l tl f _ => forall a, In a f -> (a < length m)%nat));
    auto; try (intros; contradiction).
  - intros v t f R W a. apply (rep_in_mem _ _ _ _ _ R).
  - intros s ts l tl f g _ IH1 _ IH2 a Ha. apply in_app_or in Ha. destruct Ha; auto.
Qed.
Lemma is_dict_rep m v t f : rep m v t f -> is_dict m v = is_tree_dict t.
Proof. intros R. inversion R; subst; unfold is_dict; simpl; auto; rewrite H; auto. Qed.

(** what a call of provide does: it touches the objects of its own static sources and
    makes new ones; the result is made of these *)
Definition good (m : mem) (F : list nat) (m' : mem) (r : res val) (o : res tree) : Prop :=
  (length m <= length m')%nat /\ (forall a, (a < length m)%nat -> ~ In a F -> nth_error m' a = nth_error m a) /\
  match o with
  | Ok t => tree_wf t /\ exists v f, r = Ok v /\ rep m' v t f /\ NoDup f /\ forall a, In a f -> In a F \/ (length m <= a)%nat
  | Err e => r = Err e
  end.
Definition provides (ts : source tree) : Prop :=
  exists n, forall fuel m s F, (n <= fuel)%nat -> src_rep m s ts F -> NoDup F ->
    exists m' r, provide fuel m s = (m', r) /\ good m F m' r (outcome ts).

Lemma first_of_cons r rs : first_of (r :: rs) =
  if config_fails r then first_of rs else match r with Ok t => if is_tree_dict t then Ok t else Err AssertionError | Err e => Err e end.
Proof. unfold first_of. cbn [find]. destruct (config_fails r); reflexivity. Qed.
Lemma classic_wf t : tree_wf t \/ ~ tree_wf t.
Proof.
  induction t as [z|d IH|l IH] using tree_ind'.
  - left. exact I.
  - rewrite wf_dict. destruct (ListDec.NoDup_dec Z.eq_dec (dkeys d)) as [N|N]; [|right; tauto].
    assert ((forall k x, In (k, x) d -> tree_wf x) \/ ~ (forall k x, In (k, x) d -> tree_wf x)) as [H|H]; [|left; tauto|right; tauto].
    clear N. induction IH as [|[k x] r Hx Hr IHr]; [left; intros k x []|]. cbn [snd] in Hx.
    destruct Hx as [Hx|Hx]; [|right; intros H; apply Hx; apply (H k); left; auto].
    destruct IHr as [H|H]; [left|right].
    + intros k0 x0 [E|Hin]; [inversion E; subst; auto|apply (H k0); auto].
    + intros H'. apply H. intros k0 x0 Hin. apply (H' k0). right. auto.
  - rewrite wf_list. induction IH as [|x r Hx Hr IHr]; [left; intros x []|].
    destruct Hx as [Hx|Hx]; [|right; intros H; apply Hx; apply H; left; auto].
    destruct IHr as [H|H]; [left|right].
    + intros x0 [E|Hin]; [subst; auto|auto].
    + intros H'. apply H. intros x0 Hin. apply H'. right. auto.
Qed.

Lemma alternative_ok tl : Forall provides tl ->
  exists n, forall fuel m l F, (n <= fuel)%nat -> srcs_rep m l tl F -> NoDup F ->
    exists m' r, alternative_loop (provide fuel) m l = (m', r) /\ good m F m' r (first_of (map outcome tl)).
Proof.
  induction 1 as [|ts tl [n1 Hs] _ [n2 IH]].
  - exists 0%nat. intros fuel m l F _ R _. inversion R; subst. exists m, (Err ConfigurationError). split; auto.
    split; auto. split; auto. reflexivity.
  - exists (Nat.max n1 n2). intros fuel m l F Hn R Nd. inversion R as [|s ? l' ? f g Rs Rl]; subst. cbn [alternative_loop].
    destruct (NoDup_app_inv _ _ Nd) as (Nf & Ng & Nfg).
    destruct (Hs fuel m s f) as (m1 & r1 & E1 & (L1 & O1 & G1)); auto; [lia|]. rewrite E1.
    assert (forall a, In a g -> (a < length m)%nat) as Bg by (apply (proj2 (src_in_mem_all m) _ _ _ Rl)).
    cbn [map]. rewrite first_of_cons.
    destruct (outcome ts) as [t|e].
    + destruct G1 as (W & v & fv & -> & Rv & Nv & Hv). cbn [config_fails]. rewrite (is_dict_rep _ _ _ _ Rv).
      assert (forall a, (a < length m)%nat -> ~ In a (f ++ g) -> nth_error m1 a = nth_error m a) as O.
      { intros a Ha Hin. apply O1; auto. intros X. apply Hin. apply in_or_app. auto. }
      destruct (is_tree_dict t); eexists; eexists; (split; [reflexivity|]); (split; [auto|]); (split; [auto|]); [|reflexivity].
      split; auto. exists v, fv. split; auto. split; auto. split; auto. intros a Ha. destruct (Hv a Ha); auto. left. apply in_or_app. auto.
    + subst r1. destruct (config_fails (Err e)) eqn:Ec.
      * assert (e = ConfigurationError) as -> by (destruct e; simpl in Ec; congruence || reflexivity).
        destruct (IH fuel m1 l' g) as (m2 & r2 & E2 & (L2 & O2 & G2)); auto; [lia|..].
        { apply (proj2 (src_frame_all m m1) _ _ _ Rl). intros a Ha. apply O1; auto. intros X. apply (Nfg a); auto. }
        exists m2, r2. split; [exact E2|]. split; [lia|]. split.
        { intros a Ha Hin. rewrite O2; [apply O1; auto|lia|]; intros X; apply Hin; apply in_or_app; auto. }
        destruct (first_of (map outcome tl)) as [t|e2]; auto.
        destruct G2 as (W & v & fv & -> & Rv & Nv & Hv). split; auto. exists v, fv. split; auto. split; auto. split; auto.
        intros a Ha. destruct (Hv a Ha); [left; apply in_or_app; auto|right; lia].
      * exists m1, (Err e). split; [destruct e; simpl in Ec; congruence || reflexivity|]. split; auto. split; auto.
        intros a Ha Hin. apply O1; auto. intros X. apply Hin. apply in_or_app. auto.
Qed.

(** from a configuration merged so far, and so many sources correct so far *)
Definition merge_goal (m : mem) (F : list nat) (fc : list nat) (m' : mem) (r : res (val * Z)) (o : option exn) (t : tree) (c : Z) : Prop :=
  (length m <= length m')%nat /\ (forall a, (a < length m)%nat -> ~ In a (fc ++ F) -> nth_error m' a = nth_error m a) /\
  match o with
  | None => tree_wf t /\ exists v f, r = Ok (v, c) /\ rep m' v t f /\ NoDup f /\ forall a, In a f -> In a (fc ++ F) \/ (length m <= a)%nat
  | Some e => r = Err e
  end.
Lemma merging_ok on_fail tl : Forall provides tl -> forall tc, tree_wf tc -> is_tree_dict tc = true ->
  exists n, forall fuel m l F cfg fc c, (n <= fuel)%nat -> srcs_rep m l tl F -> rep m cfg tc fc -> NoDup (fc ++ F) ->
    exists m' r, merging_loop fuel (provide fuel) m cfg c on_fail l = (m', r) /\
      merge_goal m F fc m' r (first_stop on_fail (map outcome tl)) (fold_left join (provided (map outcome tl)) tc)
        (c + Z.of_nat (length (provided (map outcome tl)))).
Proof.
  induction 1 as [|ts tl [n1 Hs] _ IH]; intros tc Wc Dc.
  - exists 0%nat. intros fuel m l F cfg fc c _ R Rc Nd. inversion R; subst. cbn [merging_loop map provided flat_map first_stop fold_left length].
    exists m, (Ok (cfg, c)). split; auto. split; auto. split; auto. split; auto. exists cfg, fc.
    rewrite Z.add_0_r. split; auto. split; auto. rewrite app_nil_r in *. split; auto.
  - (* one step of merging, then the rest *)
    assert (forall t, tree_wf t -> is_tree_dict t = true -> exists n, forall fuel m2 p fp l' g cfg fc c c',
      (n <= fuel)%nat -> rep m2 cfg tc fc -> rep m2 p t fp -> srcs_rep m2 l' tl g -> NoDup (fc ++ fp ++ g) ->
      c' = c + Z.of_nat (length (provided (map outcome tl))) ->
      exists m' r,
        (if is_dict m2 p then match merge_dicts fuel m2 cfg p with
                              | Ok (m3, cfg') => merging_loop fuel (provide fuel) m3 cfg' c on_fail l'
                              | Err e => (m2, Err e) end
         else (m2, Err AssertionError)) = (m', r) /\
        merge_goal m2 (fp ++ g) fc m' r (first_stop on_fail (map outcome tl))
          (fold_left join (provided (map outcome tl)) (join tc t)) c') as Step.
    { intros t Wt Dt. destruct (IH (join tc t) (join_wf _ _ Wc Wt)) as [n2 H2].
      { destruct tc, t; simpl in *; congruence. }
      exists (Nat.max (S (height tc)) n2). intros fuel m2 p fp l' g cfg fc c c' Hn Rc Rp Rl Nd ->.
      rewrite (is_dict_rep _ _ _ _ Rp), Dt.
      rewrite app_assoc in Nd. destruct (NoDup_app_inv _ _ Nd) as (Ncp & Ng & Dis).
      destruct (merge_ok fuel m2 cfg p tc t fc fp) as (m3 & cfg' & fc' & E & Rc' & Hi & Nc' & L3 & O3); auto; [lia|]. rewrite E.
      assert (forall a, In a g -> (a < length m2)%nat) as Bg by (apply (proj2 (src_in_mem_all m2) _ _ _ Rl)).
      destruct (H2 fuel m3 l' g cfg' fc' c) as (m' & r & E' & (L & O & G)); auto; [lia|..].
      - apply (proj2 (src_frame_all m2 m3) _ _ _ Rl). intros a Ha. apply O3. intros X. apply (Dis a X Ha).
      - apply NoDup_app_intro; auto; intros a X Y; apply (Dis a); auto.
      - exists m', r. split; auto. split; [lia|]. split.
        + intros a Ha Hin. rewrite O; [apply O3|lia|].
          * intros X. apply Hin. rewrite app_assoc. apply in_or_app. auto.
          * intros X. apply in_app_or in X. apply Hin. rewrite app_assoc. apply in_or_app. destruct X; auto.
        + destruct (first_stop on_fail (map outcome tl)); auto. destruct G as (W & v & f & -> & R & N & Hf). split; auto.
          exists v, f. split; auto. split; auto. split; auto. intros a Ha. rewrite app_assoc. destruct (Hf a Ha) as [X|X]; [|right; lia].
          left. apply in_app_or in X. apply in_or_app. destruct X; auto. }
    cbn [map first_stop provided flat_map].
    assert (forall o, outcome ts = o ->
      exists n, forall fuel m l F cfg fc c, (n <= fuel)%nat -> srcs_rep m l (ts :: tl) F -> rep m cfg tc fc -> NoDup (fc ++ F) ->
      exists m' r, merging_loop fuel (provide fuel) m cfg c on_fail l = (m', r) /\
        merge_goal m F fc m' r
         (match stops on_fail o with Some e => Some e | None => first_stop on_fail (map outcome tl) end)
         (fold_left join ((match o with Ok t => [t] | Err _ => [] end) ++ provided (map outcome tl)) tc)
         (c + Z.of_nat (length ((match o with Ok t => [t] | Err _ => [] end) ++ provided (map outcome tl))))) as G.
    2: { exact (G _ eq_refl). }
    intros o Ho.
    (* the first source, whatever it gives *)
    assert (forall fuel m s f l' g cfg fc, (n1 <= fuel)%nat -> src_rep m s ts f -> srcs_rep m l' tl g -> rep m cfg tc fc ->
      NoDup (fc ++ f ++ g) -> exists m1 r1, provide fuel m s = (m1, r1) /\ good m f m1 r1 o /\ rep m1 cfg tc fc /\ srcs_rep m1 l' tl g /\
        (forall a, In a (fc ++ f ++ g) -> (a < length m)%nat)) as First.
    { intros fuel m s f l' g cfg fc Hn Rs Rl Rc Nd. destruct (NoDup_app_inv _ _ Nd) as (Nc & Nfg & D1).
      destruct (NoDup_app_inv _ _ Nfg) as (Nf & Ng & D2).
      destruct (Hs fuel m s f Hn Rs Nf) as (m1 & r1 & E1 & G1). rewrite Ho in G1. exists m1, r1. split; auto. split; auto.
      destruct G1 as (L1 & O1 & G1). split; [|split].
      - apply (rep_frame _ _ _ _ _ Rc). intros a Ha. apply O1; [apply (rep_in_mem _ _ _ _ _ Rc Ha)|].
        intros X. apply (D1 a Ha). apply in_or_app. auto.
      - apply (proj2 (src_frame_all m m1) _ _ _ Rl). intros a Ha. apply O1; [apply (proj2 (src_in_mem_all m) _ _ _ Rl); auto|].
        intros X. apply (D2 a X Ha).
      - intros a Ha. apply in_app_or in Ha. destruct Ha as [Ha|Ha]; [apply (rep_in_mem _ _ _ _ _ Rc Ha)|].
        apply in_app_or in Ha. destruct Ha as [Ha|Ha]; [apply (proj1 (src_in_mem_all m) _ _ _ Rs); auto|apply (proj2 (src_in_mem_all m) _ _ _ Rl); auto]. }
    destruct o as [t|e].
    + cbn [stops]. destruct (is_tree_dict t) eqn:Dt.
      * (* a dictionary *)
        destruct (classic_wf t) as [Wt|Wt].
        2: { exists n1. intros fuel m l F cfg fc c Hn R Rc Nd. inversion R as [|s ? l' ? f g Rs Rl]; subst.
             destruct (First fuel m s f l' g cfg fc) as (m1 & r1 & _ & (_ & _ & (W & _)) & _); auto. contradiction. }
        destruct (Step t Wt Dt) as [n2 H2]. exists (Nat.max n1 n2).
        intros fuel m l F cfg fc c Hn R Rc Nd. inversion R as [|s ? l' ? f g Rs Rl]; subst. cbn [merging_loop].
        destruct (First fuel m s f l' g cfg fc) as (m1 & r1 & E1 & (L1 & O1 & (_ & v & fv & -> & Rv & Nv & Hv)) & Rc1 & Rl1 & B); auto; [lia|].
        rewrite E1. destruct (NoDup_app_inv _ _ Nd) as (Nc & Nfg & D1). destruct (NoDup_app_inv _ _ Nfg) as (Nf & Ng & D2).
        destruct (H2 fuel m1 v fv l' g cfg fc (c + 1) (c + Z.of_nat (length ([t] ++ provided (map outcome tl))))) as (m' & r & E & (L & O & G)); auto; [lia|..].
        -- apply NoDup_app_intro; auto.
           ++ apply NoDup_app_intro; auto. intros a X Y. destruct (Hv a X) as [Z1|Z1]; [apply (D2 a Z1 Y)|].
              assert (a < length m)%nat by (apply B; apply in_or_app; right; apply in_or_app; auto). lia.
           ++ intros a X Y. apply in_app_or in Y. destruct Y as [Y|Y].
              ** destruct (Hv a Y) as [Z1|Z1]; [apply (D1 a X); apply in_or_app; auto|].
                 assert (a < length m)%nat by (apply B; apply in_or_app; auto). lia.
              ** apply (D1 a X). apply in_or_app. auto.
        -- rewrite app_length. simpl length. lia.
        -- exists m', r. split; auto. split; [lia|]. split.
           ++ intros a Ha Hin. assert (~ In a f) as Hf by (intros X; apply Hin; apply in_or_app; right; apply in_or_app; auto).
              rewrite O; [apply O1; auto|lia|]. intros X. apply in_app_or in X. destruct X as [X|X].
              ** apply Hin. apply in_or_app. auto.
              ** apply in_app_or in X. destruct X as [X|X]; [destruct (Hv a X); [auto|lia]|]. apply Hin. apply in_or_app. right. apply in_or_app. auto.
           ++ destruct (first_stop on_fail (map outcome tl)); auto. destruct G as (W & v' & f' & -> & R' & N' & Hf'). split; auto.
              exists v', f'. split; auto. split; auto. split; auto. intros a Ha. destruct (Hf' a Ha) as [X|X]; [|right; lia].
              apply in_app_or in X. destruct X as [X|X]; [left; apply in_or_app; auto|]. apply in_app_or in X. destruct X as [X|X].
              ** destruct (Hv a X); auto. left. apply in_or_app. right. apply in_or_app. auto.
              ** left. apply in_or_app. right. apply in_or_app. auto.
      * exists n1. intros fuel m l F cfg fc c Hn R Rc Nd. inversion R as [|s ? l' ? f g Rs Rl]; subst. cbn [merging_loop].
        destruct (First fuel m s f l' g cfg fc) as (m1 & r1 & E1 & (L1 & O1 & (_ & v & fv & -> & Rv & Nv & Hv)) & Rc1 & Rl1 & B); auto.
        rewrite E1, (is_dict_rep _ _ _ _ Rv), Dt. exists m1, (Err AssertionError). split; auto. split; auto. split; auto.
        intros a Ha Hin. apply O1; auto. intros X. apply Hin. apply in_or_app. right. apply in_or_app. auto.
    + destruct (config_fails (Err e)) eqn:Ec.
      * assert (e = ConfigurationError) as -> by (destruct e; simpl in Ec; congruence || reflexivity). cbn [stops].
        destruct (on_fail =? 1) eqn:E1f.
        -- (* skipped *)
           destruct (Step (TDict [])) as [n2 H2]; [simpl; split; [constructor|auto]|reflexivity|]. exists (Nat.max n1 n2).
           intros fuel m l F cfg fc c Hn R Rc Nd. inversion R as [|s ? l' ? f g Rs Rl]; subst. cbn [merging_loop].
           destruct (First fuel m s f l' g cfg fc) as (m1 & r1 & E1 & (L1 & O1 & ->) & Rc1 & Rl1 & B); auto; [lia|].
           rewrite E1. apply Z.eqb_eq in E1f. subst on_fail. change (1 =? 0) with false. change (1 =? 1) with true. cbv iota.
           destruct (NoDup_app_inv _ _ Nd) as (Nc & Nfg & D1). destruct (NoDup_app_inv _ _ Nfg) as (Nf & Ng & D2).
           destruct (alloc_ok (TDict []) m1) as (ext & p & fp & Ea & Rp & Np & Lp). rewrite Ea.
           assert (forall a, (a < length m)%nat -> nth_error (m1 ++ ext) a = nth_error m1 a) as Fr by (intros a Ha; apply nth_error_app1; lia).
           assert (join tc (TDict []) = tc) as Ej.
           { destruct tc; simpl in Dc; try discriminate. rewrite join_dict. simpl. rewrite app_nil_r. f_equal.
             rewrite <- map_id. apply map_ext. intros [k x]. reflexivity. }
           destruct (H2 fuel (m1 ++ ext) p fp l' g cfg fc c (c + Z.of_nat (length (provided (map outcome tl))))) as (m' & r & E & (L & O & G)); auto; [lia|..].
           ++ apply (rep_frame _ _ _ _ _ Rc1). intros a Ha. apply Fr. apply B. apply in_or_app. auto.
           ++ apply (proj2 (src_frame_all _ (m1 ++ ext)) _ _ _ Rl1). intros a Ha. apply Fr. apply B. apply in_or_app. right. apply in_or_app. auto.
           ++ apply NoDup_app_intro; auto.
              ** apply NoDup_app_intro; auto. intros a X Y. specialize (Lp a X).
                 assert (a < length m)%nat by (apply B; apply in_or_app; right; apply in_or_app; auto). lia.
              ** intros a X Y. apply in_app_or in Y. destruct Y as [Y|Y]; [|apply (D1 a X); apply in_or_app; auto].
                 specialize (Lp a Y). assert (a < length m)%nat by (apply B; apply in_or_app; auto). lia.
           ++ rewrite Ej in G. exists m', r. split; auto. rewrite app_length in L. split; [lia|]. split.
              ** intros a Ha Hin. assert (~ In a f) as Hf by (intros X; apply Hin; apply in_or_app; right; apply in_or_app; auto).
                 rewrite O; [rewrite Fr by auto; apply O1; auto|rewrite app_length; lia|].
                 intros X. apply in_app_or in X. destruct X as [X|X]; [apply Hin; apply in_or_app; auto|].
                 apply in_app_or in X. destruct X as [X|X]; [specialize (Lp a X); lia|]. apply Hin. apply in_or_app. right. apply in_or_app. auto.
              ** cbn [app]. destruct (first_stop 1 (map outcome tl)); auto. destruct G as (W & v' & f' & -> & R' & N' & Hf'). split; auto.
                 exists v', f'. split; auto. split; auto. split; auto. intros a Ha. destruct (Hf' a Ha) as [X|X]; [|right; rewrite app_length in X; lia].
                 apply in_app_or in X. destruct X as [X|X]; [left; apply in_or_app; auto|]. apply in_app_or in X. destruct X as [X|X].
                 --- specialize (Lp a X). right. lia.
                 --- left. apply in_or_app. right. apply in_or_app. auto.
        -- exists n1. intros fuel m l F cfg fc c Hn R Rc Nd. inversion R as [|s ? l' ? f g Rs Rl]; subst. cbn [merging_loop].
           destruct (First fuel m s f l' g cfg fc) as (m1 & r1 & E1 & (L1 & O1 & ->) & Rc1 & Rl1 & B); auto.
           rewrite E1, E1f. exists m1, (Err ConfigurationError). split; [destruct (on_fail =? 0); auto|]. split; auto. split; auto.
           intros a Ha Hin. apply O1; auto. intros X. apply Hin. apply in_or_app. right. apply in_or_app. auto.
      * assert (stops on_fail (Err e) = Some e) as Es by (destruct e; simpl in Ec; congruence || reflexivity). rewrite Es.
        exists n1. intros fuel m l F cfg fc c Hn R Rc Nd. inversion R as [|s ? l' ? f g Rs Rl]; subst. cbn [merging_loop].
        destruct (First fuel m s f l' g cfg fc) as (m1 & r1 & E1 & (L1 & O1 & ->) & Rc1 & Rl1 & B); auto.
        rewrite E1. exists m1, (Err e). split; [destruct e; simpl in Ec; congruence || reflexivity|]. split; auto. split; auto.
        intros a Ha Hin. apply O1; auto. intros X. apply Hin. apply in_or_app. right. apply in_or_app. auto.
Qed.

Lemma good_weaken m F G m' r o : good m F m' r o -> incl F G -> good m G m' r o.
Proof.
  intros (L & O & H) Hi. split; auto. split; [intros a Ha Hn; apply O; auto|]. destruct o as [t|e]; auto.
  destruct H as (W & v & f & -> & R & N & Hf). split; auto. exists v, f. split; auto. split; auto. split; auto.
  intros a Ha. destruct (Hf a Ha); auto.
Qed.

Lemma provides_all : forall ts, provides ts.
Proof.
  induction ts as [r|t|l IH|ts IH|l on_fail flag IH|k ts IH] using source_ind'.
  - exists 0%nat. intros fuel m s F _ R Nd. inversion R; subst. simpl. destruct r as [t|e].
    + destruct (alloc_ok t m) as (ext & v & f & E & Rv & N & L). rewrite E. exists (m ++ ext), (Ok v). split; auto.
      split; [rewrite app_length; lia|]. split; [intros a Ha _; apply nth_error_app1; auto|]. split; auto. exists v, f. auto 10.
    + exists m, (Err e). repeat split; auto.
  - exists 0%nat. intros fuel m s F _ R Nd. inversion R; subst. simpl. exists m, (Ok v). split; auto. split; auto. split; auto.
    split; auto. exists v, F. auto 10.
  - destruct (alternative_ok l IH) as [n H]. exists n. intros fuel m s F Hn R Nd. inversion R; subst. simpl. apply H; auto.
  - destruct IH as [n IH]. exists n. intros fuel m s F Hn R Nd. inversion R as [| | |s' ? ? Rs| |]; subst. simpl.
    destruct (IH fuel m s' F Hn Rs Nd) as (m1 & r1 & E1 & (L1 & O1 & G1)). rewrite E1, first_of_cons.
    destruct (outcome ts) as [t|e].
    + destruct G1 as (W & v & fv & -> & Rv & Nv & Hv). rewrite (is_dict_rep _ _ _ _ Rv). simpl.
      destruct (is_tree_dict t); eexists; eexists; (split; [reflexivity|]); (split; [auto|]); (split; [auto|]); [|reflexivity].
      split; auto. exists v, fv. auto.
    + subst r1. destruct (config_fails (Err e)) eqn:Ec.
      * assert (e = ConfigurationError) as -> by (destruct e; simpl in Ec; congruence || reflexivity).
        exists (m1 ++ [CDict []]), (Ok (VRef (length m1))). split; auto. split; [rewrite app_length; lia|]. split.
        { intros a Ha Hin. rewrite nth_error_app1 by lia. auto. }
        simpl. split; [split; [constructor|auto]|]. exists (VRef (length m1)), [length m1]. split; auto. split; [|split].
        -- apply rep_dict with []; [|constructor]. rewrite nth_error_app2, Nat.sub_diag by lia. reflexivity.
        -- constructor; [auto|constructor].
        -- intros a [<-|[]]. auto.
      * exists m1, (Err e). split; [destruct e; simpl in Ec; congruence || reflexivity|]. split; auto.
  - assert (tree_wf (TDict [])) as W0 by (simpl; split; [constructor|auto]).
    destruct (merging_ok on_fail l IH (TDict []) W0 eq_refl) as [n H]. exists n. intros fuel m s F Hn R Nd.
    inversion R as [| | | |sl ? ? ? ? Rl|]; subst. cbn [provide].
    destruct (alloc_ok (TDict []) m) as (ext & cfg & fc & Ea & Rc & Nc & Lc). rewrite Ea.
    assert (forall a, In a F -> (a < length m)%nat) as BF by (apply (proj2 (src_in_mem_all m) _ _ _ Rl)).
    destruct (H fuel (m ++ ext) sl F cfg fc 0) as (m' & r & E & (L & O & G)); auto.
    { apply (proj2 (src_frame_all m (m ++ ext)) _ _ _ Rl). intros a Ha. apply nth_error_app1. auto. }
    { apply NoDup_app_intro; auto. intros a X Y. specialize (Lc a X). specialize (BF a Y). lia. }
    rewrite E. rewrite app_length in L.
    assert (forall a, (a < length m)%nat -> ~ In a F -> nth_error m' a = nth_error m a) as O'.
    { intros a Ha Hin. rewrite O; [apply nth_error_app1; auto|rewrite app_length; lia|]. intros X. apply in_app_or in X. destruct X as [X|X]; [|auto].
      specialize (Lc a X). lia. }
    assert ((match sl with [] => true | _ => false end) = (match l with [] => true | _ => false end)) as El.
    { inversion Rl; auto. }
    cbn [outcome]. unfold merged. destruct (first_stop on_fail (map outcome l)) as [e|].
    + subst r. exists m', (Err e). split; auto. split; [lia|]. split; auto.
    + destruct G as (W & v & f & -> & Rv & Nv & Hv). rewrite El. rewrite Z.add_0_l.
      set (ts := provided (map outcome l)) in *.
      replace (match ts with [] => match map outcome l with [] => Ok (fold_left join ts (TDict [])) | _ :: _ => if flag then Err ConfigurationError else Ok (TDict []) end
                        | _ :: _ => Ok (fold_left join ts (TDict [])) end)
        with (if (Z.of_nat (length ts) =? 0) && negb (match l with [] => true | _ => false end) && flag then Err ConfigurationError
              else Ok (fold_left join ts (TDict []))).
      2: { destruct ts; cbn [length]; [|reflexivity]. destruct l; simpl; [reflexivity|]. destruct flag; reflexivity. }
      assert ((match ts with [] => match map outcome l with [] => Ok (fold_left join [] (TDict [])) | _ :: _ => if flag then Err ConfigurationError else Ok (TDict []) end
                        | _ :: _ => Ok (fold_left join ts (TDict [])) end)
        = (if (Z.of_nat (length ts) =? 0) && negb (match l with [] => true | _ => false end) && flag then Err ConfigurationError
              else Ok (fold_left join ts (TDict [])))) as Eo.
      { destruct ts; cbn [length]; [|reflexivity]. destruct l; simpl; [reflexivity|]. destruct flag; reflexivity. }
      match goal with |- context [good _ _ _ _ ?o] => replace o with (if (Z.of_nat (length ts) =? 0) && negb (match l with [] => true | _ => false end) && flag then Err ConfigurationError
              else Ok (fold_left join ts (TDict []))) by (rewrite <- Eo; destruct ts; [destruct (map outcome l)|]; reflexivity) end.
      destruct ((Z.of_nat (length ts) =? 0) && negb (match l with [] => true | _ => false end) && flag).
      * exists m', (Err ConfigurationError). split; auto. split; [lia|]. split; auto.
      * exists m', (Ok v). split; auto. split; [lia|]. split; auto. split; auto. exists v, f. split; auto. split; auto. split; auto.
        intros a Ha. destruct (Hv a Ha) as [X|X]; [|right; rewrite app_length in X; lia]. apply in_app_or in X. destruct X as [X|X]; [right; auto|left; auto].
  - destruct IH as [n IH]. exists n. intros fuel m s F Hn R Nd. inversion R as [| | | | |? s' ? ? Rs]; subst. simpl.
    destruct (IH fuel m s' F Hn Rs Nd) as (m1 & r1 & E1 & (L1 & O1 & G1)). rewrite E1.
    destruct (outcome ts) as [t|e].
    + destruct G1 as (W & v & fv & -> & Rv & Nv & Hv).
      exists (m1 ++ [CDict [(k, v)]]), (Ok (VRef (length m1))). split; auto. split; [rewrite app_length; lia|]. split.
      { intros a Ha Hin. rewrite nth_error_app1 by lia. auto. }
      split; [apply wf_dict; split; [constructor; [auto|constructor]|]; intros k0 x [X|[]]; inversion X; subst; auto|].
      assert (forall a, In a fv -> (a < length m1)%nat) as B by (intros a; apply (rep_in_mem _ _ _ _ _ Rv)).
      exists (VRef (length m1)), (length m1 :: fv ++ []). split; auto. split; [|split].
      * apply rep_dict with [(k, v)]; [rewrite nth_error_app2, Nat.sub_diag by lia; reflexivity|].
        constructor; [|constructor]. apply (rep_frame _ _ _ _ _ Rv). intros a Ha. apply nth_error_app1. auto.
      * rewrite app_nil_r. constructor; auto. intros X. specialize (B _ X). lia.
      * rewrite app_nil_r. intros a [<-|Ha]; [right; lia|]. destruct (Hv a Ha); auto.
    + subst. exists m1, (Err e). split; auto. split; auto.
Qed.

(** a first call *)
Lemma provide_first m s ts F : src_rep m s ts F -> NoDup F ->
  exists n, forall fuel, (n <= fuel)%nat -> exists m' r, provide fuel m s = (m', r) /\ answers m' r (outcome ts).
Proof.
  intros R Nd. destruct (provides_all ts) as [n H]. exists n. intros fuel Hn. destruct (H fuel m s F Hn R Nd) as (m' & r & E & (_ & _ & G)).
  exists m', r. split; auto. unfold answers. destruct (outcome ts); auto. destruct G as (_ & v & f & -> & Rv & _). eauto.
Qed.

(** sources without statics rest on no objects *)
Lemma no_statics_all m :
  (forall s ts f, src_rep m s ts f -> no_statics s = true -> f = [] /\ forall m', src_rep m' s ts []) /\
  (forall l tl f, srcs_rep m l tl f -> forallb no_statics l = true -> f = [] /\ forall m', srcs_rep m' l tl []).
Proof.
  apply (src_all m (fun s ts f _ => no_statics s = true -> f = [] /\ forall m', src_rep m' s ts [])
                   (fun l tl f _ => forallb no_statics l = true -> f = [] /\ forall m', srcs_rep m' l tl [])); simpl.
  - intros r W _. split; auto. intros m'. constructor. auto.
  - discriminate.
  - intros l tl f _ IH H. destruct (IH H) as [-> H']. split; auto. intros m'. constructor. auto.
  - intros s ts f _ IH H. destruct (IH H) as [-> H']. split; auto. intros m'. constructor. auto.
  - intros l tl f o b _ IH H. destruct (IH H) as [-> H']. split; auto. intros m'. constructor. auto.
  - intros k s ts f _ IH H. destruct (IH H) as [-> H']. split; auto. intros m'. constructor. auto.
  - intros _. split; auto. intros m'. constructor.
  - intros s ts l tl f g _ IH1 _ IH2 H. apply andb_true_iff in H. destruct H as [Ha Hb].
    destruct (IH1 Ha) as [-> H1], (IH2 Hb) as [-> H2]. split; auto. intros m'. apply (ss_cons (m:=m') (H1 m') (H2 m')).
Qed.
Lemma answers_later m m' r o : answers m r o -> (forall a, (a < length m)%nat -> nth_error m' a = nth_error m a) -> answers m' r o.
Proof.
  unfold answers. destruct o as [t|e]; auto. intros (v & f & -> & R) H. exists v, f. split; auto.
  apply (rep_frame _ _ _ _ _ R). intros a Ha. apply H. apply (rep_in_mem _ _ _ _ _ R Ha).
Qed.
Lemma provide_history calls tl : (forall m, srcs_rep m calls tl []) ->
  exists n, forall fuel m, (n <= fuel)%nat ->
    let (rs, m') := provide_run fuel m calls in
    Forall2 (fun r ts => answers m' r (outcome ts)) rs tl /\ (length m <= length m')%nat /\
    forall a, (a < length m)%nat -> nth_error m' a = nth_error m a.
Proof.
  revert tl. induction calls as [|s calls IH]; intros tl H.
  - exists 0%nat. intros fuel m _. simpl. specialize (H m). inversion H; subst. split; [constructor|auto].
  - assert (exists ts tl', tl = ts :: tl' /\ (forall m, src_rep m s ts []) /\ (forall m, srcs_rep m calls tl' [])) as (ts & tl' & -> & Hs & Hl).
    { destruct tl as [|ts tl']; [specialize (H []); inversion H|]. exists ts, tl'. split; auto.
      split; intros m; specialize (H m); inversion H as [|? ? ? ? f g Rs Rl E1 E2 E3]; apply app_eq_nil in E3; destruct E3; subst; auto. }
    destruct (provides_all ts) as [n1 H1]. destruct (IH tl' Hl) as [n2 H2]. exists (Nat.max n1 n2). intros fuel m Hn. cbn [provide_run].
    destruct (H1 fuel m s []) as (m1 & r & E & (L & O & G)); auto; [lia|constructor|]. rewrite E.
    specialize (H2 fuel m1). destruct (provide_run fuel m1 calls) as [rs m2]. destruct H2 as (F2 & L2 & O2); [lia|].
    split; [|split; [lia|]].
    + constructor; auto. apply answers_later with m1; auto. unfold answers. destruct (outcome ts); auto.
      destruct G as (_ & v & f & -> & Rv & _). eauto.
    + intros a Ha. rewrite O2 by lia. apply O; auto.
Qed.

Lemma join_is_dict t1 t2 : is_tree_dict t1 = true -> is_tree_dict t2 = true -> is_tree_dict (join t1 t2) = true.
Proof. destruct t1, t2; simpl; congruence. Qed.
Lemma fold_keeps ts : forall t path x, is_tree_dict t = true -> Forall (fun t => is_tree_dict t = true) ts ->
  (forall t', In t' ts -> says_nothing_of t' path) -> at_path t path = Some x -> at_path (fold_left join ts t) path = Some x.
Proof.
  induction ts as [|t' ts IH]; intros t path x Hd Hf Hn H; simpl; auto. inversion Hf; subst. apply IH; auto.
  - apply join_is_dict; auto.
  - intros t2 Ht2. apply Hn. right. auto.
  - destruct t as [|d|]; try discriminate. apply join_path_keeps; auto. apply Hn. left. auto.
Qed.
Lemma fold_dict ts : forall t, is_tree_dict t = true -> Forall (fun t => is_tree_dict t = true) ts -> is_tree_dict (fold_left join ts t) = true.
Proof. induction ts as [|t' ts IH]; intros t Ht Hf; simpl; auto. inversion Hf; subst. apply IH; auto. apply join_is_dict; auto. Qed.
Lemma last_leaf_wins before t after path z :
  Forall (fun t => is_tree_dict t = true) (before ++ t :: after) ->
  at_path t path = Some (TLeaf z) -> (forall t', In t' after -> says_nothing_of t' path) ->
  at_path (fold_left join (before ++ t :: after) (TDict [])) path = Some (TLeaf z).
Proof.
  intros Hf Ht Hn. rewrite fold_left_app. simpl. apply Forall_app in Hf. destruct Hf as [F1 F2]. inversion F2; subst.
  apply fold_keeps; auto.
  - apply join_is_dict; auto. apply fold_dict; auto.
  - apply join_path_override; auto; discriminate.
Qed.
Lemma optional_never fuel m s m' : provide fuel m (SOptional s) <> (m', Err ConfigurationError).
Proof.
  cbn [provide]. destruct (provide fuel m s) as [m1 [v|e]].
  - destruct (is_dict m1 v); intros H; inversion H.
  - destruct e; simpl; intros H; inversion H.
Qed.
