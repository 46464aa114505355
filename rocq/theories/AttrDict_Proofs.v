(** Proofs about AttrDict_Model. *)
From Coq Require Import String.
From Verif Require Import Prelude PreludeFacts MoreFacts AttrDict_Model AttrDict_Spec.
Local Open Scope list_scope.

Lemma key_ok : eqb_ok key_eqb.
Proof.
  intros [s|z] [s'|z']; simpl; try (split; discriminate).
  - rewrite String.eqb_eq. split; congruence.
  - rewrite Z.eqb_eq. split; congruence.
Qed.

(** ** one DictObject *)
Section Session.
  Variable in_class : string -> bool.
  Definition tracks (e : dict key val) (past : list op) : Prop := dwf e /\ forall k, dget key_eqb e k = held past k.
  Lemma get_set (e : dict key val) k v x : dget key_eqb (dset key_eqb e k v) x = if key_eqb k x then Some v else dget key_eqb e x.
  Proof.
    destruct (key_eqb k x) eqn:E; [apply key_ok in E; subst; apply (dget_dset_eq key_ok)|]. apply (dget_dset_neq key_ok). intros X. rewrite (proj2 (key_ok k x)) in E; [discriminate|auto].
  Qed.
  Lemma get_del (e : dict key val) k x : dwf e -> dget key_eqb (ddel key_eqb e k) x = if key_eqb k x then None else dget key_eqb e x.
  Proof.
    intros W. destruct (key_eqb k x) eqn:E; [apply key_ok in E; subst; apply (dget_ddel_eq key_ok); auto|]. apply (dget_ddel_neq key_ok). intros X. rewrite (proj2 (key_ok k x)) in E; [discriminate|auto].
  Qed.
  Lemma get_skip (e : dict key val) k x (R : dmem key_eqb e k = false) : (if key_eqb k x then None else dget key_eqb e x) = dget key_eqb e x.
  Proof. destruct (key_eqb k x) eqn:E; auto. apply key_ok in E. subst. unfold dmem in R. destruct (dget key_eqb e x); [discriminate|auto]. Qed.
  Lemma step_ok e past o : tracks e past -> tracks (fst (step in_class e o)) (o :: past) /\
    match o with GetAttr s => in_class s = true -> snd (step in_class e o) = ClassAttribute | _ => True end /\
    ((forall s, o = GetAttr s -> in_class s = false) -> answer past o (snd (step in_class e o))).
  Proof.
    intros [W H]. destruct o as [k|k v|k|k| |s|s v|s]; simpl.
    - split; [split; auto|]. split; auto. intros _. rewrite H. auto.
    - split; [split; [apply (dset_wf key_ok); auto|]|auto]. intros x. rewrite get_set, H. auto.
    - destruct (dmem key_eqb e k) eqn:M; simpl.
      + split; [split; [apply (@ddel_wf _ _ key_eqb); auto|intros x; rewrite get_del, H by auto; auto]|]. split; auto. intros _. unfold dmem in M. rewrite H in M. destruct (held past k); [auto|discriminate].
      + split; [split; auto; intros x; simpl; rewrite <- (H x), get_skip; auto|]. split; auto. intros _. unfold dmem in M. rewrite H in M. destruct (held past k); [discriminate|auto].
    - split; [split; auto|]. split; auto. intros _. unfold dmem. rewrite H. destruct (held past k); auto.
    - split; [split; auto|]. split; auto. intros _. exists (dkeys e). split; auto. split; [|unfold dkeys; rewrite map_length; auto].
      intros k. rewrite <- H. destruct (dget key_eqb e k) as [v|] eqn:D.
      + split; [discriminate|]. intros _. apply (dget_In key_ok) in D. apply (in_map fst) in D. auto.
      + apply (dget_None key_ok) in D. split; [intros I; tauto|congruence].
    - split; [split; auto|]. split; [intros ->; auto|]. intros C. rewrite (C s eq_refl), H. auto.
    - split; [split; [apply (dset_wf key_ok); auto|]|auto]. intros x. rewrite get_set, H. auto.
    - destruct (dmem key_eqb e (Name s)) eqn:M; simpl.
      + split; [split; [apply (@ddel_wf _ _ key_eqb); auto|intros x; rewrite get_del, H by auto; auto]|]. split; auto. intros _. unfold dmem in M. rewrite H in M. destruct (held past (Name s)); [auto|discriminate].
      + split; [split; auto; intros x; change (dget key_eqb e x = if key_eqb (Name s) x then None else held past x); rewrite <- (H x), get_skip; auto|]. split; auto. intros _. unfold dmem in M. rewrite H in M. destruct (held past (Name s)); [discriminate|auto].
  Qed.
  Lemma steps_ok ops : forall e past n o x, tracks e past -> nth_error ops n = Some o -> nth_error (snd (steps in_class e ops)) n = Some x ->
    match o with GetAttr s => in_class s = true -> x = ClassAttribute | _ => True end /\
    ((forall s, o = GetAttr s -> in_class s = false) -> answer (rev (firstn n ops) ++ past) o x).
  Proof.
    induction ops as [|a r IH]; intros e past n o x T N X; [destruct n; discriminate|]. simpl in X. pose proof (step_ok e past a T) as (T' & A1 & A2).
    destruct (step in_class e a) as [e1 y]. pose proof (IH e1 (a :: past)) as IH'. destruct (steps in_class e1 r) as [e2 l]. simpl in *. destruct n as [|n]; simpl in *.
    - inversion N; inversion X; subst. auto.
    - rewrite <- app_assoc. simpl. apply IH'; auto.
  Qed.
  Lemma steps_length ops : forall e, List.length (snd (steps in_class e ops)) = List.length ops.
  Proof. induction ops as [|a r IH]; intros e; auto. simpl. destruct (step in_class e a) as [e1 y]. specialize (IH e1). destruct (steps in_class e1 r). simpl in *. auto. Qed.
End Session.

Lemma overlay_ok kwargs : forall (e : dict key val) k, dget key_eqb (fold_left (fun e kv => dset key_eqb e (Name (fst kv)) (snd kv)) kwargs e) k = overlaid e kwargs k.
Proof.
  induction kwargs as [|[s v] r IH] using rev_ind; intros e k; auto. unfold overlaid in *. rewrite fold_left_app, rev_app_distr. cbn [fold_left rev app find fst snd].
  rewrite get_set. destruct (key_eqb (Name s) k); auto.
Qed.

(** ** deep copies *)
Section Deep.
  Variable h0 : heap.
  Hypothesis C : closed h0.
  Definition to (m : dict nat nat) (p : nat) : nat := match dget Nat.eqb m p with Some q => q | None => 0 end.
  Definition known (m : dict nat nat) (v : val) : Prop := match v with At _ => True | Ref p => dget Nat.eqb m p <> None end.
  Definition more (m m' : dict nat nat) : Prop := forall p q, dget Nat.eqb m p = Some q -> dget Nat.eqb m' p = Some q.
  Definition inv (s : heap * dict nat nat) : Prop :=
    (exists ext, fst s = h0 ++ ext) /\
    (forall p q, dget Nat.eqb (snd s) p = Some q -> List.length h0 <= q < List.length (fst s) /\ exists o, nth_error h0 p = Some o /\
       nth_error (fst s) q = Some (moved_obj (to (snd s)) o) /\ forall v, In v (inside o) -> known (snd s) v) /\
    (forall p p' q, dget Nat.eqb (snd s) p = Some q -> dget Nat.eqb (snd s) p' = Some q -> p = p').
  Lemma moved_more m m' v : more m m' -> known m v -> moved (to m') v = moved (to m) v.
  Proof. intros M. destruct v as [z|p]; simpl; auto. unfold to. intros K. destruct (dget Nat.eqb m p) as [q|] eqn:E; [|tauto]. rewrite (M _ _ E). auto. Qed.
  Lemma moved_obj_more m m' o : more m m' -> (forall v, In v (inside o) -> known m v) -> moved_obj (to m') o = moved_obj (to m) o.
  Proof.
    intros M K. destruct o as [w e|l]; simpl in *; f_equal; apply map_ext_in.
    - intros kv I. f_equal. apply moved_more; auto. apply K. apply in_map. auto.
    - intros v I. apply moved_more; auto.
  Qed.
  Lemma known_more m m' v : more m m' -> known m v -> known m' v.
  Proof. intros M. destruct v as [z|p]; simpl; auto. destruct (dget Nat.eqb m p) as [q|] eqn:E; [|tauto]. rewrite (M _ _ E). discriminate. Qed.
  Lemma more_trans a b c : more a b -> more b c -> more a c.
  Proof. unfold more. auto. Qed.
  Definition result (s s' : heap * dict nat nat) : Prop := inv s' /\ more (snd s) (snd s') /\ exists ext, fst s' = fst s ++ ext.
  (* what is known now was known, or was reached *)
  Definition newly (s s' : heap * dict nat nat) (l : list val) : Prop :=
    forall x, dget Nat.eqb (snd s') x <> None -> dget Nat.eqb (snd s) x <> None \/ exists v, In v l /\ reach h0 v x.
  Definition copies (fuel n : nat) : Prop := forall s v, inv s -> leads h0 v -> depth n h0 v -> exists s' v', deep fuel s v = Ok (s', v') /\
    result s s' /\ v' = moved (to (snd s')) v /\ known (snd s') v /\ newly s s' [v].
  Lemma each_ok fuel n (IH : copies fuel n) : forall l s, inv s -> (forall v, In v l -> leads h0 v /\ depth n h0 v) -> exists s' l', each (deep fuel) s l = Ok (s', l') /\
      result s s' /\ l' = map (moved (to (snd s'))) l /\ (forall v, In v l -> known (snd s') v) /\ newly s s' l.
  Proof.
    induction l as [|v r IHl]; intros s I L.
    - exists s, []. split; auto. split; [|split; auto; split; [intros v []|intros x; auto]]. split; auto. split; [intros p q; auto|]. exists []. rewrite app_nil_r. auto.
    - destruct (L v (or_introl eq_refl)) as (L1 & L2). destruct (IH s v I L1 L2) as (s1 & v1 & E1 & (I1 & M1 & x1 & X1) & V1 & K1 & N1).
      destruct (IHl s1 I1 (fun v Iv => L v (or_intror Iv))) as (s2 & l2 & E2 & (I2 & M2 & x2 & X2) & V2 & K2 & N2).
      exists s2, (v1 :: l2). simpl. rewrite E1, E2. split; auto.
      split; [split; auto; split; [eapply more_trans; eauto|]; exists (x1 ++ x2); rewrite X2, X1, app_assoc; auto|]. split; [|split].
      + rewrite V1, V2. f_equal. symmetry. apply moved_more; auto.
      + intros x [<-|Ix]; auto. eapply known_more; eauto.
      + intros x X. destruct (N2 x X) as [Y|(y & Y1 & Y2)]; [|right; exists y; simpl; auto]. destruct (N1 x Y) as [Z|(y & [<-|[]] & Z)]; [auto|]. right. exists v. simpl. auto.
  Qed.
  Lemma combine_moved (e : dict key val) (f : val -> val) : combine (map fst e) (map f (map snd e)) = map (fun kv => (fst kv, f (snd kv))) e.
  Proof. induction e as [|[k v] e IH]; simpl; auto. rewrite IH. auto. Qed.
  (* the object [o] at [p] was not known, what is in it is now *)
  Lemma record h m p o : inv (h, m) -> nth_error h0 p = Some o -> dget Nat.eqb m p = None -> (forall v, In v (inside o) -> known m v) ->
    let m' := dset Nat.eqb m p (List.length h) in result (h, m) (h ++ [moved_obj (to m) o], m') /\ Ref (List.length h) = moved (to m') (Ref p) /\ known m' (Ref p).
  Proof.
    intros (I1 & I2 & I3) N D K m'. assert (M : more m m').
    { intros x q X. unfold m'. rewrite (dget_dset_neq nateqb_ok); auto. intros ->. congruence. }
    destruct I1 as (ext & I1). simpl in *. assert (Ep : dget Nat.eqb m' p = Some (List.length h)) by apply (dget_dset_eq nateqb_ok).
    split; [split; [split; [|split]|split; [auto|exists [moved_obj (to m) o]; auto]]|split; [simpl; unfold to; rewrite Ep; auto|simpl; rewrite Ep; discriminate]]; simpl.
    - exists (ext ++ [moved_obj (to m) o]). rewrite I1, app_assoc. auto.
    - intros x q X. destruct (Nat.eq_dec p x) as [<-|Nx].
      + rewrite Ep in X. inversion X; subst q. rewrite app_length. simpl. split; [rewrite I1, app_length; lia|]. exists o. split; auto. split.
        * rewrite nth_error_app2, Nat.sub_diag by auto. simpl. rewrite (moved_obj_more m m'); auto.
        * intros v Iv. eapply known_more; eauto.
      + unfold m' in X. rewrite (dget_dset_neq nateqb_ok) in X by auto. destruct (I2 _ _ X) as (Q & o' & O1 & O2 & O3). rewrite app_length. split; [lia|]. exists o'. split; auto. split.
        * rewrite nth_error_app1 by lia. rewrite O2. f_equal. symmetry. apply moved_obj_more; auto.
        * intros v Iv. eapply known_more; eauto.
    - intros x x' q X X'. unfold m' in *. destruct (Nat.eq_dec p x) as [<-|Nx], (Nat.eq_dec p x') as [<-|Nx']; auto.
      + rewrite (dget_dset_neq nateqb_ok) in X' by auto. rewrite Ep in X. inversion X; subst. destruct (I2 _ _ X') as (Q & _). lia.
      + rewrite (dget_dset_neq nateqb_ok) in X by auto. rewrite Ep in X'. inversion X'; subst. destruct (I2 _ _ X) as (Q & _). lia.
      + rewrite (dget_dset_neq nateqb_ok) in X, X' by auto. eauto.
  Qed.
  Lemma reach_depth v q : reach h0 v q -> forall n, depth n h0 v -> exists m, m <= n /\ depth m h0 (Ref q).
  Proof.
    intros R. induction R as [p|p o v q N I R IH]; intros n D; [exists n; auto|]. destruct n as [|n]; [destruct D|]. simpl in D. destruct (IH n (D o v N I)) as (m & L & M). exists m. auto.
  Qed.
  Lemma no_loop n : forall p o v, depth n h0 (Ref p) -> nth_error h0 p = Some o -> In v (inside o) -> reach h0 v p -> False.
  Proof.
    induction n as [n IH] using lt_wf_ind. intros p o v D N I R. destruct n as [|n]; [destruct D|]. simpl in D. destruct (reach_depth _ _ R n (D o v N I)) as (m & L & M). apply (IH m) with (p := p) (o := o) (v := v); auto. lia.
  Qed.
  Lemma deep_ok n : forall fuel, n < fuel -> copies fuel n.
  Proof.
    induction n as [|n IH]; intros fuel F [h m] v I L D; (destruct fuel as [|fuel]; [lia|]); destruct v as [z|p]; try destruct D;
      try (exists (h, m), (At z); simpl; split; auto; split; [split; auto; split; [intros p q; auto|exists []; rewrite app_nil_r; auto]|split; auto; split; auto; intros x; auto]; fail).
    simpl. destruct (dget Nat.eqb m p) as [q|] eqn:G.
    - exists (h, m), (Ref q). simpl. split; auto. unfold to. rewrite G. split; [split; auto; split; [intros p' q'; auto|exists []; rewrite app_nil_r; auto]|split; auto; split; [discriminate|intros x; auto]].
    - simpl in L. destruct (nth_error h0 p) as [o|] eqn:N; [|apply nth_error_None in N; lia].
      assert (Nh : nth_error h p = Some o). { destruct I as ((ext & I) & _). simpl in I. rewrite I, nth_error_app1; auto. }
      rewrite Nh. assert (F' : n < fuel) by lia.
      destruct (each_ok fuel n (IH fuel F') (inside o) (h, m) I) as ([h1 m1] & l1 & E & (I1 & M1 & x1 & X1) & V1 & K1 & N1).
      { intros v Iv. split; [apply (C p o v); auto|]. apply (D o v); auto. }
      simpl in *. assert (D1 : dget Nat.eqb m1 p = None).
      { destruct (dget Nat.eqb m1 p) eqn:X; auto. exfalso. destruct (N1 p) as [Y|(v & Y1 & Y2)]; [simpl; congruence|simpl in Y; congruence|].
        apply (no_loop (S n) p o v); auto. }
      destruct (record h1 m1 p o I1 N D1 K1) as ((R1 & R2 & x2 & R3) & R4 & R5).
      exists (h1 ++ [moved_obj (to m1) o], dset Nat.eqb m1 p (List.length h1)), (Ref (List.length h1)). split.
      { destruct o as [w e|l]; simpl in E; rewrite E, V1; simpl; [rewrite combine_moved|]; auto. }
      split; [split; auto; split; [eapply more_trans; eauto|]; exists (x1 ++ [moved_obj (to m1) o]); simpl; rewrite X1, app_assoc; auto|].
      split; auto. split; auto. intros x X. simpl in X. destruct (Nat.eq_dec p x) as [<-|Nx]; [right; exists (Ref p); simpl; split; auto; constructor|].
      rewrite (dget_dset_neq nateqb_ok) in X by auto. destruct (N1 x X) as [Y|(v & Y1 & Y2)]; [auto|]. right. exists (Ref p). simpl. split; auto. apply reach_on with (o := o) (v := v); auto.
  Qed.
  Lemma reach_known s v p : inv s -> known (snd s) v -> reach h0 v p -> dget Nat.eqb (snd s) p <> None.
  Proof.
    intros (_ & I & _) K R. induction R as [p|p o v q N Iv R IH]; auto. apply IH. simpl in K. destruct (dget Nat.eqb (snd s) p) as [q'|] eqn:G; [|tauto].
    destruct (I _ _ G) as (_ & o' & O1 & _ & O3). rewrite N in O1. inversion O1; subst. auto.
  Qed.
  Lemma deep_spec n v fuel : leads h0 v -> depth n h0 v -> n < fuel -> exists h' m v' f, deep fuel (h0, []) v = Ok ((h', m), v') /\ (exists ext, h' = h0 ++ ext) /\ v' = moved f v /\
    (forall p, reach h0 v p -> exists o, nth_error h0 p = Some o /\ List.length h0 <= f p /\ nth_error h' (f p) = Some (moved_obj f o)) /\
    (forall p q, reach h0 v p -> reach h0 v q -> f p = f q -> p = q).
  Proof.
    intros L D F. assert (I0 : inv (h0, [])) by (split; [exists []; simpl; rewrite app_nil_r; auto|split; simpl; discriminate]).
    destruct (deep_ok n fuel F (h0, []) v I0 L D) as ([h' m] & v' & E & (I & _ & ext & X) & V & K & _). exists h', m, v', (to m). simpl in *. split; auto. split; [exists ext; auto|]. split; auto.
    assert (Kn : forall p, reach h0 v p -> exists q, dget Nat.eqb m p = Some q /\ to m p = q).
    { intros p R. pose proof (reach_known (h', m) v p I K R) as Z. simpl in Z. destruct (dget Nat.eqb m p) as [q|] eqn:G; [|tauto]. exists q. unfold to. rewrite G. auto. }
    destruct I as (_ & I2 & I3). simpl in *. split.
    - intros p R. destruct (Kn p R) as (q & Q1 & Q2). destruct (I2 _ _ Q1) as (A & o & B1 & B2 & _). exists o. rewrite Q2. repeat split; auto. lia.
    - intros p q R R' Q. destruct (Kn p R) as (x & X1 & X2). destruct (Kn q R') as (y & Y1 & Y2). apply (I3 p q x); auto. congruence.
  Qed.
End Deep.

(** ** apply_dict_object *)
Section Apply.
  Variable P : tree -> Prop.
  Hypothesis H1 : forall z, P (TAt z).
  Hypothesis H2 : forall l, (forall t, In t l -> P t) -> P (TList l).
  Hypothesis H3 : forall w e, (forall kt, In kt e -> P (snd kt)) -> P (TDict w e).
  Fixpoint tree_all (t : tree) : P t.
  Proof.
    destruct t as [z|l|w e]; [apply H1|apply H2|apply H3].
    - induction l as [|t l IH]; [intros x []|]. intros x [<-|I]; [apply tree_all|apply IH; auto].
    - induction e as [|[k t] e IH]; [intros x []|]. intros x [<-|I]; [apply tree_all|apply IH; auto].
  Defined.
End Apply.
Lemma list_trees h ts : forall l, (fix all ts l := match ts, l with [], [] => True | t :: ts, x :: l => is_tree h t x /\ all ts l | _, _ => False end) ts l <-> Forall2 (is_tree h) ts l.
Proof.
  induction ts as [|t ts IH]; intros [|x l]; split; intros X; try tauto; try (inversion X; fail); try constructor; try (inversion X; subst); try tauto; try (apply IH; tauto).
Qed.
Definition entry (h : heap) (kt : key * tree) (kx : key * val) : Prop := fst kt = fst kx /\ is_tree h (snd kt) (snd kx).
Lemma dict_trees h ts : forall e, (fix all (ts : list (key * tree)) (e : dict key val) :=
         match ts, e with [], [] => True | (k, t) :: ts, (k', x) :: e => k = k' /\ is_tree h t x /\ all ts e | _, _ => False end) ts e <-> Forall2 (entry h) ts e.
Proof.
  induction ts as [|[k t] ts IH]; intros [|[k' x] e]; split; intros X; try tauto; try (inversion X; fail); try constructor.
  - unfold entry. simpl. tauto.
  - apply IH. tauto.
  - inversion X as [|? ? ? ? [A B] C]; subst. auto.
  - inversion X as [|? ? ? ? [A B] C]; subst. simpl in *. split; auto. apply IH. auto.
Qed.
Lemma is_tree_more h ext t : forall v, is_tree h t v -> is_tree (h ++ ext) t v.
Proof.
  induction t as [z|l IH|w e IH] using tree_all; simpl; auto.
  - intros v (p & l' & V & N & A). exists p, l'. split; auto. split; [rewrite nth_error_app1; auto; apply nth_error_Some; congruence|].
    apply list_trees in A. apply list_trees. clear V N. induction A as [|t x ts l' T A IHA]; constructor; [apply IH; simpl; auto|]. apply IHA. intros y Iy. apply IH. simpl. auto.
  - intros v (p & e' & V & N & A). exists p, e'. split; auto. split; [rewrite nth_error_app1; auto; apply nth_error_Some; congruence|].
    apply dict_trees in A. apply dict_trees. clear V N. induction A as [|t x ts l' [T1 T2] A IHA]; constructor; [split; auto; apply IH; simpl; auto|]. apply IHA. intros y Iy. apply IH. simpl. auto.
Qed.
Lemma trees_more h ext ts l : Forall2 (is_tree h) ts l -> Forall2 (is_tree (h ++ ext)) ts l.
Proof. intros F. induction F; constructor; auto. apply is_tree_more. auto. Qed.
Lemma objects_list l : (fix all l := match l with [] => True | t :: r => objects t /\ all r end) l <-> Forall objects l.
Proof. induction l as [|t l IH]; split; intros X; auto; [constructor; tauto|]. inversion X; subst. tauto. Qed.
Lemma objects_dict e : (fix all (e : list (key * tree)) := match e with [] => True | (_, t) :: r => objects t /\ all r end) e <-> Forall (fun kt => objects (snd kt)) e.
Proof. induction e as [|[k t] l IH]; split; intros X; auto; [constructor; simpl; tauto|]. inversion X; subst. simpl in *. tauto. Qed.
Lemma done_list l : (fix all l := match l with [] => True | t :: r => objects_done t /\ all r end) l <-> Forall objects_done l.
Proof. induction l as [|t l IH]; split; intros X; auto; [constructor; tauto|]. inversion X; subst. tauto. Qed.
Lemma done_dict e : (fix all (e : list (key * tree)) := match e with [] => True | (_, t) :: r => objects_done t /\ all r end) e <-> Forall (fun kt => objects_done (snd kt)) e.
Proof. induction e as [|[k t] l IH]; split; intros X; auto; [constructor; simpl; tauto|]. inversion X; subst. simpl in *. tauto. Qed.
Definition made (fuel : nat) (h : heap) (t : tree) (v : val) : Prop := exists h' v' t', applied fuel h v = Ok (h', v') /\ (exists ext, h' = h ++ ext) /\ is_tree h' t' v' /\
  plain t' = plain t /\ (objects_done t -> objects t').
Lemma applied_list fuel (ts : list tree) : forall h l, (forall t h v, In t ts -> is_tree h t v -> made fuel h t v) -> Forall2 (is_tree h) ts l ->
  exists h' l' ts', each (applied fuel) h l = Ok (h', l') /\ (exists ext, h' = h ++ ext) /\ Forall2 (is_tree h') ts' l' /\ map plain ts' = map plain ts /\ (Forall objects_done ts -> Forall objects ts').
Proof.
  induction ts as [|t ts IH]; intros h l M F; inversion F as [|? x ? r T F']; subst.
  - exists h, [], []. simpl. split; auto. split; [exists []; rewrite app_nil_r; auto|]. auto.
  - destruct (M t h x (or_introl eq_refl) T) as (h1 & v1 & t1 & E1 & (x1 & X1) & T1 & P1 & O1).
    destruct (IH h1 r) as (h2 & l2 & ts2 & E2 & (x2 & X2) & T2 & P2 & O2).
    + intros; apply M; simpl; auto.
    + subst h1. apply trees_more. auto.
    + exists h2, (v1 :: l2), (t1 :: ts2). simpl. rewrite E1, E2. split; auto. split; [exists (x1 ++ x2); subst; rewrite app_assoc; auto|]. split; [constructor; auto; subst h2; apply is_tree_more; auto|].
      split; [congruence|]. intros D. inversion D; subst. constructor; auto.
Qed.
Lemma entries_values h ts e : Forall2 (entry h) ts e <-> map fst ts = map fst e /\ Forall2 (is_tree h) (map snd ts) (map snd e).
Proof.
  split.
  - intros F. induction F as [|a b ts e [A B] F [IH1 IH2]]; simpl; auto. split; [congruence|]. constructor; auto.
  - intros [A B]. revert e A B. induction ts as [|[k t] ts IH]; intros [|[k' x] e] A B; try discriminate; constructor; simpl in *; inversion A; inversion B; subst; auto. split; auto.
Qed.
Lemma combine_split {A B} (a : list A) : forall (b : list B), List.length a = List.length b -> map fst (combine a b) = a /\ map snd (combine a b) = b.
Proof. induction a as [|x a IH]; intros [|y b] L; simpl in *; try discriminate; auto. destruct (IH b) as [P Q]; [lia|]. rewrite P, Q. auto. Qed.
Lemma F2_length {A B} (R : A -> B -> Prop) a b : Forall2 R a b -> List.length a = List.length b.
Proof. intros F. induction F; simpl; auto. Qed.
Lemma height_in (l : list nat) n : In n l -> n <= list_max l.
Proof. intros I. pose proof (proj1 (list_max_le l (list_max l)) (le_n _)) as F. rewrite Forall_forall in F. auto. Qed.
Lemma objects_of_done w e : objects_done (TDict w e) -> w = true -> objects (TDict w e).
Proof. intros D ->. exact D. Qed.
Lemma applied_ok t : forall fuel h v, is_tree h t v -> height t < fuel -> made fuel h t v.
Proof.
  induction t as [z|l IH|w e IH] using tree_all; intros fuel h v T F; (destruct fuel as [|fuel]; [lia|]).
  - simpl in T. subst v. exists h, (At z), (TAt z). simpl. split; auto. split; [exists []; rewrite app_nil_r; auto|]. auto.
  - simpl in T, F. destruct T as (p & l' & -> & N & A). apply list_trees in A.
    destruct (applied_list fuel l h l') as (h1 & l1 & ts1 & E & (ext & X) & T1 & P1 & O1); auto.
    { intros t h' v I T'. apply IH; auto. pose proof (height_in (map height l) (height t) (in_map height _ _ I)). lia. }
    exists (h1 ++ [OList l1]), (Ref (List.length h1)), (TList ts1). simpl. rewrite N, E. split; auto. split; [exists (ext ++ [OList l1]); subst; rewrite app_assoc; auto|]. split; [|split].
    + exists (List.length h1), l1. split; auto. split; [rewrite nth_error_app2, Nat.sub_diag by auto; auto|]. apply list_trees. apply trees_more. auto.
    + rewrite P1. auto.
    + intros D. apply objects_list. apply O1. apply done_list. auto.
  - destruct w.
    + pose proof T as T0. simpl in T. destruct T as (p & e' & -> & N & A). exists h, (Ref p), (TDict true e). simpl. rewrite N. split; auto. split; [exists []; rewrite app_nil_r; auto|]. split; [exists p, e'; auto|]. split; auto.
    + simpl in T, F. destruct T as (p & e' & -> & N & A). apply dict_trees in A. apply entries_values in A. destruct A as [A1 A2].
      destruct (applied_list fuel (map snd e) h (map snd e')) as (h1 & l1 & ts1 & E & (ext & X) & T1 & P1 & O1); auto.
      { intros t h' v I T'. apply in_map_iff in I. destruct I as (kt & <- & I). apply IH; auto. pose proof (height_in _ _ (in_map (fun kt => height (snd kt)) _ _ I)) as Q. simpl in Q. lia. }
      pose proof (F2_length _ _ _ A2) as L2. pose proof (F2_length _ _ _ T1) as L1. assert (Lp : List.length ts1 = List.length e).
      { pose proof (f_equal (@List.length tree) P1) as Q. rewrite !map_length in Q. auto. } rewrite !map_length in L2.
      destruct (combine_split (map fst e) ts1) as [S1 S2]; [rewrite map_length; auto|].
      destruct (combine_split (map fst e') l1) as [S3 S4]; [rewrite map_length; lia|].
      exists (h1 ++ [ODict true (combine (map fst e') l1)]), (Ref (List.length h1)), (TDict true (combine (map fst e) ts1)).
      cbn [applied]. rewrite N, E. split; auto. split; [exists (ext ++ [ODict true (combine (map fst e') l1)]); subst; rewrite app_assoc; auto|]. split; [|split].
      * simpl. exists (List.length h1), (combine (map fst e') l1). split; auto. split; [rewrite nth_error_app2, Nat.sub_diag by auto; auto|]. apply dict_trees. apply entries_values.
        rewrite S1, S2, S3, S4. split; auto. apply trees_more. auto.
      * simpl. f_equal. clear - P1. revert ts1 P1. induction e as [|[k t] e IHe]; intros [|t1 ts1] P1; try discriminate; auto. simpl in *. inversion P1. f_equal; auto.
      * intros D. simpl. split; auto. apply objects_dict. assert (Q : Forall objects ts1).
        { apply O1. simpl in D. apply done_dict in D. apply Forall_map. auto. }
        rewrite <- S2 in Q. rewrite Forall_map in Q. auto.
Qed.
