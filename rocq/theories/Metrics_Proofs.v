(** Proofs about the metrics. *)
From Coq Require Import String QArith Sorted.
From Verif Require Import Prelude PreludeFacts MoreFacts PySeq_Model Transforms_Model SortedList_Proofs Metrics_Model Metrics_Spec.
Import ListNotations.
Open Scope list_scope.
Open Scope Z_scope.

Lemma extra_eqb_ok : eqb_ok extra_eqb.
Proof.
  intros a b. split.
  - destruct a, b; simpl; try discriminate; intros H; auto.
    + apply andb_true_iff in H. destruct H as [H1 H2]. apply Z.eqb_eq in H1. destruct upper, upper0; simpl in H2; try discriminate; [apply Z.eqb_eq in H2|]; subst; auto.
    + apply andb_true_iff in H. destruct H as [H1 H2]. apply Z.eqb_eq in H1. apply Pos.eqb_eq in H2. destruct q, q0; simpl in *; subst; auto.
    + apply Z.eqb_eq in H. subst; auto.
    + apply Z.eqb_eq in H. subst; auto.
  - intros <-. destruct a; simpl; auto; rewrite ?Z.eqb_refl, ?Pos.eqb_refl; auto. destruct upper; simpl; rewrite ?Z.eqb_refl; auto.
Qed.

Section MP.
Variable Lab : Type.
Variable leqb : Lab -> Lab -> bool.
Hypothesis lok : eqb_ok leqb.

Notation keqb := (mkey_eqb leqb).
Lemma keqb_ok : eqb_ok keqb.
Proof.
  intros [[s l] e] [[s' l'] e']. unfold mkey_eqb. simpl. split.
  - intros H. apply andb_true_iff in H. destruct H as [H H3]. apply andb_true_iff in H. destruct H as [H1 H2].
    apply String.eqb_eq in H1. apply lok in H2. apply extra_eqb_ok in H3. subst. auto.
  - intros H. inversion H; subst. rewrite String.eqb_refl, (proj2 (lok l' l') eq_refl), (proj2 (extra_eqb_ok e' e') eq_refl). auto.
Qed.

Section Coll.
Variable V : Type.
Notation get := (dget keqb (V:=V)).
Lemma dget_filter_neq (c : coll Lab V) k k' : get (filter (fun e => negb (keqb (fst e) k)) c) k' = if keqb k k' then None else get c k'.
Proof.
  induction c as [|[k0 v] c IH]; simpl. { destruct (keqb k k'); auto. }
  destruct (keqb k0 k) eqn:E; simpl.
  - rewrite IH. apply keqb_ok in E. subst. destruct (keqb k k') eqn:F; auto.
  - rewrite IH. destruct (keqb k0 k') eqn:F; auto. apply keqb_ok in F. subst. destruct (keqb k k') eqn:G; auto. apply keqb_ok in G. subst.
    rewrite (proj2 (keqb_ok k' k') eq_refl) in E. discriminate.
Qed.
Lemma get_madd (c : coll Lab V) k v k' : get (madd leqb c k v) k' = if keqb k k' then Some v else get c k'.
Proof. unfold madd. simpl. rewrite dget_filter_neq. destruct (keqb k k'); auto. Qed.
Lemma get_app (a b : coll Lab V) k : get (a ++ b) k = match get a k with Some v => Some v | None => get b k end.
Proof. induction a as [|[k0 v] a IH]; simpl; auto. destruct (keqb k0 k); auto. Qed.
Lemma get_filter_notin (a b : coll Lab V) k : get b k = None -> get (filter (fun e => negb (memb keqb (fst e) (dkeys b))) a) k = get a k.
Proof.
  intros N. induction a as [|[k0 v] a IH]; simpl; auto. destruct (memb keqb k0 (dkeys b)) eqn:E; simpl.
  - destruct (keqb k0 k) eqn:F; auto. apply keqb_ok in F. subst. apply (memb_In keqb_ok) in E. apply (dget_None keqb_ok) in N. tauto.
  - rewrite IH. auto.
Qed.
Lemma get_munion (a b : coll Lab V) k : get (munion leqb a b) k = match get b k with Some v => Some v | None => get a k end.
Proof. unfold munion. rewrite get_app. destruct (get b k) eqn:E; auto. apply get_filter_notin; auto. Qed.
Lemma get_with_total (c : coll Lab V) s l e : (forall k v, In (k, v) c -> fst (fst k) = ""%string) ->
  get (with_total c) (s, l, e) = if String.eqb s ".total" then get c (""%string, l, e) else None.
Proof.
  intros H. induction c as [|[[[s0 l0] e0] v] c IH]; simpl. { destruct (String.eqb s ".total"); auto. }
  pose proof (H (s0, l0, e0) v (or_introl eq_refl)) as E0. simpl in E0. subst s0. rewrite IH by (intros; eapply H; right; eauto).
  unfold mkey_eqb. cbn [fst snd]. change (total_suffix "") with ".total"%string. rewrite (String.eqb_sym s ".total").
  destruct (String.eqb ".total" s); simpl; auto.
Qed.

Lemma fold_munion_get {S : Type} (exp : Lab -> S -> coll Lab V) : (forall l s k v, get (exp l s) k = Some v -> snd (fst k) = l) ->
  forall kids acc k v, NoDup (map fst kids) -> (forall l s, In (l, s) kids -> forall k v, get acc k = Some v -> snd (fst k) <> l) ->
  (get (fold_left (fun w kid => munion leqb w (exp (fst kid) (snd kid))) kids acc) k = Some v <->
   get acc k = Some v \/ exists l s, In (l, s) kids /\ get (exp l s) k = Some v).
Proof.
  intros X kids. induction kids as [|[l s] kids IH]; intros acc k v N Ac; simpl.
  - split; auto. intros [H|(l & s & [] & _)]; auto.
  - inversion N as [|? ? Nl Nk]; subst. rewrite IH; auto.
    + rewrite get_munion. split.
      * intros [H|(l' & s' & I & H)]; [|right; exists l', s'; auto].
        destruct (get (exp l s) k) eqn:E; [injection H as <-; right; exists l, s; auto|auto].
      * intros [H|(l' & s' & [I|I] & H)].
        -- left. destruct (get (exp l s) k) eqn:E; auto. exfalso. apply (Ac l s (or_introl eq_refl) k v H). eapply X; eauto.
        -- injection I as -> ->. left. rewrite H. auto.
        -- right. exists l', s'. auto.
    + intros l' s' I k' v' G E. rewrite get_munion in G. destruct (get (exp l s) k') eqn:F.
      * apply X in F. assert (El : l' = l) by congruence. clear E. rewrite El in I. apply Nl. apply (in_map fst) in I. exact I.
      * revert E. eapply Ac; [right; eauto|eauto].
Qed.
Lemma sub_export_get {S : Type} (exp : Lab -> S -> coll Lab V) kids k v : (forall l s k v, get (exp l s) k = Some v -> snd (fst k) = l) -> NoDup (map fst kids) ->
  (get (sub_export leqb exp kids) k = Some v <-> exists l s, In (l, s) kids /\ get (exp l s) k = Some v).
Proof.
  intros X N. unfold sub_export. rewrite (fold_munion_get exp X kids [] k v N).
  - simpl. split; [intros [H|H]; [discriminate|auto]|auto].
  - simpl. discriminate.
Qed.
End Coll.

(** ** grouping a history by labels *)
Section Groups.
Variables (A S : Type) (fresh : S) (leaf : A -> S -> S).
Definition group (g : dict Lab (list A)) (o : A * option Lab) : dict Lab (list A) :=
  match snd o with None => g | Some l => dset leqb g l (match dget leqb g l with Some x => x | None => [] end ++ [fst o]) end.
Definition groups (h : history Lab A) : dict Lab (list A) := fold_left group h [].
Definition feed (os : list A) : S := fold_left (fun s a => leaf a s) os fresh.
Definition kids_of (g : dict Lab (list A)) : dict Lab S := map (fun e => (fst e, feed (snd e))) g.
Lemma dget_kids g l : dget leqb (kids_of g) l = option_map feed (dget leqb g l).
Proof. induction g as [|[l0 os] g IH]; simpl; auto. destruct (leqb l0 l); auto. Qed.
Lemma dset_kids g l os : dset leqb (kids_of g) l (feed os) = kids_of (dset leqb g l os).
Proof. induction g as [|[l0 os0] g IH]; simpl; auto. destruct (leqb l0 l); simpl; auto. rewrite IH. auto. Qed.
Lemma feed_snoc os a : feed (os ++ [a]) = leaf a (feed os).
Proof. unfold feed. rewrite fold_left_app. auto. Qed.
Lemma sub_handle_kids g a o : sub_handle leqb fresh (leaf a) (kids_of g) o = kids_of (group g (a, o)).
Proof.
  destruct o as [l|]; simpl; auto. rewrite dget_kids. unfold group. simpl. rewrite <- dset_kids, feed_snoc. destruct (dget leqb g l); auto.
Qed.
Lemma groups_snoc h o : groups (h ++ [o]) = group (groups h) o.
Proof. unfold groups. rewrite fold_left_app. auto. Qed.
Lemma observed_with_app l (h1 h2 : history Lab A) : observed_with leqb l (h1 ++ h2) = observed_with leqb l h1 ++ observed_with leqb l h2.
Proof. induction h1 as [|[a [l'|]] h1 IH]; simpl; auto. destruct (leqb l' l); simpl; rewrite IH; auto. Qed.
Lemma groups_wf h : NoDup (map fst (groups h)).
Proof.
  induction h as [|[a o] h IH] using rev_ind; [constructor|]. rewrite groups_snoc. unfold group. simpl. destruct o as [l|]; auto.
  apply (dset_wf lok). exact IH.
Qed.
Lemma groups_get h l : dget leqb (groups h) l = match observed_with leqb l h with [] => None | os => Some os end.
Proof.
  induction h as [|[a o] h IH] using rev_ind; auto. rewrite groups_snoc, observed_with_app. unfold group. simpl. destruct o as [l0|].
  - simpl. destruct (leqb l0 l) eqn:E.
    + apply lok in E. subst l0. rewrite (dget_dset_eq lok). rewrite IH. destruct (observed_with leqb l h); auto.
    + rewrite (dget_dset_neq lok). { rewrite IH, app_nil_r. auto. } intros ->. rewrite (proj2 (lok l0 l0) eq_refl) in E. discriminate.
  - simpl. rewrite app_nil_r. auto.
Qed.
Lemma occurs_iff l (h : history Lab A) : occurs l h <-> observed_with leqb l h <> [].
Proof.
  induction h as [|[a o] h IH]; simpl. { split; [intros (a & [])|congruence]. }
  destruct o as [l0|].
  - destruct (leqb l0 l) eqn:E.
    + apply lok in E. subst. split; [discriminate|]. intros _. exists a. left; auto.
    + rewrite <- IH. split; intros (b & H).
      * destruct H as [H|H]; [|exists b; auto]. injection H as -> ->. rewrite (proj2 (lok l l) eq_refl) in E. discriminate.
      * exists b. right; auto.
  - rewrite <- IH. split; intros (b & H); [destruct H as [H|H]; [discriminate|exists b; auto]|exists b; right; auto].
Qed.
Lemma groups_In h l os : In (l, os) (groups h) <-> occurs l h /\ os = observed_with leqb l h.
Proof.
  rewrite occurs_iff. split.
  - intros I. apply (In_dget lok _ _ (groups_wf h)) in I. rewrite groups_get in I. destruct (observed_with leqb l h); [discriminate|].
    injection I as <-. split; auto. discriminate.
  - intros [N ->]. apply (dget_In lok). rewrite groups_get. destruct (observed_with leqb l h); congruence.
Qed.
Lemma observed_labelled_app (h1 h2 : history Lab A) : observed_labelled (h1 ++ h2) = observed_labelled h1 ++ observed_labelled h2.
Proof. induction h1 as [|[a [l|]] h1 IH]; simpl; auto. rewrite IH. auto. Qed.
Lemma dset_flat (g : dict Lab (list A)) l a : NoDup (map fst g) -> Permutation (flat_map snd (dset leqb g l (match dget leqb g l with Some x => x | None => [] end ++ [a]))) (flat_map snd g ++ [a]).
Proof.
  induction g as [|[l0 os] g IH]; simpl; intros N; auto. inversion N; subst.
  destruct (leqb l0 l) eqn:E; simpl.
  - rewrite <- !app_assoc. apply Permutation_app_head. apply Permutation_app_comm.
  - rewrite IH by auto. rewrite app_assoc. auto.
Qed.
Lemma groups_flat h : Permutation (flat_map snd (groups h)) (observed_labelled h).
Proof.
  induction h as [|[a o] h IH] using rev_ind; auto. rewrite groups_snoc, observed_labelled_app. unfold group. simpl. destruct o as [l|]; simpl.
  - rewrite dset_flat by apply groups_wf. rewrite IH. auto.
  - rewrite app_nil_r. auto.
Qed.
Lemma kids_In h l s : In (l, s) (kids_of (groups h)) <-> occurs l h /\ s = feed (observed_with leqb l h).
Proof.
  unfold kids_of. rewrite in_map_iff. split.
  - intros ([l' os] & E & I). simpl in E. injection E as -> <-. apply groups_In in I. destruct I as [O ->]. auto.
  - intros [O ->]. exists (l, observed_with leqb l h). split; auto. apply groups_In. auto.
Qed.
Lemma kids_nodup h : NoDup (map fst (kids_of (groups h))).
Proof. unfold kids_of. rewrite map_map. simpl. apply groups_wf. Qed.
Definition enabled_by (h : history Lab A) : bool := existsb (fun o => is_labelled (snd o)) h.
Lemma enabled_true h : enabled_by h = true <-> some_labelled h.
Proof.
  unfold enabled_by. rewrite existsb_exists. split.
  - intros ([a [l|]] & I & H); [|discriminate]. exists l, a. auto.
  - intros (l & a & I). exists (a, Some l). auto.
Qed.
Lemma enabled_false h : enabled_by h = false <-> unlabelled h.
Proof.
  split.
  - intros E a o I. destruct o as [l|]; auto. assert (enabled_by h = true) by (apply enabled_true; exists l, a; auto). congruence.
  - intros U. destruct (enabled_by h) eqn:E; auto. apply enabled_true in E. destruct E as (l & a & I). specialize (U _ _ I). discriminate.
Qed.
Lemma not_both (h : history Lab A) : unlabelled h -> some_labelled h -> False.
Proof. intros U (l & a & I). specialize (U _ _ I). discriminate. Qed.
Lemma occurs_some (h : history Lab A) l : occurs l h -> some_labelled h.
Proof. intros O. exists l; auto. Qed.
Lemma enabled_snoc (h : history Lab A) o : enabled_by (h ++ [o]) = enabled_by h || is_labelled (snd o).
Proof. unfold enabled_by. rewrite existsb_app. simpl. rewrite orb_false_r. auto. Qed.
Lemma unlabelled_snoc (h : history Lab A) a o : unlabelled (h ++ [(a, o)]) -> unlabelled h /\ o = None.
Proof. intros U. split; [intros b p I; eapply U; apply in_or_app; left; eauto|eapply U; apply in_or_app; right; left; eauto]. Qed.
End Groups.
Arguments groups {A}. Arguments enabled_by {A}.
Lemma sum_app l1 l2 : sum (l1 ++ l2) = sum l1 + sum l2.
Proof. unfold sum. induction l1; simpl; auto. lia. Qed.
Lemma number_app {A} (l1 l2 : list A) : number (l1 ++ l2) = number l1 + number l2.
Proof. unfold number. rewrite app_length. lia. Qed.
Lemma observed_app {A} (h1 h2 : history Lab A) : observed (h1 ++ h2) = observed h1 ++ observed h2.
Proof. apply map_app. Qed.

(** ** counter *)
Lemma counter_state sc h : let s := counter_run leqb sc h in
  c_calls s = number h /\ c_enabled s = enabled_by h /\ c_kids s = kids_of Z (Z * Z) (0, 0) counter_leaf (groups h) /\
  (sc = true \/ unlabelled h -> c_value s = sum (observed h)).
Proof.
  induction h as [|[d o] h IH] using rev_ind. { simpl. auto. }
  unfold counter_run in *. rewrite fold_left_app. cbn [fold_left]. simpl in IH. destruct IH as (Ca & En & Ki & Va).
  set (s := fold_left (counter_handle leqb sc) h (counter_new Lab)) in *.
  rewrite enabled_snoc, groups_snoc, number_app, observed_app, sum_app. cbn [snd observed map fst]. unfold counter_handle. rewrite <- En.
  destruct (c_enabled s || is_labelled o) eqn:E; cbn [c_calls c_enabled c_kids c_value].
  - split; [rewrite Ca; unfold number; cbn [length]; lia|]. split; auto. split; [rewrite Ki; apply sub_handle_kids|].
    intros [H|H]; [subst sc; rewrite Va by auto; simpl; lia|]. apply unlabelled_snoc in H. destruct H as [H ->].
    apply enabled_false in H. simpl in E. rewrite orb_false_r in E. congruence.
  - apply orb_false_iff in E. destruct E as [E F]. split; [rewrite Ca; unfold number; cbn [length]; lia|]. split; [rewrite E; auto|].
    destruct o; [discriminate|]. split; [rewrite Ki; auto|]. intros _. rewrite Va; [simpl; lia|]. right. apply enabled_false. congruence.
Qed.
Lemma counter_feed os : feed Z (Z * Z) (0, 0) counter_leaf os = (sum os, number os).
Proof.
  induction os as [|a os IH] using rev_ind; auto. rewrite feed_snoc, IH, sum_app, number_app. unfold counter_leaf. simpl. f_equal. lia.
Qed.
Ltac keys := repeat match goal with
  | |- context [mkey_eqb leqb ?a ?b] => let E := fresh "E" in destruct (mkey_eqb leqb a b) eqn:E; [apply keqb_ok in E|]
  | H : context [mkey_eqb leqb ?a ?b] |- _ => let E := fresh "E" in destruct (mkey_eqb leqb a b) eqn:E; [apply keqb_ok in E|]
  end.
Lemma keqb_refl k : keqb k k = true. Proof. apply keqb_ok. auto. Qed.
Lemma keqb_neq k k' : k <> k' -> keqb k k' = false.
Proof. intros N. destruct (keqb k k') eqn:E; auto. apply keqb_ok in E. contradiction. Qed.
Lemma keqb_dec k k' : {k = k' /\ keqb k k' = true} + {k <> k' /\ keqb k k' = false}.
Proof. destruct (keqb k k') eqn:E; [left; split; auto; apply keqb_ok; auto|right; split; auto; intros ->; rewrite keqb_refl in E; discriminate]. Qed.
Lemma counter_leaf_get cc l s k v : dget keqb (counter_leaf_export leqb cc l s) k = Some v <->
  (k = (""%string, l, ENone) /\ v = fst s) \/ (cc = true /\ k = (".count"%string, l, ENone) /\ v = snd s).
Proof.
  unfold counter_leaf_export. destruct cc.
  - rewrite get_madd. cbn [dget]. destruct (keqb_dec (".count"%string, l, ENone) k) as [[<- ->]|[N ->]].
    + split; [intros H; injection H as <-; right; auto|]. intros [[H _]|(_ & _ & ->)]; [discriminate|auto].
    + destruct (keqb_dec (""%string, l, ENone) k) as [[<- ->]|[N' ->]].
      * split; [intros H; injection H as <-; left; auto|]. intros [[_ ->]|(_ & H & _)]; [auto|discriminate].
      * split; [discriminate|]. intros [[-> _]|(_ & -> & _)]; congruence.
  - cbn [dget]. destruct (keqb_dec (""%string, l, ENone) k) as [[<- ->]|[N' ->]].
    + split; [intros H; injection H as <-; left; auto|]. intros [[_ ->]|(H & _)]; [auto|discriminate].
    + split; [discriminate|]. intros [[-> _]|(H & _)]; congruence.
Qed.
Lemma counter_ok sc cc own h : ~ occurs own h -> forall k v,
  dget keqb (counter_export leqb sc cc own (counter_run leqb sc h)) k = Some v <-> counter_datum leqb sc cc own h k v.
Proof.
  intros No k v. destruct (counter_state sc h) as (Ca & En & Ki & Va). unfold counter_export. cbv zeta. rewrite En. destruct (enabled_by h) eqn:E.
  - apply enabled_true in E.
    assert (B : dget keqb (sub_export leqb (counter_leaf_export leqb cc) (c_kids (counter_run leqb sc h))) k = Some v <->
                exists l, occurs l h /\ ((k = (""%string, l, ENone) /\ v = sum (observed_with leqb l h)) \/ (cc = true /\ k = (".count"%string, l, ENone) /\ v = number (observed_with leqb l h)))).
    { rewrite Ki. rewrite sub_export_get.
      - split.
        + intros (l & s & I & G). apply kids_In in I. destruct I as [O ->]. exists l. split; auto. apply counter_leaf_get in G. rewrite counter_feed in G. exact G.
        + intros (l & O & G). exists l, (feed Z (Z * Z) (0, 0) counter_leaf (observed_with leqb l h)). split; [apply kids_In; auto|]. apply counter_leaf_get. rewrite counter_feed. exact G.
      - intros l s k' v' G. apply counter_leaf_get in G. destruct G as [[-> _]|(_ & -> & _)]; auto.
      - apply kids_nodup. }
    set (base := sub_export leqb (counter_leaf_export leqb cc) (c_kids (counter_run leqb sc h))) in *.
    assert (B' : dget keqb (if sc then madd leqb base (".sum"%string, own, ENone) (c_value (counter_run leqb sc h)) else base) k = Some v <->
        (sc = true /\ k = (".sum"%string, own, ENone) /\ v = sum (observed h)) \/ dget keqb base k = Some v).
    { destruct sc.
      - rewrite get_madd, Va by auto. destruct (keqb_dec (".sum"%string, own, ENone) k) as [[<- ->]|[N ->]].
        + split; [intros H; injection H as <-; left; auto|]. intros [(_ & _ & ->)|H]; auto. apply B in H. destruct H as (l & _ & [[H _]|(_ & H & _)]); discriminate.
        + split; auto. intros [(_ & H & _)|H]; auto. congruence.
      - split; auto. intros [(H & _)|H]; auto. discriminate. }
    match type of B' with dget _ ?t _ = _ <-> _ => set (base' := t) in * end. 
    assert (B2 : dget keqb (if cc then madd leqb base' (".count"%string, own, ENone) (c_calls (counter_run leqb sc h)) else base') k = Some v <->
        (cc = true /\ k = (".count"%string, own, ENone) /\ v = number h) \/ dget keqb base' k = Some v).
    { destruct cc.
      - rewrite get_madd, Ca. destruct (keqb_dec (".count"%string, own, ENone) k) as [[<- ->]|[N ->]].
        + split; [intros H; injection H as <-; left; auto|]. intros [(_ & _ & ->)|H]; auto. apply B' in H. destruct H as [(_ & H & _)|H]; [discriminate|].
          apply B in H. destruct H as (l & O & [[H _]|(_ & H & _)]); [discriminate|]. injection H as <-. contradiction.
        + split; auto. intros [(_ & H & _)|H]; auto. congruence.
      - split; auto. intros [(H & _)|H]; auto. discriminate. }
    eapply iff_trans; [exact B2|]. eapply iff_trans; [apply or_iff_compat_l; eapply iff_trans; [exact B'|apply or_iff_compat_l; exact B]|]. split.
    + intros [(-> & -> & ->)|[(-> & -> & ->)|(l & O & [[-> ->]|(-> & -> & ->)])]].
      * apply cd_total_calls; auto.
      * apply cd_sum; auto.
      * apply cd_child; auto.
      * apply cd_child_calls; auto.
    + intros D. destruct D as [U|U ?|l O|l O ?|S ?|S ?].
      * exfalso. eapply not_both; eauto.
      * exfalso. eapply not_both; eauto.
      * right; right. exists l. split; auto.
      * right; right. exists l. split; auto.
      * right; left; auto.
      * left; auto.
  - apply enabled_false in E. rewrite counter_leaf_get. simpl. rewrite Va, Ca by auto. split.
    + intros [[-> ->]|(-> & -> & ->)]; [apply cd_value|apply cd_calls]; auto.
    + intros D. destruct D as [U|U ?|l O|l O ?|S ?|S ?]; auto; exfalso; try (apply occurs_some in O); eapply not_both; eauto.
Qed.

(** ** histogram *)
Definition countb (lo : Z) (up : option Z) (obs : list Z) : Z := Z.of_nat (length (filter (in_bucket lo up) obs)).
Lemma countb_snoc lo up obs v : countb lo up (obs ++ [v]) = if in_bucket lo up v then countb lo up obs + 1 else countb lo up obs.
Proof. unfold countb. rewrite filter_app, app_length. simpl. destruct (in_bucket lo up v); simpl; lia. Qed.
Fixpoint counts (lo : Z) (limits obs : list Z) : list Z :=
  match limits with [] => [countb lo None obs] | u :: us => countb lo (Some u) obs :: counts u us obs end.
Lemma bucket_loop_counts v obs : forall limits lo, bucket_loop lo limits (counts lo limits obs) v = counts lo limits (obs ++ [v]).
Proof.
  induction limits as [|u us IH]; intros lo; cbn [counts bucket_loop]; rewrite countb_snoc; auto. rewrite IH. auto.
Qed.
Lemma counts_nil : forall limits lo, counts lo limits [] = repeat 0 (S (length limits)).
Proof. induction limits as [|u us IH]; intros lo; simpl; auto. rewrite IH. auto. Qed.
Lemma in_bucket_falls lo up v : in_bucket lo up v = true <-> falls lo up v.
Proof. unfold in_bucket, falls. rewrite andb_true_iff, Z.leb_le. destruct up; [rewrite Z.ltb_lt|]; tauto. Qed.
Lemma count_falling_iff lo up obs n : count_falling lo up obs n <-> n = countb lo up obs.
Proof.
  revert n. induction obs as [|v obs IH]; intros n.
  - split; [intros H; inversion H; auto|intros ->; constructor].
  - unfold countb in *. simpl. destruct (in_bucket lo up v) eqn:E.
    + apply in_bucket_falls in E. split.
      * intros H; inversion H; subst; [|tauto]. apply IH in H4. subst. simpl length. lia.
      * intros ->. cbn [length]. rewrite Nat2Z.inj_succ. unfold Z.succ. constructor; auto. apply IH. auto.
    + assert (F : ~ falls lo up v) by (intros F; apply in_bucket_falls in F; congruence). split.
      * intros H; inversion H; subst; [tauto|]. apply IH. auto.
      * intros ->. apply cf_out; auto. apply IH. auto.
Qed.
Definition bucketp (lo : Z) (limits : list Z) (l : Z) (u : option Z) : Prop := exists i, nth_error (lo :: limits) i = Some l /\ nth_error limits i = u.
Lemma bucketp_cons lo x us l u : bucketp lo (x :: us) l u <-> (l = lo /\ u = Some x) \/ bucketp x us l u.
Proof.
  split.
  - intros ([|i] & H1 & H2); simpl in H1, H2. { left. split; congruence. } right. exists i. auto.
  - intros [[-> ->]|(i & H1 & H2)]; [exists O; auto|exists (S i); auto].
Qed.
Lemma bucketp_nil lo l u : bucketp lo [] l u <-> l = lo /\ u = None.
Proof.
  split.
  - intros ([|i] & H1 & H2); simpl in H1, H2. { split; congruence. } destruct i; discriminate.
  - intros [-> ->]. exists O. auto.
Qed.
Lemma containers_get obs labels k v : forall limits lo, dget keqb (containers lo limits (counts lo limits obs) labels) k = Some v <->
  exists l u, k = (""%string, labels, EBucket l u) /\ bucketp lo limits l u /\ v = countb l u obs.
Proof.
  induction limits as [|x us IH]; intros lo; cbn [counts containers dget].
  - destruct (keqb_dec (""%string, labels, EBucket lo None) k) as [[<- ->]|[N ->]].
    + split.
      * intros H; injection H as <-. exists lo, None. split; auto. split; auto. apply bucketp_nil; auto.
      * intros (l & u & E & B & ->). injection E as <- <-. auto.
    + split; [discriminate|]. intros (l & u & -> & B & _). apply bucketp_nil in B. destruct B as [-> ->]. contradiction.
  - destruct (keqb_dec (""%string, labels, EBucket lo (Some x)) k) as [[<- ->]|[N ->]].
    + split.
      * intros H; injection H as <-. exists lo, (Some x). split; auto. split; auto. apply bucketp_cons; auto.
      * intros (l & u & E & B & ->). injection E as <- <-. auto.
    + rewrite IH. split; intros (l & u & -> & B & ->); exists l, u; (split; [auto|split; auto]).
      * apply bucketp_cons. auto.
      * apply bucketp_cons in B. destruct B as [[-> ->]|B]; auto. contradiction.
Qed.
Lemma containers_suffix labels : forall limits bs lo (k : mkey Lab) v, In (k, v) (containers lo limits bs labels) -> fst (fst k) = ""%string.
Proof.
  induction limits as [|x us IH]; intros [|b bs] lo k v; cbn [containers]; try (intros []; fail).
  - intros [H|[]]. injection H as <- _. auto.
  - intros [H|H]; [injection H as <- _; auto|eauto].
Qed.
Lemma histogram_feed limits os : feed Z hleaf (hleaf_new limits) (hleaf_handle limits) os = (counts 0 limits os, (number os, sum os)).
Proof.
  induction os as [|a os IH] using rev_ind. { unfold feed. simpl fold_left. unfold hleaf_new. rewrite counts_nil. auto. }
  rewrite feed_snoc, IH. unfold hleaf_handle. cbn [fst snd]. rewrite bucket_loop_counts, sum_app, number_app. simpl. f_equal. f_equal. lia.
Qed.
Lemma histogram_state limits ag h : let s := histogram_run leqb limits ag h in
  snd (h_own s) = (number h, sum (observed h)) /\ h_enabled s = enabled_by h /\ h_kids s = kids_of Z hleaf (hleaf_new limits) (hleaf_handle limits) (groups h) /\
  (ag = true \/ unlabelled h -> fst (h_own s) = counts 0 limits (observed h)).
Proof.
  induction h as [|[d o] h IH] using rev_ind. { simpl. repeat split; auto. intros _. rewrite counts_nil. auto. }
  unfold histogram_run in *. rewrite fold_left_app. cbn [fold_left]. simpl in IH. destruct IH as (Ca & En & Ki & Va).
  set (s := fold_left (histogram_handle leqb limits ag) h (histogram_new Lab limits)) in *.
  rewrite enabled_snoc, groups_snoc, number_app, observed_app, sum_app. cbn [snd observed map fst]. unfold histogram_handle. rewrite <- En.
  assert (Ct : (fst (snd (h_own s)) + 1, snd (snd (h_own s)) + d) = (number h + number [(d, o)], sum (observed h) + sum [d])).
  { rewrite Ca. unfold number. cbn [fst snd length sum fold_right]. f_equal; lia. }
  change (map fst h) with (observed h).
  destruct (h_enabled s || is_labelled o) eqn:E; cbn [h_own h_enabled h_kids fst snd].
  - split; [exact Ct|]. split; auto. split; [rewrite Ki; apply sub_handle_kids|].
    intros [H|H]. { subst ag. rewrite Va by auto. apply bucket_loop_counts. }
    apply unlabelled_snoc in H. destruct H as [H ->]. apply enabled_false in H. simpl in E. rewrite orb_false_r in E. congruence.
  - apply orb_false_iff in E. destruct E as [E F]. split; [exact Ct|]. split; [rewrite E; auto|].
    destruct o; [discriminate|]. split; [rewrite Ki; auto|]. intros _. rewrite Va; [apply bucket_loop_counts|]. right. apply enabled_false. congruence.
Qed.
Lemma hleaf_get limits obs labels cs k v : dget keqb (hleaf_export leqb limits labels (counts 0 limits obs, cs)) k = Some v <->
  (k = (".sum"%string, labels, ENone) /\ v = snd cs) \/ (k = (".count"%string, labels, ENone) /\ v = fst cs) \/
  (exists l u, k = (""%string, labels, EBucket l u) /\ bucketp 0 limits l u /\ v = countb l u obs).
Proof.
  unfold hleaf_export. rewrite !get_madd. cbn [fst snd].
  destruct (keqb_dec (".count"%string, labels, ENone) k) as [[<- ->]|[N ->]].
  - split; [intros H; injection H as <-; auto|]. intros [[H _]|[[_ ->]|(l & u & H & _)]]; auto; discriminate.
  - destruct (keqb_dec (".sum"%string, labels, ENone) k) as [[<- ->]|[N' ->]].
    + split; [intros H; injection H as <-; auto|]. intros [[_ ->]|[[H _]|(l & u & H & _)]]; auto; discriminate.
    + rewrite containers_get. split; auto. intros [[-> _]|[[-> _]|H]]; auto; contradiction.
Qed.
Lemma histogram_ok limits ag empty own h : forall k v,
  dget keqb (histogram_export leqb limits ag empty own (histogram_run leqb limits ag h)) k = Some v <-> histogram_datum leqb limits ag empty own h k v.
Proof.
  intros k v. destruct (histogram_state limits ag h) as (Ca & En & Ki & Va). unfold histogram_export. cbv zeta. rewrite En. destruct (enabled_by h) eqn:E.
  - apply enabled_true in E.
    assert (B : dget keqb (sub_export leqb (hleaf_export leqb limits) (h_kids (histogram_run leqb limits ag h))) k = Some v <->
                exists l, occurs l h /\ ((k = (".sum"%string, l, ENone) /\ v = sum (observed_with leqb l h)) \/ (k = (".count"%string, l, ENone) /\ v = number (observed_with leqb l h)) \/
  (exists lo u, k = (""%string, l, EBucket lo u) /\ bucketp 0 limits lo u /\ v = countb lo u (observed_with leqb l h)))).
    { rewrite Ki.
      assert (X : forall (s0 : list Z) c k0 v0 l0, (exists obs, s0 = counts 0 limits obs) -> dget keqb (hleaf_export leqb limits l0 (s0, c)) k0 = Some v0 -> snd (fst k0) = l0).
      { intros s0 c k0 v0 l0 (obs & ->) G. apply hleaf_get in G. destruct G as [[-> _]|[[-> _]|(? & ? & -> & _)]]; auto. }
      clear X. rewrite sub_export_get.
      - split.
        + intros (l & s & I & G). apply kids_In in I. destruct I as [O ->]. exists l. split; auto. rewrite histogram_feed in G. apply hleaf_get in G. exact G.
        + intros (l & O & G). exists l, (feed Z hleaf (hleaf_new limits) (hleaf_handle limits) (observed_with leqb l h)). split; [apply kids_In; auto|]. rewrite histogram_feed. apply hleaf_get. exact G.
      - intros l [bs c] k' v' G. unfold hleaf_export in G. rewrite !get_madd in G. cbn [fst snd] in G.
        destruct (keqb_dec (".count"%string, l, ENone) k') as [[<- _]|[N Ek]]; auto. rewrite Ek in G.
        destruct (keqb_dec (".sum"%string, l, ENone) k') as [[<- _]|[N' Ek']]; auto. rewrite Ek' in G.
        apply (dget_In keqb_ok) in G. clear -G. revert bs G. generalize 0. induction limits as [|x us IH]; intros z [|b bs]; cbn [containers]; try (intros []; fail).
        + intros [H|[]]. injection H as <- _. auto.
        + intros [H|H]; [injection H as <- _; auto|eauto].
      - apply kids_nodup. }
    destruct ag.
    + rewrite get_munion, !get_madd. rewrite Ca, Va by auto. cbn [fst snd]. destruct k as [[s l] e].
      rewrite get_with_total by apply containers_suffix.
      destruct (keqb_dec (".total.count"%string, empty, ENone) (s, l, e)) as [[EE ->]|[N ->]].
      { injection EE as <- <- <-. split; [intros H; injection H as <-; apply hd_total_count; auto|]. intros D; inversion D; auto. }
      destruct (keqb_dec (".total.sum"%string, empty, ENone) (s, l, e)) as [[EE ->]|[N' ->]].
      { injection EE as <- <- <-. split; [intros H; injection H as <-; apply hd_total_sum; auto|]. intros D; inversion D; auto. }
      destruct (String.eqb s ".total") eqn:Es.
      { apply String.eqb_eq in Es. subst s. destruct (dget keqb (containers 0 limits (counts 0 limits (observed h)) own) (""%string, l, e)) as [w|] eqn:G.
        - apply containers_get in G. destruct G as (lo & up & Ek & Bp & ->). injection Ek as -> ->. split.
          + intros H; injection H as <-. apply hd_total; auto. apply count_falling_iff. auto.
          + intros D. inversion D; subst. f_equal. symmetry. apply count_falling_iff. auto.
        - split.
          + intros H. apply B in H. destruct H as (l' & _ & [[H _]|[[H _]|(? & ? & H & _)]]); discriminate.
          + intros D. inversion D; subst. exfalso. match type of G with ?t = None => assert (K : t = Some v) end.
            { apply containers_get. exists lower, upper. split; auto. split; auto. apply count_falling_iff. auto. } congruence. }
      rewrite B. split.
      * intros (l' & O & [[H ->]|[[H ->]|(lo & up & H & Bp & ->)]]); injection H as -> -> ->.
        -- apply hd_child_sum; auto.
        -- apply hd_child_count; auto.
        -- apply hd_child_bucket; auto. apply count_falling_iff. auto.
      * intros D. inversion D; subst; try (exfalso; eapply not_both; eauto; fail); try (simpl in Es; discriminate Es); try contradiction.
        -- exists l. split; auto. right; right. exists lower, upper. split; auto. split; auto. apply count_falling_iff. auto.
        -- exists l. split; auto.
        -- exists l. split; auto.
    + rewrite B. split.
      * intros (l' & O & [[-> ->]|[[-> ->]|(lo & up & -> & Bp & ->)]]).
        -- apply hd_child_sum; auto.
        -- apply hd_child_count; auto.
        -- apply hd_child_bucket; auto. apply count_falling_iff. auto.
      * intros D. inversion D; subst; try (exfalso; eapply not_both; eauto; fail); try discriminate.
        -- exists l. split; auto. right; right. exists lower, upper. split; auto. split; auto. apply count_falling_iff. auto.
        -- exists l. split; auto.
        -- exists l. split; auto.
  - apply enabled_false in E. destruct (h_own (histogram_run leqb limits ag h)) as [bs cs]. simpl in Ca, Va. rewrite Va by auto. rewrite hleaf_get. subst cs. cbn [fst snd]. split.
    + intros [[-> ->]|[[-> ->]|(lo & up & -> & Bp & ->)]].
      * apply hd_sum; auto.
      * apply hd_count; auto.
      * apply hd_bucket; auto. apply count_falling_iff. auto.
    + intros D. inversion D; subst; try (exfalso; try (match goal with O : occurs _ _ |- _ => apply occurs_some in O end); eapply not_both; eauto; fail); auto.
      right; right. exists lower, upper. split; auto. split; auto. apply count_falling_iff. auto.
Qed.
Lemma falls_unique_aux v : forall limits lo, StronglySorted Z.le (lo :: limits) -> lo <= v -> exists! i, exists l, nth_error (lo :: limits) i = Some l /\ falls l (nth_error limits i) v.
Proof.
  induction limits as [|x us IH]; intros lo Sh L.
  - exists O. split. { exists lo. repeat split; auto. } intros [|i] (l & H & _); auto. destruct i; discriminate.
  - inversion Sh as [|? ? S2 F]; subst. destruct (Z_lt_le_dec v x) as [Lt|Le].
    + exists O. split. { exists lo. repeat split; auto. }
      intros [|i] (l & H & [Fa _]); auto. exfalso. simpl in H.
      assert (x <= l). { destruct i; simpl in H; [injection H as <-; lia|]. apply nth_error_In in H. inversion S2 as [|? ? ? F2]; subst. rewrite Forall_forall in F2. auto. } lia.
    + destruct (IH x S2 Le) as (i & (l & H & Fa) & U). exists (S i). split. { exists l. auto. }
      intros [|j] (l' & H' & Fa'). { exfalso. simpl in Fa'. destruct Fa'. simpl in *. lia. }
      f_equal. apply U. exists l'. auto.
Qed.
Lemma sum_counts obs : forall limits lo, StronglySorted Z.le (lo :: limits) -> sum (counts lo limits obs) = number (filter (fun v => lo <=? v) obs).
Proof.
  induction limits as [|x us IH]; intros lo Sh.
  - simpl. unfold countb, number. rewrite Z.add_0_r. f_equal. f_equal. apply filter_ext. intros v. unfold in_bucket. apply andb_true_r.
  - inversion Sh as [|? ? S2 F]; subst. cbn [counts sum fold_right]. change (fold_right Z.add 0 (counts x us obs)) with (sum (counts x us obs)). rewrite IH by auto.
    rewrite Forall_forall in F. assert (lo <= x) by (apply F; left; auto). unfold countb, number. clear -H.
    induction obs as [|v obs IH]; auto. cbn [filter]. unfold in_bucket at 1. destruct (Z.leb_spec lo v), (Z.ltb_spec v x), (Z.leb_spec x v); cbn [andb length]; try lia.
Qed.
Lemma bucket_sum limits ag empty own h : unlabelled h -> StronglySorted Z.le (0 :: limits) ->
  exists ns, Forall2 (fun b n => dget keqb (histogram_export leqb limits ag empty own (histogram_run leqb limits ag h)) (name_of "" own (EBucket (fst b) (snd b))) = Some n)
    (combine (0 :: limits) (map Some limits ++ [None])) ns /\ sum ns = number (filter (fun v => 0 <=? v) (observed h)).
Proof.
  intros U Sh. exists (counts 0 limits (observed h)). split; [|apply sum_counts; auto].
  assert (G : forall l u, bucketp 0 limits l u -> dget keqb (histogram_export leqb limits ag empty own (histogram_run leqb limits ag h)) (name_of "" own (EBucket l u)) = Some (countb l u (observed h))).
  { intros l u B. apply histogram_ok. apply hd_bucket; auto. apply count_falling_iff. auto. }
  revert G. generalize (histogram_export leqb limits ag empty own (histogram_run leqb limits ag h)) as ex. intros ex. generalize 0. clear Sh.
  induction limits as [|x us IH]; intros lo G.
  - simpl. constructor; [|constructor]. apply (G lo None). apply bucketp_nil. auto.
  - cbn [combine map app counts]. constructor.
    + apply (G lo (Some x)). apply bucketp_cons. auto.
    + apply IH. intros l u B. apply G. apply bucketp_cons. auto.
Qed.

(** ** summary *)
Lemma removelast_rev {A} (l : list A) : removelast (rev l) = rev (tl l).
Proof. destruct l as [|x l]; auto. simpl. rewrite removelast_app by discriminate. simpl. apply app_nil_r. Qed.
Lemma tl_skipn {A} : forall n (l : list A), tl (skipn n l) = skipn (S n) l.
Proof. induction n as [|n IH]; intros [|x l]; auto. simpl. rewrite IH. destruct l; auto. Qed.
Lemma skipn_snoc {A} n (l : list A) x : (n <= length l)%nat -> skipn n (l ++ [x]) = skipn n l ++ [x].
Proof. intros H. rewrite skipn_app. replace (n - length l)%nat with O by lia. auto. Qed.
Lemma queue_push_window n os v : n <> 0 -> queue_push n (rev (window n os)) v = (rev (window n (os ++ [v])), Ok tt).
Proof.
  intros N. unfold queue_push, window. destruct (Z.ltb_spec n 0) as [L|L].
  - rewrite rev_length. destruct (Z.eqb_spec (Z.of_nat (length os)) n); [lia|]. rewrite rev_app_distr. auto.
  - rewrite rev_length, skipn_length, app_length. cbn [length]. destruct (Z.eqb_spec (Z.of_nat (length os - (length os - Z.to_nat n))) n) as [E|E].
    + replace (length os + 1 - Z.to_nat n)%nat with (S (length os - Z.to_nat n)) by lia.
      rewrite skipn_snoc by lia. rewrite rev_app_distr, <- tl_skipn. cbn [rev app]. rewrite removelast_rev.
      destruct (rev (skipn (length os - Z.to_nat n) os)) eqn:F; auto. apply (f_equal (@length Z)) in F. rewrite rev_length, skipn_length in F. simpl in F. lia.
    + replace (length os - Z.to_nat n)%nat with O by lia. replace (length os + 1 - Z.to_nat n)%nat with O by lia. cbn [skipn]. rewrite rev_app_distr. auto.
Qed.
Lemma summary_feed n cc os : n <> 0 -> feed Z sleaf sleaf_new (sleaf_handle n cc) os = (rev (window n os), if cc then (number os, sum os) else (0, 0)).
Proof.
  intros N. induction os as [|a os IH] using rev_ind. { unfold feed, window. simpl. destruct (n <? 0), cc; reflexivity. }
  rewrite feed_snoc, IH. unfold sleaf_handle. cbn [fst snd]. rewrite queue_push_window by auto. cbn [fst]. f_equal.
  unfold tally. destruct cc; auto. rewrite sum_app, number_app. cbn [fst snd sum fold_right]. unfold number. cbn [length]. f_equal. lia.
Qed.
Lemma summary_state n cc h : n <> 0 -> let s := summary_run leqb n cc h in
  snd (s_own s) = (if cc then (number h, sum (observed h)) else (0, 0)) /\ s_enabled s = enabled_by h /\
  s_kids s = kids_of Z sleaf sleaf_new (sleaf_handle n cc) (groups h) /\
  (unlabelled h -> fst (s_own s) = rev (window n (observed h))).
Proof.
  intros N. induction h as [|[d o] h IH] using rev_ind. { unfold window. simpl. repeat split; auto; [destruct cc; auto|]. intros _. destruct (n <? 0); auto. }
  unfold summary_run in *. rewrite fold_left_app. cbn [fold_left]. simpl in IH. destruct IH as (Ca & En & Ki & Va).
  set (s := fold_left (fun s o => fst (summary_handle leqb n cc s o)) h (summary_new Lab)) in *.
  rewrite enabled_snoc, groups_snoc, number_app, observed_app, sum_app. cbn [snd observed map fst]. unfold summary_handle. rewrite <- En.
  change (map fst h) with (observed h).
  assert (Ct : tally cc (snd (s_own s)) d = if cc then (number h + number [(d, o)], sum (observed h) + sum [d]) else (0, 0)).
  { rewrite Ca. unfold tally. destruct cc; auto. unfold number. cbn [fst snd length sum fold_right]. f_equal; lia. }
  rewrite (orb_comm (is_labelled o)).
  destruct (s_enabled s || is_labelled o) eqn:E; cbn [s_own s_enabled s_kids fst snd].
  - split; [exact Ct|]. split; auto. split; [rewrite Ki; apply sub_handle_kids|].
    intros H. apply unlabelled_snoc in H. destruct H as [H ->]. apply enabled_false in H. simpl in E. rewrite orb_false_r in E. congruence.
  - apply orb_false_iff in E. destruct E as [E F]. split; [exact Ct|]. split; [rewrite E; auto|].
    destruct o; [discriminate|]. split; [rewrite Ki; auto|]. intros _. rewrite Va by (apply enabled_false; congruence). rewrite queue_push_window by auto. auto.
Qed.
Lemma summary_no_raise n cc s o : n <> 0 -> snd (summary_handle leqb n cc s o) = Ok tt.
Proof.
  intros N. assert (Q : forall q v, snd (queue_push n q v) = Ok tt).
  { intros q v. unfold queue_push. destruct (Z.eqb_spec (Z.of_nat (length q)) n); auto. destruct q; auto. simpl in e. congruence. }
  destruct o as [v [l|]]; unfold summary_handle; simpl; auto. destruct (s_enabled s); auto. simpl. auto.
Qed.
Lemma sortedby_strong l : sortedby Z.ltb l -> StronglySorted Z.le l.
Proof. induction 1 as [|x l H S IH]; constructor; auto. apply Forall_forall. intros y I. apply H in I. apply Z.ltb_ge in I. auto. Qed.
Lemma sorted_unique : forall s1 s2 : list Z, Permutation s1 s2 -> StronglySorted Z.le s1 -> StronglySorted Z.le s2 -> s1 = s2.
Proof.
  induction s1 as [|x s1 IH]; intros s2 P S1 S2.
  - apply Permutation_nil in P. auto.
  - destruct s2 as [|y s2]. { apply Permutation_sym, Permutation_nil in P. discriminate. }
    inversion S1 as [|? ? S1' F1]; subst. inversion S2 as [|? ? S2' F2]; subst. rewrite Forall_forall in F1, F2.
    assert (x = y). { assert (Ix : In x (y :: s2)) by (rewrite <- P; left; auto). assert (Iy : In y (x :: s1)) by (rewrite P; left; auto).
      destruct Ix as [|Ix]; auto. destruct Iy as [|Iy]; auto. apply F1 in Iy. apply F2 in Ix. lia. }
    subst y. f_equal. apply IH; auto. apply Permutation_cons_inv in P. auto.
Qed.
Lemma zltb_ord : Order_Spec.total_preorder Z.ltb.
Proof. split; intros; rewrite ?Z.ltb_ge, ?Z.ltb_lt in *; lia. Qed.
Lemma quantile_iff calls obs q r : Permutation calls obs -> quantile obs q r <-> r = quantile_of calls q.
Proof.
  intros P. pose proof (py_sorted_perm Z.ltb calls) as P1. pose proof (sortedby_strong _ (py_sorted_sorted zltb_ord calls)) as S1.
  unfold quantile, quantile_of. destruct (py_sorted Z.ltb calls) as [|x s] eqn:E.
  - apply Permutation_nil in P1. subst. apply Permutation_nil in P. subst. split; [intros [[_ ->]|[N _]]; [auto|congruence]|auto].
  - assert (N : obs <> []) by (intros ->; rewrite P in P1; apply Permutation_sym, Permutation_nil in P1; discriminate). split.
    + intros [[H _]|(_ & s' & P' & S' & ->)]; [contradiction|]. assert (Es : s' = x :: s) by (apply sorted_unique; auto; rewrite P', <- P; symmetry; auto). rewrite Es. auto.
    + intros ->. right. split; auto. exists (x :: s). split; [rewrite P1; auto|auto].
Qed.
Lemma quantile_of_perm c1 c2 q : Permutation c1 c2 -> quantile_of c1 q = quantile_of c2 q.
Proof. intros P. apply (quantile_iff c2 c2 q); auto. apply (quantile_iff c1 c2 q); auto. Qed.
Lemma quantiles_fold calls labels : forall qs acc k r, dget keqb (fold_left (fun output q => madd leqb output (""%string, labels, EQuantile q) (quantile_of calls q)) qs acc) k = Some r <->
  (exists q, In q qs /\ k = (""%string, labels, EQuantile q) /\ r = quantile_of calls q) \/ ((forall q, In q qs -> k <> (""%string, labels, EQuantile q)) /\ dget keqb acc k = Some r).
Proof.
  induction qs as [|q qs IH]; intros acc k r; cbn [fold_left].
  - split. { intros H. right. split; auto. } intros [(q & [] & _)|[_ H]]; auto.
  - rewrite IH, get_madd. split.
    + intros [(q' & I & H)|[N H]]; [left; exists q'; split; [right; auto|auto]|]. destruct (keqb_dec (""%string, labels, EQuantile q) k) as [[<- Ek]|[N' Ek]]; rewrite Ek in H.
      * injection H as <-. left. exists q. split; [left; auto|auto].
      * right. split; auto. intros q' [<-|I]; auto.
    + intros [(q' & [<-|I] & -> & ->)|[N H]].
      * rewrite keqb_refl.
        assert (D : (exists q', In q' qs /\ q' = q) \/ ~ In q qs).
        { destruct (in_dec (fun a b => match keqb_dec (""%string, labels, EQuantile a) (""%string, labels, EQuantile b) with left p => left (f_equal (fun k => match snd k with EQuantile x => x | _ => a end) (proj1 p)) | right p => right (fun e => proj1 p (f_equal (fun x => (""%string, labels, EQuantile x)) e)) end) q qs) as [I|I]; [left; exists q; auto|auto]. }
        destruct D as [(q' & I & ->)|NI]; [left; exists q; auto|]. right. split; auto. intros q' I H. injection H as <-. contradiction.
      * left. exists q'. auto.
      * right. split; [intros q' I; apply N; right; auto|]. rewrite (keqb_neq _ _ (fun e => N q (or_introl eq_refl) (eq_sym e))). auto.
Qed.
Lemma quantiles_get qs calls labels k r : dget keqb (calculate_quantiles leqb qs calls labels) k = Some r <->
  exists q, In q qs /\ k = (""%string, labels, EQuantile q) /\ r = quantile_of calls q.
Proof. unfold calculate_quantiles. rewrite quantiles_fold. simpl. split; [intros [H|[_ H]]; [auto|discriminate]|auto]. Qed.
Lemma quantiles_suffix calls labels : forall qs k r, In (k, r) (calculate_quantiles leqb qs calls labels) -> fst (fst k) = ""%string.
Proof.
  intros qs. unfold calculate_quantiles.
  assert (G : forall acc : coll Lab (res Q), (forall k r, In (k, r) acc -> fst (fst k) = ""%string) -> forall k r, In (k, r) (fold_left (fun output q => madd leqb output (""%string, labels, EQuantile q) (quantile_of calls q)) qs acc) -> fst (fst k) = ""%string).
  { induction qs as [|q qs IH]; intros acc H k r; cbn [fold_left]; [apply H|]. apply IH. intros k' r' [I|I]; [injection I as <- _; auto|]. apply filter_In in I. eapply H. apply I. }
  apply G. intros k r [].
Qed.
Lemma add_tally_get cc labels t c k r : dget keqb (add_tally leqb cc labels t c) k = Some r <->
  (cc = true /\ ((k = (".count"%string, labels, ENone) /\ r = Ok (inject_Z (fst t))) \/ (k = (".sum"%string, labels, ENone) /\ r = Ok (inject_Z (snd t))))) \/
  ((cc = true -> k <> (".count"%string, labels, ENone) /\ k <> (".sum"%string, labels, ENone)) /\ dget keqb c k = Some r).
Proof.
  unfold add_tally. destruct cc.
  - rewrite !get_madd. destruct (keqb_dec (".sum"%string, labels, ENone) k) as [[<- ->]|[N ->]].
    + split; [intros H; injection H as <-; left; auto|]. intros [[_ [[H _]|[_ ->]]]|[H _]]; [discriminate|auto|]. exfalso. apply (proj2 (H eq_refl)). auto.
    + destruct (keqb_dec (".count"%string, labels, ENone) k) as [[<- ->]|[N' ->]].
      * split; [intros H; injection H as <-; left; auto|]. intros [[_ [[_ ->]|[H _]]]|[H _]]; [auto|discriminate|]. exfalso. apply (proj1 (H eq_refl)). auto.
      * split; [intros H; right; split; auto|]. intros [[_ [[-> _]|[-> _]]]|[_ H]]; [contradiction|contradiction|auto].
  - split; [intros H; right; split; auto; discriminate|]. intros [[H _]|[_ H]]; [discriminate|auto].
Qed.
Lemma sleaf_get qs cc l s k r : dget keqb (sleaf_export leqb qs cc l s) k = Some r <->
  (cc = true /\ ((k = (".count"%string, l, ENone) /\ r = Ok (inject_Z (fst (snd s)))) \/ (k = (".sum"%string, l, ENone) /\ r = Ok (inject_Z (snd (snd s)))))) \/
  (exists q, In q qs /\ k = (""%string, l, EQuantile q) /\ r = quantile_of (fst s) q).
Proof.
  unfold sleaf_export. rewrite add_tally_get, quantiles_get. split.
  - intros [H|[_ H]]; auto.
  - intros [H|(q & I & -> & ->)]; auto. right. split; [intros _; split; discriminate|]. exists q. auto.
Qed.
Lemma all_windows_perm n cc h obs : n <> 0 -> all_windows leqb n h obs -> Permutation (flat_map (fun kid => fst (snd kid)) (kids_of Z sleaf sleaf_new (sleaf_handle n cc) (groups h))) obs.
Proof.
  intros N (ls & Nd & Il & ->).
  assert (P : Permutation ls (map fst (groups h))).
  { apply NoDup_Permutation; auto. { apply groups_wf. } intros l. rewrite Il. rewrite in_map_iff. split.
    - intros O. exists (l, observed_with leqb l h). split; auto. apply groups_In. auto.
    - intros ([l' os] & <- & I). apply groups_In in I. tauto. }
  rewrite (Permutation_flat_map (fun l => window n (observed_with leqb l h)) P). unfold kids_of.
  assert (G : forall g, (forall l os, In (l, os) g -> os = observed_with leqb l h) ->
    Permutation (flat_map (fun kid => fst (snd kid)) (map (fun e => (fst e, feed Z sleaf sleaf_new (sleaf_handle n cc) (snd e))) g)) (flat_map (fun l => window n (observed_with leqb l h)) (map fst g))).
  { induction g as [|[l os] g IH]; intros H; simpl; auto. apply Permutation_app; [|apply IH; intros; apply H; right; auto].
    rewrite summary_feed by auto. simpl. rewrite (H l os (or_introl eq_refl)). symmetry. apply Permutation_rev. }
  apply G. intros l os I. apply groups_In in I. tauto.
Qed.
Lemma all_windows_exists n h : exists obs, all_windows leqb n h obs.
Proof.
  exists (flat_map (fun l => window n (observed_with leqb l h)) (map fst (groups h))). exists (map fst (groups h)). split; [apply groups_wf|]. split; auto.
  intros l. rewrite in_map_iff. split.
  - intros ([l' os] & <- & I). apply groups_In in I. tauto.
  - intros O. exists (l, observed_with leqb l h). split; auto. apply groups_In. auto.
Qed.
Lemma summary_ok n qs ag cc own h : n <> 0 -> ~ occurs own h -> forall k r,
  dget keqb (summary_export leqb qs ag cc own (summary_run leqb n cc h)) k = Some r <-> summary_datum leqb n qs ag cc own h k r.
Proof.
  intros N No k r. destruct (summary_state n cc h N) as (Ca & En & Ki & Va). unfold summary_export. cbv zeta. rewrite En. destruct (enabled_by h) eqn:E.
  - apply enabled_true in E.
    assert (B : dget keqb (sub_export leqb (sleaf_export leqb qs cc) (s_kids (summary_run leqb n cc h))) k = Some r <->
      exists l, occurs l h /\ ((cc = true /\ ((k = (".count"%string, l, ENone) /\ r = Ok (inject_Z (number (observed_with leqb l h)))) \/ (k = (".sum"%string, l, ENone) /\ r = Ok (inject_Z (sum (observed_with leqb l h)))))) \/
        (exists q, In q qs /\ k = (""%string, l, EQuantile q) /\ quantile (window n (observed_with leqb l h)) q r))).
    { rewrite Ki. rewrite sub_export_get.
      - assert (G : forall l, dget keqb (sleaf_export leqb qs cc l (feed Z sleaf sleaf_new (sleaf_handle n cc) (observed_with leqb l h))) k = Some r <->
          ((cc = true /\ ((k = (".count"%string, l, ENone) /\ r = Ok (inject_Z (number (observed_with leqb l h)))) \/ (k = (".sum"%string, l, ENone) /\ r = Ok (inject_Z (sum (observed_with leqb l h)))))) \/
        (exists q, In q qs /\ k = (""%string, l, EQuantile q) /\ quantile (window n (observed_with leqb l h)) q r))).
        { intros l. rewrite summary_feed by auto. rewrite sleaf_get. cbn [fst snd].
          assert (Qi : forall q, r = quantile_of (rev (window n (observed_with leqb l h))) q <-> quantile (window n (observed_with leqb l h)) q r).
          { intros q. symmetry. apply quantile_iff. symmetry. apply Permutation_rev. }
          split; (intros [[-> H]|(q & I & Hk & Hr)]; [left; auto|right; exists q; split; [auto|split; [auto|apply Qi; auto]]]). }
        split.
        + intros (l & s & I & H). apply kids_In in I. destruct I as [O ->]. exists l. split; auto. apply G. auto.
        + intros (l & O & H). eexists l, _. split; [apply kids_In; split; [auto|reflexivity]|]. apply G. auto.
      - intros l s k' v' G. apply sleaf_get in G. destruct G as [[_ [[-> _]|[-> _]]]|(q & _ & -> & _)]; auto.
      - apply kids_nodup. }
    set (base := sub_export leqb (sleaf_export leqb qs cc) (s_kids (summary_run leqb n cc h))) in *.
    set (tot := flat_map (fun kid => fst (snd kid)) (s_kids (summary_run leqb n cc h))).
    assert (B' : dget keqb (if ag then munion leqb base (with_total (calculate_quantiles leqb qs (py_sorted Z.ltb tot) own)) else base) k = Some r <->
       (ag = true /\ exists q obs, In q qs /\ k = (".total"%string, own, EQuantile q) /\ all_windows leqb n h obs /\ quantile obs q r) \/ dget keqb base k = Some r).
    { destruct ag; [|split; [auto|intros [[H _]|H]; [discriminate|auto]]].
      rewrite get_munion. destruct k as [[s l] e]. rewrite get_with_total by apply quantiles_suffix.
      assert (Qi : forall obs q r', all_windows leqb n h obs -> quantile obs q r' <-> r' = quantile_of (py_sorted Z.ltb tot) q).
      { intros obs q r' A. apply quantile_iff. rewrite py_sorted_perm. unfold tot. rewrite Ki. apply all_windows_perm; auto. }
      destruct (String.eqb s ".total") eqn:Es.
      - apply String.eqb_eq in Es. subst s. destruct (dget keqb (calculate_quantiles leqb qs (py_sorted Z.ltb tot) own) (""%string, l, e)) as [w|] eqn:G.
        + apply quantiles_get in G. destruct G as (q & I & Ek & ->). injection Ek as -> ->. split.
          * intros H; injection H as <-. left. split; auto. destruct (all_windows_exists n h) as (obs & A). exists q, obs. split; auto. split; auto. split; auto. apply (Qi obs); auto.
          * intros [(_ & q' & obs & I' & Ek & A & Qr)|H].
            -- injection Ek as <-. f_equal. symmetry. apply (Qi obs); auto.
            -- apply B in H. destruct H as (l' & _ & [[_ [[H _]|[H _]]]|(q' & _ & H & _)]); discriminate.
        + split; auto. intros [(_ & q' & obs & I' & Ek & A & Qr)|H]; auto. exfalso. injection Ek as -> ->.
          match type of G with ?t = None => assert (K : t = Some r) end. { apply quantiles_get. exists q'. split; auto. split; auto. apply (Qi obs); auto. } congruence.
      - split; auto. intros [(_ & q' & obs & I' & Ek & A & Qr)|H]; auto. injection Ek as -> -> ->. simpl in Es. discriminate. }
    match type of B' with dget _ ?t _ = _ <-> _ => set (base' := t) in * end.
    eapply iff_trans; [apply add_tally_get|]. rewrite add_tally_get. fold base'. rewrite Ca. split.
    + intros [[Hc H]|[_ [[Hc H]|[_ H]]]].
      * subst cc. simpl in H. destruct H as [[-> ->]|[-> ->]]; [apply sd_count|apply sd_sum]; auto.
      * subst cc. simpl in H. destruct H as [[-> ->]|[-> ->]]; [apply sd_count|apply sd_sum]; auto.
      * apply B' in H. destruct H as [(-> & q & obs & I & -> & A & Qr)|H]. { eapply sd_total; eauto. }
        apply B in H. destruct H as (l & O & [[-> [[-> ->]|[-> ->]]]|(q & I & -> & Qr)]).
        -- apply sd_child_count; auto.
        -- apply sd_child_sum; auto.
        -- apply sd_child; auto.
    + intros D.
      assert (Key : (cc = true /\ ((k = (".count"%string, own, ENone) /\ r = Ok (inject_Z (number h))) \/ (k = (".sum"%string, own, ENone) /\ r = Ok (inject_Z (sum (observed h)))))) \/
                    ((cc = true -> k <> (".count"%string, own, ENone) /\ k <> (".sum"%string, own, ENone)) /\ dget keqb base' k = Some r)).
      { destruct D as [q r U I Qr|q r l O I Qr|l O Hc|l O Hc|q r obs S Ha I A Qr|Hc|Hc].
        - exfalso. eapply not_both; eauto.
        - right. split; [intros _; split; discriminate|]. apply B'. right. apply B. exists l. split; auto. right. exists q. auto.
        - right. split. { intros _. split; [|discriminate]. intros H. injection H as <-. contradiction. } apply B'. right. apply B. exists l. split; auto.
        - right. split. { intros _. split; [discriminate|]. intros H. injection H as <-. contradiction. } apply B'. right. apply B. exists l. split; auto.
        - right. split; [intros _; split; discriminate|]. apply B'. left. split; auto. exists q, obs. auto.
        - left. auto.
        - left. auto. }
      destruct Key as [[Hc H]|[Hn H]].
      * left. split; auto. rewrite Hc. simpl. auto.
      * right. split; auto.
  - apply enabled_false in E. rewrite sleaf_get, Va, Ca by auto.
    assert (Qi : forall q, r = quantile_of (rev (window n (observed h))) q <-> quantile (window n (observed h)) q r).
    { intros q. symmetry. apply quantile_iff. symmetry. apply Permutation_rev. }
    split.
    + intros [[-> [[-> ->]|[-> ->]]]|(q & I & -> & Qr)]; [apply sd_count|apply sd_sum|apply sd_quantile]; auto. apply Qi; auto.
    + intros D. destruct D as [q r U I Qr|q r l O I Qr|l O Hc|l O Hc|q r obs S Ha I A Qr|Hc|Hc]; try (exfalso; try (apply occurs_some in O); eapply not_both; eauto; fail).
      * right. exists q. split; auto. split; auto. apply Qi; auto.
      * left. subst cc. auto.
      * left. subst cc. auto.
Qed.

(** ** clicks *)
Lemma pop_old_filter lim c q : lim < c -> filter (fun v => c <=? v) (pop_old lim q) = filter (fun v => c <=? v) q.
Proof.
  intros L. induction q as [|x q IH]; auto. simpl pop_old. destruct (Z.leb_spec x lim); auto. rewrite IH. simpl. destruct (Z.leb_spec c x); auto. lia.
Qed.
Notation cpsfeed cutoff := (feed (Z * Z) (list Z) [] (fun c q => click cutoff (fst c) (snd c) q)).
Lemma cps_feed cutoff now p os : p <= cutoff -> (forall c, In c os -> fst c < now) ->
  filter (fun v => now - p <=? v) (cpsfeed cutoff os) = map snd (filter (fun c => now - p <=? snd c) os).
Proof.
  intros Pc. induction os as [|[t t'] os IH] using rev_ind; intros H; auto. rewrite feed_snoc. unfold click at 1. cbn [fst snd].
  assert (t < now) by (apply (H (t, t')); apply in_or_app; right; left; auto).
  rewrite pop_old_filter by lia. rewrite !filter_app. rewrite IH by (intros c I; apply H; apply in_or_app; auto).
  rewrite map_app. f_equal. simpl. destruct (now - p <=? t'); auto.
Qed.
Lemma cps_state vs h : let s := cps_run leqb vs h in
  p_enabled s = enabled_by h /\ p_kids s = kids_of (Z * Z) (list Z) [] (fun c q => click (cutoff_of vs) (fst c) (snd c) q) (groups h) /\
  (unlabelled h -> p_own s = cpsfeed (cutoff_of vs) (observed h)).
Proof.
  induction h as [|[[t t'] o] h IH] using rev_ind. { simpl. auto. }
  unfold cps_run in *. rewrite fold_left_app. cbn [fold_left]. simpl in IH. destruct IH as (En & Ki & Va).
  set (s := fold_left (cps_handle leqb (cutoff_of vs)) h (cps_new Lab)) in *.
  rewrite enabled_snoc, groups_snoc, observed_app. cbn [snd observed map fst]. unfold cps_handle. rewrite <- En.
  change (map fst h) with (observed h). rewrite (orb_comm (is_labelled o)).
  destruct (p_enabled s || is_labelled o) eqn:E; cbn [p_own p_enabled p_kids fst snd].
  - split; auto. split; [rewrite Ki; exact (sub_handle_kids _ _ [] (fun c q => click (cutoff_of vs) (fst c) (snd c) q) (groups h) (t, t') o)|].
    intros H. apply unlabelled_snoc in H. destruct H as [H ->]. apply enabled_false in H. simpl in E. rewrite orb_false_r in E. congruence.
  - apply orb_false_iff in E. destruct E as [E F]. split; [rewrite E; auto|].
    destruct o; [discriminate|]. split; [rewrite Ki; auto|]. intros _. rewrite feed_snoc. cbn [fst snd]. rewrite Va by (apply enabled_false; congruence). auto.
Qed.
Lemma cutoff_max vs p : In p (periods_of vs) -> p <= cutoff_of vs.
Proof.
  unfold cutoff_of. assert (G : forall r x, x <= fold_left Z.max r x /\ forall p, In p r -> p <= fold_left Z.max r x).
  { induction r as [|y r IH]; intros x; simpl. { split; [lia|tauto]. } destruct (IH (Z.max x y)) as [A B]. split; [lia|]. intros q [<-|I]; [lia|auto]. }
  destruct (periods_of vs) as [|x r]; simpl; [tauto|]. destruct (G r x) as [A B]. intros [<-|I]; auto.
Qed.
Lemma vectors_get periods now clicks labels k v : dget keqb (count_vectors periods now clicks labels) k = Some v <->
  exists p, In p periods /\ k = (""%string, labels, EPeriod p) /\ v = Z.of_nat (length (filter (fun c => now - p <=? c) clicks)).
Proof.
  unfold count_vectors. induction periods as [|p periods IH]; cbn [map dget]. { split; [discriminate|]. intros (p & [] & _). }
  destruct (keqb_dec (""%string, labels, EPeriod p) k) as [[<- ->]|[N ->]].
  - split; [intros H; injection H as <-; exists p; split; [left; auto|auto]|]. intros (p' & _ & H & ->). injection H as <-. auto.
  - rewrite IH. split; intros (p' & I & -> & ->); exists p'; (split; [|auto]). { right; auto. } destruct I as [<-|I]; auto. contradiction.
Qed.
Lemma observed_with_In {A} l (h : history Lab A) c : In c (observed_with leqb l h) -> exists o, In (c, o) h.
Proof.
  induction h as [|[a [l'|]] h IH]; simpl; [tauto| |].
  - destruct (leqb l' l); [intros [<-|I]|intros I]; [exists (Some l'); auto| |]; destruct (IH I) as (o & J); exists o; auto.
  - intros I. destruct (IH I) as (o & J); exists o; auto.
Qed.
Lemma cps_ok vs ag own now h : (forall t t' o, In ((t, t'), o) h -> t < now) -> forall k v,
  dget keqb (cps_export leqb vs ag own now (cps_run leqb vs h)) k = Some v <-> cps_datum leqb (periods_of vs) ag own now h k v.
Proof.
  intros T k v. destruct (cps_state vs h) as (En & Ki & Va). unfold cps_export. cbv zeta. rewrite En.
  assert (Cw : forall p l, In p (periods_of vs) -> Z.of_nat (length (filter (fun c => now - p <=? c) (cpsfeed (cutoff_of vs) (observed_with leqb l h)))) = at_or_after (now - p) (observed_with leqb l h)).
  { intros p l I. rewrite cps_feed. { rewrite map_length. auto. } { apply cutoff_max; auto. } intros [t t'] J. apply observed_with_In in J. destruct J as (o & J). eapply T; eauto. }
  destruct (enabled_by h) eqn:E.
  - apply enabled_true in E.
    assert (B : dget keqb (sub_export leqb (fun l q => count_vectors (periods_of vs) now q l) (p_kids (cps_run leqb vs h))) k = Some v <->
      exists l p, occurs l h /\ In p (periods_of vs) /\ k = (""%string, l, EPeriod p) /\ v = at_or_after (now - p) (observed_with leqb l h)).
    { rewrite Ki. rewrite sub_export_get.
      - split.
        + intros (l & s & I & H). apply kids_In in I. destruct I as [O ->]. apply vectors_get in H. destruct H as (p & Ip & -> & ->). exists l, p. repeat split; auto.
        + intros (l & p & O & Ip & -> & ->). eexists l, _. split; [apply kids_In; split; [auto|reflexivity]|]. apply vectors_get. exists p. repeat split; auto. symmetry. auto.
      - intros l s k' v' G. apply vectors_get in G. destruct G as (p & _ & -> & _); auto.
      - apply kids_nodup. }
    destruct ag.
    + rewrite get_munion. destruct k as [[s l] e].
      rewrite get_with_total. 2:{ intros k' v' I. unfold count_vectors in I. apply in_map_iff in I. destruct I as (p & H & _). injection H as <- _. auto. }
      assert (Ct : forall p, In p (periods_of vs) -> Z.of_nat (length (filter (fun c => now - p <=? c) (flat_map snd (p_kids (cps_run leqb vs h))))) = at_or_after (now - p) (observed_labelled h)).
      { intros p Ip. rewrite Ki. unfold at_or_after, number. f_equal.
        transitivity (length (filter (fun c => now - p <=? snd c) (flat_map snd (groups h)))).
        - unfold kids_of. assert (W : forall l os, In (l, os) (groups h) -> forall c, In c os -> fst c < now).
          { intros l0 os I [t t'] J. apply groups_In in I. destruct I as [_ ->]. apply observed_with_In in J. destruct J as (o & J). eapply T; eauto. }
          revert W. generalize (groups h). induction d as [|[l0 os] g IH]; intros W; simpl; auto.
          rewrite !filter_app, !app_length. f_equal; [|apply IH; intros; eapply W; [right; eauto|eauto]].
          rewrite cps_feed; [apply map_length|apply cutoff_max; auto|]. intros c I. eapply W; [left; reflexivity|auto].
        - pose proof (groups_flat _ h) as P. clear -P. induction P; simpl; auto.
          + destruct (now - p <=? snd x); simpl; auto.
          + destruct (now - p <=? snd x), (now - p <=? snd y); simpl; auto.
          + congruence. }
      destruct (String.eqb s ".total") eqn:Es.
      * apply String.eqb_eq in Es. subst s. destruct (dget keqb (count_vectors (periods_of vs) now (flat_map snd (p_kids (cps_run leqb vs h))) own) (""%string, l, e)) as [w|] eqn:G.
        -- apply vectors_get in G. destruct G as (p & Ip & Ek & ->). injection Ek as -> ->. rewrite Ct by auto. split.
           ++ intros H; injection H as <-. apply pd_total; auto.
           ++ intros D. inversion D; subst. auto.
        -- rewrite B. split.
           ++ intros (l' & p & _ & _ & H & _). discriminate.
           ++ intros D. inversion D; subst. exfalso. match type of G with ?t = None => assert (K : t = Some (at_or_after (now - p) (observed_labelled h))) end.
              { apply vectors_get. exists p. repeat split; auto. symmetry. auto. } congruence.
      * rewrite B. split.
        -- intros (l' & p & O & Ip & Ek & ->). injection Ek as -> -> ->. apply pd_child; auto.
        -- intros D. inversion D; subst; try (exfalso; eapply not_both; eauto; fail); try (simpl in Es; discriminate Es). exists l, p. auto.
    + rewrite B. split.
      * intros (l' & p & O & Ip & -> & ->). apply pd_child; auto.
      * intros D. inversion D; subst; try (exfalso; eapply not_both; eauto; fail); try discriminate. exists l, p. auto.
  - apply enabled_false in E. rewrite vectors_get, Va by auto.
    assert (Co : forall p, In p (periods_of vs) -> Z.of_nat (length (filter (fun c => now - p <=? c) (cpsfeed (cutoff_of vs) (observed h)))) = at_or_after (now - p) (observed h)).
    { intros p I. rewrite cps_feed. { rewrite map_length. auto. } { apply cutoff_max; auto. } intros [t t'] J. unfold observed in J. apply in_map_iff in J. destruct J as ([c o] & Hc & J). simpl in Hc. subst. eapply T; eauto. }
    split.
    + intros (p & Ip & -> & ->). rewrite Co by auto. apply pd_own; auto.
    + intros D. inversion D; subst; try (exfalso; try (match goal with O : occurs _ _ |- _ => apply occurs_some in O end); eapply not_both; eauto; fail). exists p. repeat split; auto. symmetry. auto.
Qed.

(** ** link failures *)
Lemma zok : eqb_ok Z.eqb. Proof. intros a b. apply Z.eqb_eq. Qed.
Lemma getd_dset_eq {V} (d : dict Z V) dv a v : getd (dset Z.eqb d a v) dv a = v.
Proof. unfold getd. rewrite (dget_dset_eq zok). auto. Qed.
Lemma getd_dset_neq {V} (d : dict Z V) dv a b v : b <> a -> getd (dset Z.eqb d a v) dv b = getd d dv b.
Proof. intros N. unfold getd. rewrite (dget_dset_neq zok) by auto. auto. Qed.
Lemma streak_other b x l : x <> b -> streak b (x :: l) = 0.
Proof. intros N. simpl. destruct x, b; simpl; congruence. Qed.
Section LF.
Variables (to_off to_on : Z) (wa : Lab -> Z -> Lab) (empty own : Lab).
Notation lrun := (linkfail_run leqb to_off to_on wa empty own).
Lemma linkfail_state h : unlabelled h -> let s := lrun h in let nf := rev (observed h) in
  l_enabled s = false /\
  (forall a, getd (successes (l_own s)) 0 a = streak true (outcomes_of a nf)) /\
  (forall a, getd (failures (l_own s)) 0 a = streak false (outcomes_of a nf)) /\
  (forall a, getd (working (l_own s)) true a = online to_off to_on (outcomes_of a nf)) /\
  (forall a, In a (dkeys (successes (l_own s))) <-> seen a nf) /\ NoDup (dkeys (successes (l_own s))) /\
  l_log s = transitions to_off to_on own nf.
Proof.
  induction h as [|[[b a] o] h IH] using rev_ind; intros U.
  - simpl. repeat split; auto; try (intros []); try constructor; try (intros (? & [])); destruct H.
  - apply unlabelled_snoc in U. destruct U as [U ->]. specialize (IH U). cbv zeta in *. unfold linkfail_run in *. rewrite fold_left_app. cbn [fold_left].
    set (s := fold_left (linkfail_handle leqb to_off to_on wa empty own) h (linkfail_new Lab)) in *.
    rewrite observed_app, rev_app_distr. cbn [observed map fst rev app]. change (map fst h) with (observed h).
    set (nf := rev (observed h)) in *. destruct IH as (En & Su & Fa & Wo & Ke & Nd & Lo).
    unfold linkfail_handle. rewrite En. cbn [orb is_labelled].
    assert (Out : forall c, outcomes_of c ((b, a) :: nf) = if a =? c then b :: outcomes_of c nf else outcomes_of c nf) by auto.
    assert (Seen : forall c v, In c (dkeys (dset Z.eqb (successes (l_own s)) a v)) <-> seen c ((b, a) :: nf)).
    { intros c v. rewrite (dset_In_keys zok), Ke. split.
      - intros [->|(b' & I)]; [exists b; left; auto|exists b'; right; auto].
      - intros (b' & [H|I]); [injection H as -> ->; auto|right; exists b'; auto]. }
    cbn [l_own l_enabled l_log]. split; auto. unfold lleaf_handle. rewrite Su, Fa, Wo. destruct b; cbn [fst snd working failures successes].
    + assert (St : streak true (outcomes_of a nf) + 1 = streak true (true :: outcomes_of a nf)) by (cbn [streak Bool.eqb]; lia).
      split; [|split; [|split; [|split; [|split]]]].
      * intros c. rewrite Out. destruct (Z.eqb_spec a c) as [<-|N]; [rewrite getd_dset_eq; auto|rewrite getd_dset_neq by congruence; auto].
      * intros c. rewrite Out. destruct (Z.eqb_spec a c) as [<-|N]; [rewrite getd_dset_eq, streak_other by discriminate; auto|rewrite getd_dset_neq by congruence; auto].
      * intros c. rewrite Out, St. destruct (Z.eqb_spec a c) as [<-|N].
        -- cbn [online]. destruct (online to_off to_on (outcomes_of a nf)) eqn:On; cbn [negb andb]. { rewrite Wo, On. auto. }
           destruct (streak true (true :: outcomes_of a nf) =? to_on); [apply getd_dset_eq|rewrite Wo; auto].
        -- destruct (negb (online to_off to_on (outcomes_of a nf)) && (streak true (true :: outcomes_of a nf) =? to_on)); [rewrite getd_dset_neq by congruence|]; auto.
      * intros c. apply Seen.
      * apply (dset_wf zok). exact Nd.
      * cbn [transitions]. rewrite <- Lo. f_equal. rewrite Out, Z.eqb_refl, St. cbn [online]. destruct (online to_off to_on (outcomes_of a nf)); cbn [negb andb Bool.eqb]; auto.
        destruct (streak true (true :: outcomes_of a nf) =? to_on); auto.
    + assert (St : streak false (outcomes_of a nf) + 1 = streak false (false :: outcomes_of a nf)) by (cbn [streak Bool.eqb]; lia).
      split; [|split; [|split; [|split; [|split]]]].
      * intros c. rewrite Out. destruct (Z.eqb_spec a c) as [<-|N]; [rewrite getd_dset_eq, streak_other by discriminate; auto|rewrite getd_dset_neq by congruence; auto].
      * intros c. rewrite Out. destruct (Z.eqb_spec a c) as [<-|N]; [rewrite getd_dset_eq; auto|rewrite getd_dset_neq by congruence; auto].
      * intros c. rewrite Out, St. destruct (Z.eqb_spec a c) as [<-|N].
        -- cbn [online]. destruct (online to_off to_on (outcomes_of a nf)) eqn:On; cbn [negb andb]. 2:{ rewrite Wo, On. auto. }
           destruct (streak false (false :: outcomes_of a nf) =? to_off); [apply getd_dset_eq|rewrite Wo; auto].
        -- destruct (online to_off to_on (outcomes_of a nf) && (streak false (false :: outcomes_of a nf) =? to_off)); [rewrite getd_dset_neq by congruence|]; auto.
      * intros c. apply Seen.
      * apply (dset_wf zok). exact Nd.
      * cbn [transitions]. rewrite <- Lo. f_equal. rewrite Out, Z.eqb_refl, St. cbn [online]. destruct (online to_off to_on (outcomes_of a nf)); cbn [negb andb Bool.eqb]; auto.
        destruct (streak false (false :: outcomes_of a nf) =? to_off); auto.
Qed.
Section Fold.
Variables (e : Z -> extra) (F G W : Z -> Z).
Definition ldatum (a : Z) (k : mkey Lab) (v : Z) : Prop :=
  (k = (".consecutive_failures"%string, own, e a) /\ v = F a) \/ (k = (".consecutive_successes"%string, own, e a) /\ v = G a) \/ (k = (".status"%string, own, ENone) /\ v = W a).
Definition lstep (mdc : coll Lab Z) (a : Z) : coll Lab Z :=
  madd leqb (madd leqb (madd leqb mdc (".consecutive_failures"%string, own, e a) (F a)) (".consecutive_successes"%string, own, e a) (G a)) (".status"%string, own, ENone) (W a).
Lemma lstep_get mdc a k v : dget keqb (lstep mdc a) k = Some v <-> ldatum a k v \/ ((forall w, ~ ldatum a k w) /\ dget keqb mdc k = Some v).
Proof.
  unfold lstep, ldatum. rewrite !get_madd.
  destruct (keqb_dec (".status"%string, own, ENone) k) as [[<- ->]|[N1 ->]].
  { split; [intros H; injection H as <-; auto|]. intros [[[H _]|[[H _]|[_ ->]]]|[H _]]; try discriminate; auto. exfalso. apply (H (W a)). auto. }
  destruct (keqb_dec (".consecutive_successes"%string, own, e a) k) as [[<- ->]|[N2 ->]].
  { split; [intros H; injection H as <-; auto|]. intros [[[H _]|[[_ ->]|[H _]]]|[H _]]; try discriminate; auto. exfalso. apply (H (G a)). auto. }
  destruct (keqb_dec (".consecutive_failures"%string, own, e a) k) as [[<- ->]|[N3 ->]].
  { split; [intros H; injection H as <-; auto|]. intros [[[_ ->]|[[H _]|[H _]]]|[H _]]; try discriminate; auto. exfalso. apply (H (F a)). auto. }
  split.
  - intros H. right. split; auto. intros w [[-> _]|[[-> _]|[-> _]]]; contradiction.
  - intros [[[-> _]|[[-> _]|[-> _]]]|[_ H]]; auto; contradiction.
Qed.
Lemma lfold_sound l k v : dget keqb (fold_left lstep l []) k = Some v -> exists a, In a l /\ ldatum a k v.
Proof.
  induction l as [|a l IH] using rev_ind; [discriminate|]. rewrite fold_left_app. cbn [fold_left]. rewrite lstep_get. intros [H|[_ H]].
  - exists a. split; auto. apply in_or_app. right; left; auto.
  - destruct (IH H) as (a' & I & D). exists a'. split; auto. apply in_or_app; auto.
Qed.
Lemma ldatum_dec a k : (exists w, ldatum a k w) \/ forall w, ~ ldatum a k w.
Proof.
  unfold ldatum. destruct (keqb_dec (".status"%string, own, ENone) k) as [[<- _]|[N1 _]]; [left; exists (W a); auto|].
  destruct (keqb_dec (".consecutive_successes"%string, own, e a) k) as [[<- _]|[N2 _]]; [left; exists (G a); auto|].
  destruct (keqb_dec (".consecutive_failures"%string, own, e a) k) as [[<- _]|[N3 _]]; [left; exists (F a); auto|].
  right. intros w [[-> _]|[[-> _]|[-> _]]]; contradiction.
Qed.
Lemma lfold_complete k v : forall l a, In a l -> ldatum a k v -> (forall a' w, In a' l -> ldatum a' k w -> w = v) -> dget keqb (fold_left lstep l []) k = Some v.
Proof.
  induction l as [|x l IH] using rev_ind; intros a I D Fu; [destruct I|]. rewrite fold_left_app. cbn [fold_left]. apply lstep_get.
  destruct (ldatum_dec x k) as [(w & Dx)|N].
  - left. assert (w = v) by (eapply Fu; [apply in_or_app; right; left; reflexivity|auto]). subst; auto.
  - right. split; auto. apply in_app_or in I. destruct I as [I|[<-|[]]]; [|exfalso; eapply N; eauto]. eapply IH; eauto. intros a' w' I'. apply Fu. apply in_or_app; auto.
Qed.
End Fold.
Lemma zero_only keys : NoDup keys -> keys <> [] -> is_zero_only keys = true <-> forall a, In a keys -> a = 0.
Proof.
  intros Nd Ne. destruct keys as [|x [|y r]]; [congruence| |].
  - split; [intros H a [<-|[]]|intros H]; [destruct x; simpl in H; congruence|]. rewrite (H x) by (left; auto). auto.
  - split; [destruct x; discriminate|]. intros H. exfalso. rewrite (H x), (H y) in Nd by (simpl; auto). inversion Nd as [|? ? NI ?]; subst. apply NI. left; auto.
Qed.
Lemma linkfail_ok order h : (forall l, Permutation (order l) l) -> unlabelled h ->
  (forall k v, fst (fst k) <> ".status"%string ->
    (dget keqb (linkfail_export leqb order own (lrun h)) k = Some v <-> linkfail_datum own (rev (observed h)) k v)) /\
  (forall a, seen a (rev (observed h)) -> (forall a', seen a' (rev (observed h)) -> a' = a) ->
    dget keqb (linkfail_export leqb order own (lrun h)) (name_of ".status" own ENone) = Some (if online to_off to_on (outcomes_of a (rev (observed h))) then 1 else 0)).
Proof.
  intros Po U. destruct (linkfail_state h U) as (En & Su & Fa & Wo & Ke & Nd & _). cbv zeta in *. set (nf := rev (observed h)) in *. set (s := lrun h) in *.
  unfold linkfail_export. set (keys := dkeys (successes (l_own s))) in *.
  set (e := fun a => if is_zero_only keys then ENone else EAddress a).
  set (F := fun a => getd (failures (l_own s)) 0 a). set (G := fun a => getd (successes (l_own s)) 0 a).
  set (W := fun a => if getd (working (l_own s)) true a then 1 else 0).
  change (fun mdc a => _) with (lstep e F G W).
  assert (Ko : forall a, In a (order keys) <-> seen a nf) by (intros a; rewrite (Po keys); apply Ke).
  assert (Ne : forall a, seen a nf -> keys <> []) by (intros a Sa Ek; apply Ke in Sa; fold keys in Sa; rewrite Ek in Sa; destruct Sa).
  assert (Sh : forall a x, seen a nf -> shown nf a x <-> x = e a).
  { intros a x Sa. unfold e. destruct (is_zero_only keys) eqn:Z0.
    - pose proof (proj1 (zero_only keys Nd (Ne a Sa)) Z0) as Z2. clear Z0. rename Z2 into Z0. split.
      + intros H. destruct H as [_|a' Sa' N]; auto. exfalso. apply N. apply Z0. apply Ke. auto.
      + intros ->. apply shown_only. intros a' Sa'. apply Z0. apply Ke. auto.
    - assert (Z1 : ~ forall a, In a keys -> a = 0) by (intros H; apply (zero_only keys Nd (Ne a Sa)) in H; congruence). split.
      + intros H. destruct H as [H|a' Sa' N]; auto. exfalso. apply Z1. intros a' I. apply H. apply Ke. auto.
      + intros ->.
        assert (X : exists a', In a' keys /\ a' <> 0).
        { clear -Z1. induction keys as [|y r IH]; [exfalso; apply Z1; intros a []|]. destruct (Z.eq_dec y 0) as [->|N]; [|exists y; split; [left; auto|auto]].
          destruct IH as (a' & I & N). { intros H. apply Z1. intros a [<-|I]; auto. } exists a'. split; [right; auto|auto]. }
        destruct X as (a' & I & N). apply shown_many with (a' := a'); auto. apply Ke. auto. }
  assert (Inj : forall a a', In a keys -> In a' keys -> e a = e a' -> a = a').
  { intros a a' I I'. unfold e. destruct (is_zero_only keys) eqn:Z0.
    - intros _. assert (Nk : keys <> []) by (intros Ek; rewrite Ek in I; destruct I). pose proof (proj1 (zero_only keys Nd Nk) Z0) as Z2. rewrite (Z2 a), (Z2 a'); auto.
    - intros H. injection H as <-. auto. }
  split.
  - intros k v Ns. split.
    + intros H. apply lfold_sound in H. destruct H as (a & I & [[-> ->]|[[-> ->]|[-> _]]]); [| |simpl in Ns; congruence].
      * unfold F. rewrite Fa. apply ld_failures; [apply Ko; auto|]. apply Sh; auto. apply Ko; auto.
      * unfold G. rewrite Su. apply ld_successes; [apply Ko; auto|]. apply Sh; auto. apply Ko; auto.
    + intros D. destruct D as [a x Sa Hx|a x Sa Hx]; apply Sh in Hx; auto; subst x.
      * apply lfold_complete with (a := a); [apply Ko; auto|left; split; [reflexivity|unfold F; rewrite Fa; auto]|].
        intros a' w I' [[H ->]|[[H _]|[H _]]]; try discriminate. injection H as H. assert (a = a') by (apply Inj; auto; apply Ke; auto; apply Ko; auto). subst. unfold F. rewrite Fa. auto.
      * apply lfold_complete with (a := a); [apply Ko; auto|right; left; split; [reflexivity|unfold G; rewrite Su; auto]|].
        intros a' w I' [[H _]|[[H ->]|[H _]]]; try discriminate. injection H as H. assert (a = a') by (apply Inj; auto; apply Ke; auto; apply Ko; auto). subst. unfold G. rewrite Su. auto.
  - intros a Sa On. apply lfold_complete with (a := a); [apply Ko; auto|right; right; split; [reflexivity|unfold W; rewrite Wo; auto]|].
    intros a' w I' [[H _]|[[H _]|[_ ->]]]; try discriminate. unfold W. rewrite (On a') by (apply Ko; auto). rewrite Wo. auto.
Qed.
Lemma linkfail_callbacks h : unlabelled h -> l_log (lrun h) = transitions to_off to_on own (rev (observed h)).
Proof. intros U. apply (linkfail_state h U). Qed.
End LF.
End MP.
