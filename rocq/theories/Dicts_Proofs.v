(** Proofs about the small dictionaries. *)
From Coq Require Import List Bool Arith ZArith Lia Permutation.
From Verif Require Import Prelude PreludeFacts MoreFacts Dicts_Model Dicts_Spec.
Import ListNotations.
Open Scope nat_scope.

Lemma run_snoc : forall {S O} (f : S -> O -> S) l o s, fold_left f (l ++ [o]) s = f (fold_left f l s) o.
Proof. intros. rewrite fold_left_app. reflexivity. Qed.

Section Counting.
  Context {K : Type} (eqb : K -> K -> bool) (ok : eqb_ok eqb).

  Lemma count_get : forall d e n k, dget eqb (cd_count eqb d e n) k = if eqb k e then Some (match dget eqb d k with Some m => m | None => 0 end + n)%Z else dget eqb d k.
  Proof.
    intros d e n k. unfold cd_count, dmem. destruct (eqb k e) eqn:E.
    - apply ok in E. subst k. destruct (dget eqb d e); cbn; rewrite (dget_dset_eq ok); reflexivity.
    - assert (k <> e) by (intros ->; rewrite (eqb_refl' ok) in E; discriminate).
      destruct (dget eqb d e); cbn; rewrite (dget_dset_neq ok) by auto; reflexivity.
  Qed.
  Lemma count_wf : forall d e n, dwf d -> dwf (cd_count eqb d e n).
  Proof. intros. unfold cd_count. destruct (negb _); apply (dset_wf ok); auto. Qed.

  Lemma counting : forall ops, dwf (cd_run eqb [] ops) /\ forall k, dget eqb (cd_run eqb [] ops) k = counted eqb ops k.
  Proof.
    induction ops as [|o ops [W IH]] using rev_ind.
    - split; [constructor|reflexivity].
    - unfold cd_run, counted in *. setoid_rewrite run_snoc. destruct o as [e n|].
      + split; [apply count_wf; auto|]. intros k. cbn. rewrite count_get, IH. reflexivity.
      + split; [constructor|reflexivity].
  Qed.

  Lemma counting_get : forall ops k, cd_getitem eqb (cd_run eqb [] ops) k = match counted eqb ops k with Some n => Ok n | None => Err KeyError end.
  Proof. intros ops k. unfold cd_getitem. rewrite (proj2 (counting ops)). reflexivity. Qed.
  Lemma counting_keys : forall ops, NoDup (dkeys (cd_run eqb [] ops)) /\ forall k, In k (dkeys (cd_run eqb [] ops)) <-> counted eqb ops k <> None.
  Proof.
    intros ops. destruct (counting ops) as [W G]. split; [exact W|]. intros k. rewrite <- G. destruct (dget eqb _ k) eqn:E.
    - split; [discriminate|]. intros _. eapply (dget_Some_key ok); eauto.
    - apply (dget_None ok) in E. split; [tauto|congruence].
  Qed.
  Lemma counting_new : forall l k, cd_getitem eqb (cd_new eqb l) k = if existsb (eqb k) l then Ok (Z.of_nat (length (filter (eqb k) l))) else Err KeyError.
  Proof.
    intros l k. unfold cd_getitem, cd_new.
    assert (H : dget eqb (fold_left (fun d e => cd_count eqb d e 1) l []) k = if existsb (eqb k) l then Some (Z.of_nat (length (filter (eqb k) l))) else None).
    { induction l as [|e l IH] using rev_ind; [reflexivity|]. rewrite run_snoc, count_get, IH, existsb_app, filter_app, app_length. cbn [existsb filter].
      destruct (eqb k e) eqn:E.
      - rewrite orb_true_r. cbn [length]. destruct (existsb (eqb k) l) eqn:X; [f_equal; lia|].
        assert (F : filter (eqb k) l = []).
        { clear -X. induction l as [|x l IH]; cbn in *; auto. apply orb_false_iff in X. destruct X as [-> X]. auto. }
        rewrite F. reflexivity.
      - rewrite !orb_false_r, Nat.add_0_r. reflexivity. }
    rewrite H. destruct (existsb _ _); reflexivity.
  Qed.
End Counting.

Section Default.
  Context {K V : Type} (eqb : K -> K -> bool) (ok : eqb_ok eqb).
  Lemma default_no_store : forall ops (d : dict K V), df_run eqb d ops = df_run eqb d (filter writes ops).
  Proof. unfold df_run. induction ops as [|[k|k v|k] t IH]; intros d; cbn; auto. Qed.
  Lemma default_get : forall factory (d : dict K V) k,
    (forall v, dget eqb d k = Some v -> df_getitem eqb factory d k = Ok v) /\
    (dget eqb d k = None -> df_getitem eqb factory d k = match factory with Some r => r | None => Err TypeError end).
  Proof. intros factory d k. unfold df_getitem, dmem. destruct (dget eqb d k); split; intros; cbn; congruence. Qed.
End Default.

Section SelfCleaning.
  Context {K C : Type} (eqb : K -> K -> bool) (ok : eqb_ok eqb) (ceq : C -> C -> bool) (cok : eqb_ok ceq) (c0 : C) (background : bool).
  Notation cont := (content c0).
  Notation scd := (scd K C).

  Definition val (s : scd) (k : K) : C := match dget eqb (sd_data s) k with Some r => cont s r | None => c0 end.
  Definition inv (s : scd) : Prop := dwf (sd_data s) /\ forall k r, dget eqb (sd_data s) k = Some r -> r < length (sd_store s).

  Lemma content_app : forall (s : scd) (d : dict K nat) c r, r < length (sd_store s) -> cont {| sd_data := d; sd_store := sd_store s ++ [c] |} r = cont s r.
  Proof. intros. unfold content. cbn. apply app_nth1. auto. Qed.
  Lemma content_new : forall (s : scd) (d : dict K nat) c, cont {| sd_data := d; sd_store := sd_store s ++ [c] |} (length (sd_store s)) = c.
  Proof. intros. unfold content. cbn. rewrite app_nth2, Nat.sub_diag by lia. reflexivity. Qed.

  Lemma del_inv : forall s k, inv s -> inv (with_data s (ddel eqb (sd_data s) k)).
  Proof.
    intros s k [W R]. split; cbn; [apply ddel_wf; auto|]. intros k' r G. destruct (eqb_dec ok k' k) as [->|N].
    - rewrite (dget_ddel_eq ok _ W) in G. discriminate.
    - rewrite (dget_ddel_neq ok) in G by auto. eauto.
  Qed.
  Lemma del_val : forall s k k', inv s -> val (with_data s (ddel eqb (sd_data s) k)) k' = if eqb k' k then c0 else val s k'.
  Proof.
    intros s k k' [W R]. unfold val. cbn. destruct (eqb k' k) eqn:E.
    - apply ok in E. subst. rewrite (dget_ddel_eq ok _ W). reflexivity.
    - rewrite (dget_ddel_neq ok); [reflexivity|]. intros ->. rewrite (eqb_refl' ok) in E. discriminate.
  Qed.

  Lemma cleanup_loop : forall (s : scd) l d, dwf d ->
    let d' := fold_left (fun d key => match dget eqb d key with Some r => if is_default ceq c0 s r then ddel eqb d key else d | None => d end) l d in
    dwf d' /\ forall k, dget eqb d' k = match dget eqb d k with Some r => if memb eqb k l && is_default ceq c0 s r then None else Some r | None => None end.
  Proof.
    intros s. induction l as [|x l IH]; intros d W; cbn [fold_left].
    - split; [exact W|]. intros k. cbn. destruct (dget eqb d k); reflexivity.
    - destruct (dget eqb d x) as [r|] eqn:G.
      + destruct (is_default ceq c0 s r) eqn:D.
        * destruct (IH (ddel eqb d x) (ddel_wf eqb x W)) as [W' H]. split; [exact W'|]. intros k. rewrite H. cbn [memb].
          destruct (eqb x k) eqn:E.
          -- apply ok in E. subst. rewrite (dget_ddel_eq ok _ W), G. cbn. rewrite D. reflexivity.
          -- rewrite (dget_ddel_neq ok) by (intros ->; rewrite (eqb_refl' ok) in E; discriminate). reflexivity.
        * destruct (IH d W) as [W' H]. split; [exact W'|]. intros k. rewrite H. cbn [memb]. destruct (eqb x k) eqn:E; [|reflexivity].
          apply ok in E. subst. rewrite G, D, !andb_false_r. reflexivity.
      + destruct (IH d W) as [W' H]. split; [exact W'|]. intros k. rewrite H. cbn [memb]. destruct (eqb x k) eqn:E; [|reflexivity].
        apply ok in E. subst. rewrite G. reflexivity.
  Qed.
  Lemma cleanup_get : forall (s : scd), dwf (sd_data s) ->
    dwf (sd_data (sd_cleanup eqb ceq c0 s)) /\
    forall k, dget eqb (sd_data (sd_cleanup eqb ceq c0 s)) k = match dget eqb (sd_data s) k with Some r => if is_default ceq c0 s r then None else Some r | None => None end.
  Proof.
    intros s W. destruct (cleanup_loop s (dkeys (sd_data s)) (sd_data s) W) as [W' H]. split; [exact W'|].
    intros k. unfold sd_cleanup. cbn [sd_data with_data]. rewrite H. destruct (dget eqb (sd_data s) k) as [r|] eqn:G; [|reflexivity].
    rewrite (proj2 (memb_In ok k (dkeys (sd_data s)))); [reflexivity|]. eapply (dget_Some_key ok); eauto.
  Qed.
  Lemma cleanup_keeps : forall s, inv s -> inv (sd_cleanup eqb ceq c0 s) /\ (forall k, val (sd_cleanup eqb ceq c0 s) k = val s k).
  Proof.
    intros s [W R]. destruct (cleanup_get s W) as [W' G]. split.
    - split; [exact W'|]. intros k r. rewrite G. destruct (dget eqb (sd_data s) k) as [r'|] eqn:E; [|discriminate].
      destruct (is_default ceq c0 s r'); [discriminate|]. intros X. inversion X; subst. cbn. eauto.
    - intros k. unfold val. rewrite G. destruct (dget eqb (sd_data s) k) as [r|] eqn:E; [|reflexivity].
      destruct (is_default ceq c0 s r) eqn:D; [|reflexivity]. apply cok in D. symmetry. exact D.
  Qed.

  Lemma getitem_keeps : forall s k, inv s ->
    let '(s', r) := sd_getitem eqb ceq c0 background s k in inv s' /\ (forall k', val s' k' = val s k') /\ cont s' r = val s k.
  Proof.
    intros s k IV. pose proof IV as [W R]. unfold sd_getitem. destruct (dget eqb (sd_data s) k) as [r|] eqn:G.
    - destruct (is_default ceq c0 s r) eqn:D.
      + split; [apply del_inv; auto|]. split.
        * intros k'. rewrite del_val by auto. destruct (eqb k' k) eqn:E; [|reflexivity]. apply ok in E. subst. unfold val. rewrite G. apply cok in D. symmetry. exact D.
        * unfold val. rewrite G. reflexivity.
      + split; [exact IV|]. split; [reflexivity|]. unfold val. rewrite G. reflexivity.
    - split; [|split].
      + split; cbn.
        * destruct (negb background); [apply (dset_wf ok); auto|auto].
        * intros k' r' G'. rewrite app_length. cbn. destruct (negb background).
          -- destruct (eqb_dec ok k' k) as [->|N]; [rewrite (dget_dset_eq ok) in G'; inversion G'; lia|]. rewrite (dget_dset_neq ok) in G' by auto. apply R in G'. lia.
          -- apply R in G'. lia.
      + intros k'. unfold val. cbn [sd_data]. destruct (negb background).
        * destruct (eqb_dec ok k' k) as [->|N].
          -- rewrite (dget_dset_eq ok), content_new, G. reflexivity.
          -- rewrite (dget_dset_neq ok) by auto. destruct (dget eqb (sd_data s) k') eqn:G'; [apply content_app; eauto|reflexivity].
        * destruct (dget eqb (sd_data s) k') eqn:G'; [apply content_app; eauto|reflexivity].
      + rewrite content_new. unfold val. rewrite G. reflexivity.
  Qed.

  Lemma delitem_keeps : forall s k, inv s -> inv (sd_delitem eqb s k) /\ forall k', val (sd_delitem eqb s k) k' = if eqb k' k then c0 else val s k'.
  Proof.
    intros s k IV. unfold sd_delitem, del_check, del_do. destruct (dmem eqb (sd_data s) k) eqn:M.
    - split; [apply del_inv; auto|]. intros. apply del_val. auto.
    - split; [exact IV|]. intros k'. destruct (eqb k' k) eqn:E; [|reflexivity]. apply ok in E. subst. unfold val. unfold dmem in M. destruct (dget _ _ _); [discriminate|reflexivity].
  Qed.

  Lemma setitem_keeps : forall s k c, inv s -> inv (sd_setitem eqb ceq c0 s k c) /\ forall k', val (sd_setitem eqb ceq c0 s k c) k' = if eqb k' k then c else val s k'.
  Proof.
    intros s k c IV. pose proof IV as [W R]. unfold sd_setitem. set (s1 := {| sd_data := sd_data s; sd_store := sd_store s ++ [c] |}).
    assert (D : is_default ceq c0 s1 (length (sd_store s)) = ceq c c0) by (unfold is_default, s1; rewrite content_new; reflexivity).
    rewrite D. destruct (ceq c c0) eqn:E; cbn [negb].
    - apply cok in E. subst c. assert (I1 : inv s1). { split; [exact W|]. intros k' r G. cbn. rewrite app_length. apply R in G. cbn. lia. }
      assert (V1 : forall k', val s1 k' = val s k'). { intros k'. unfold val, s1. cbn [sd_data]. destruct (dget eqb (sd_data s) k') eqn:G; [apply content_app; eauto|reflexivity]. }
      destruct (dmem eqb (sd_data s) k) eqn:M.
      + split; [apply (del_inv s1 k I1)|]. intros k'. etransitivity; [exact (del_val s1 k k' I1)|]. rewrite V1. reflexivity.
      + split; [exact I1|]. intros k'. change (with_data s1 (sd_data s)) with s1. rewrite V1. destruct (eqb k' k) eqn:E; [|reflexivity]. apply ok in E. subst.
        unfold val. unfold dmem in M. destruct (dget _ _ _); [discriminate|reflexivity].
    - assert (X : (if dmem eqb (sd_data s) k then sd_data s else sd_data s) = sd_data s) by (destruct (dmem _ _ _); reflexivity). rewrite X. split.
      + split; cbn; [apply (dset_wf ok); auto|]. intros k' r G. rewrite app_length. cbn. destruct (eqb_dec ok k' k) as [->|N].
        * rewrite (dget_dset_eq ok) in G. inversion G. lia.
        * rewrite (dget_dset_neq ok) in G by auto. apply R in G. lia.
      + intros k'. unfold val. cbn [sd_data with_data]. destruct (eqb k' k) eqn:EK.
        * apply ok in EK. subst. rewrite (dget_dset_eq ok). apply content_new.
        * rewrite (dget_dset_neq ok) by (intros ->; rewrite (eqb_refl' ok) in EK; discriminate).
          destruct (dget eqb (sd_data s) k') eqn:G; [apply content_app; eauto|reflexivity].
  Qed.

  Lemma fill_inv : forall l s, inv s -> inv (sd_fill eqb l s) /\ forall k, val (sd_fill eqb l s) k = fold_left (fun v kc => if eqb k (fst kc) then snd kc else v) l (val s k).
  Proof.
    induction l as [|[k c] t IH]; intros s IV; cbn [sd_fill fold_left].
    - split; [exact IV|reflexivity].
    - pose proof IV as [W R]. destruct (IH {| sd_data := dset eqb (sd_data s) k (length (sd_store s)); sd_store := sd_store s ++ [c] |}) as [I2 V2].
      + split; cbn; [apply (dset_wf ok); auto|]. intros k' r G. rewrite app_length. cbn. destruct (eqb_dec ok k' k) as [->|N].
        * rewrite (dget_dset_eq ok) in G. inversion G. lia.
        * rewrite (dget_dset_neq ok) in G by auto. apply R in G. lia.
      + split; [exact I2|]. intros k'. rewrite V2. f_equal. unfold val. cbn [sd_data fst snd]. destruct (eqb k' k) eqn:EK.
        * apply ok in EK. subst. rewrite (dget_dset_eq ok). apply content_new.
        * rewrite (dget_dset_neq ok) by (intros ->; rewrite (eqb_refl' ok) in EK; discriminate).
          destruct (dget eqb (sd_data s) k') eqn:G; [apply content_app; eauto|reflexivity].
  Qed.

  Notation run := (sd_run eqb ceq c0 background).
  Notation step := (sd_step eqb ceq c0 background).

  Lemma run_inv : forall l ops, no_mutation ops -> inv (run (sd_new eqb l) ops) /\
    forall k, val (run (sd_new eqb l) ops) k = value_after eqb c0 (initial_value eqb c0 l k) ops k.
  Proof.
    intros l ops. induction ops as [|o ops IH] using rev_ind; intros NM.
    - destruct (fill_inv l {| sd_data := []; sd_store := [] |}) as [I V]; [split; [constructor|discriminate]|]. split; [exact I|]. intros k. cbn. unfold sd_new. rewrite V. reflexivity.
    - destruct IH as [IV V]; [intros r c X; apply (NM r c); apply in_or_app; auto|].
      unfold sd_run, value_after in *. setoid_rewrite run_snoc. set (s := fold_left _ ops _) in *.
      assert (GET : forall k, let '(s', r) := sd_getitem eqb ceq c0 background s k in inv s' /\ (forall k', val s' k' = val s k') /\ cont s' r = val s k) by (intros; apply getitem_keeps; auto).
      destruct (cleanup_keeps s IV) as [CI CV].
      destruct o as [k|k c|k| | |k|k d|k d|k| | |r c]; cbn [sd_step].
      + specialize (GET k). destruct (sd_getitem eqb ceq c0 background s k) as [s' r]. destruct GET as (A & B & _). split; [exact A|]. intros. cbn [fst]. rewrite B. apply V.
      + destruct (setitem_keeps s k c IV) as [A B]. split; [exact A|]. intros k'. cbn [fst]. rewrite B, V. reflexivity.
      + destruct (delitem_keeps s k IV) as [A B]. split; [exact A|]. intros k'. cbn [fst]. rewrite B, V. reflexivity.
      + split; [exact CI|]. intros. cbn [fst]. rewrite CV. apply V.
      + split; [exact CI|]. intros. cbn [fst]. rewrite CV. apply V.
      + specialize (GET k). destruct (sd_getitem eqb ceq c0 background s k) as [s' r]. destruct GET as (A & B & _). split; [exact A|]. intros. cbn [fst]. rewrite B. apply V.
      + specialize (GET k). destruct (sd_getitem eqb ceq c0 background s k) as [s' r]. destruct GET as (A & B & _). split; [exact A|]. intros. cbn [fst]. rewrite B. apply V.
      + specialize (GET k). destruct (sd_getitem eqb ceq c0 background s k) as [s' r]. destruct GET as (A & B & _). split; [exact A|]. intros. cbn [fst]. rewrite B. apply V.
      + specialize (GET k). destruct (sd_getitem eqb ceq c0 background s k) as [s' r]. destruct GET as (A & B & _). cbn [fst].
        destruct (delitem_keeps s' k A) as [A2 B2]. split; [exact A2|]. intros k'. rewrite B2, B, V. reflexivity.
      + split; [exact CI|]. intros. cbn [fst]. rewrite CV. apply V.
      + split; [exact CI|]. intros. cbn [fst]. rewrite CV. apply V.
      + exfalso. apply (NM r c). apply in_or_app. right. left. reflexivity.
  Qed.

  Lemma values : forall l ops k, no_mutation ops ->
    (exists r, snd (step (run (sd_new eqb l) ops) (SGet k)) = SOVal r (value_after eqb c0 (initial_value eqb c0 l k) ops k)) /\
    (exists r, snd (step (run (sd_new eqb l) ops) (SPop k)) = SOVal r (value_after eqb c0 (initial_value eqb c0 l k) ops k)).
  Proof.
    intros l ops k NM. destruct (run_inv l ops NM) as [IV V]. set (s := run (sd_new eqb l) ops) in *. pose proof (getitem_keeps s k IV) as G.
    cbn [sd_step]. destruct (sd_getitem eqb ceq c0 background s k) as [s' r]. destruct G as (_ & _ & E). cbn. rewrite E, V. eauto.
  Qed.

  Lemma len : forall l ops, no_mutation ops -> exists keys, NoDup keys /\
    (forall k, In k keys <-> value_after eqb c0 (initial_value eqb c0 l k) ops k <> c0) /\
    snd (step (run (sd_new eqb l) ops) SLen) = SONat (length keys).
  Proof.
    intros l ops NM. destruct (run_inv l ops NM) as [IV V]. set (s := run (sd_new eqb l) ops) in *. pose proof IV as [W R]. destruct (cleanup_get s W) as [W' G].
    exists (dkeys (sd_data (sd_cleanup eqb ceq c0 s))). split; [exact W'|]. split.
    - intros k. rewrite <- V. unfold val. specialize (G k). destruct (dget eqb (sd_data s) k) as [r|] eqn:E.
      + destruct (is_default ceq c0 s r) eqn:D.
        * apply (dget_None ok) in G. apply cok in D. split; [tauto|congruence].
        * split; [|intros _; eapply (dget_Some_key ok); eauto]. intros _ X. unfold is_default in D. rewrite X, (eqb_refl' cok) in D. discriminate.
      + apply (dget_None ok) in G. split; [tauto|congruence].
    - cbn. unfold dkeys. rewrite map_length. reflexivity.
  Qed.

  Lemma iteration_empty : forall s : scd, snd (step s SIter) = SOKeys [].
  Proof. reflexivity. Qed.
  Lemma in_always : forall (s : scd) k, snd (step s (SIn k)) = SOBool true.
  Proof. intros. cbn. destruct (sd_getitem _ _ _ _ _ _). reflexivity. Qed.
  Lemma clear_nothing : forall l ops k, no_mutation ops -> exists r, snd (step (run (sd_new eqb l) (ops ++ [SClear])) (SGet k)) = SOVal r (value_after eqb c0 (initial_value eqb c0 l k) ops k).
  Proof.
    intros l ops k NM. destruct (proj1 (values l (ops ++ [SClear]) k ltac:(intros r c X; apply in_app_or in X; destruct X as [X|[X|[]]]; [apply (NM r c X)|discriminate]))) as [r E].
    exists r. rewrite E. f_equal. unfold value_after. rewrite run_snoc. reflexivity.
  Qed.
End SelfCleaning.

(** ** The thread *)
Lemma eedt_loop_ok : forall dead raises l, (forall d, raises d = false) ->
  eedt_loop dead raises l = (filter (fun d => negb (memb Nat.eqb d dead)) l, Some (filter (fun d => negb (memb Nat.eqb d dead)) l)).
Proof.
  intros dead raises l R. induction l as [|d t IH]; cbn; [reflexivity|]. destruct (memb Nat.eqb d dead); cbn; [exact IH|]. rewrite R, IH. reflexivity.
Qed.
Definition alive (es : list eedt_event) (d : nat) : bool := negb (existsb (fun e => match e with Collect x => Nat.eqb d x | _ => false end) es).
Lemma alive_gone : forall es d, alive es d = true <-> ~ gone es d.
Proof.
  intros es d. unfold alive, gone. rewrite negb_true_iff. split.
  - intros H I. assert (existsb (fun e => match e with Collect x => Nat.eqb d x | _ => false end) es = true); [|congruence]. apply existsb_exists. exists (Collect d). split; [exact I|]. apply Nat.eqb_refl.
  - intros H. destruct (existsb _ es) eqn:E; [|reflexivity]. apply existsb_exists in E. destruct E as ([|x|] & I & X); try discriminate. apply Nat.eqb_eq in X. subst. tauto.
Qed.
Lemma filter_filter_sub : forall (f g : nat -> bool) l, (forall x, f x = true -> g x = true) -> filter f (filter g l) = filter f l.
Proof. intros f g l H. induction l as [|x l IH]; cbn; [reflexivity|]. destruct (g x) eqn:G; cbn; [rewrite IH; reflexivity|]. rewrite IH. destruct (f x) eqn:F; [rewrite (H x F) in G; discriminate|reflexivity]. Qed.

Lemma eedt_inv : forall es, never_raises es -> let s := eedt_run es in
  died s = false /\ starts s = (if 0 <? length (added es) then 1 else 0) /\ (forall d, memb Nat.eqb d (collected s) = negb (alive es d)) /\
  filter (alive es) (entries s) = filter (alive es) (added es).
Proof.
  induction es as [|e es IH] using rev_ind; intros NR.
  - cbn. auto.
  - destruct IH as (D & S & CO & EN); [intros r I; apply NR; apply in_or_app; auto|]. unfold eedt_run in *. rewrite run_snoc. set (s := fold_left _ es _) in *.
    assert (AD : added (es ++ [e]) = added es ++ match e with AddDict d => [d] | _ => [] end).
    { unfold added. rewrite flat_map_app. cbn. rewrite app_nil_r. reflexivity. }
    assert (AL : forall d, alive (es ++ [e]) d = alive es d && match e with Collect x => negb (Nat.eqb d x) | _ => true end).
    { intros d. unfold alive. rewrite existsb_app. cbn. rewrite orb_false_r, negb_orb. destruct e; reflexivity. }
    destruct e as [d|d|r]; cbn [eedt_step died starts collected entries].
    + split; [exact D|]. split.
      * rewrite AD, app_length. cbn. rewrite S. destruct (added es); cbn; reflexivity.
      * split; [intros x; rewrite AL, andb_true_r; apply CO|]. assert (EXT : forall l, filter (alive (es ++ [AddDict d])) l = filter (alive es) l) by (intros l; apply filter_ext; intros x; rewrite AL; apply andb_true_r).
        rewrite AD, !EXT, !filter_app, EN. reflexivity.
    + split; [exact D|]. split; [rewrite AD, app_nil_r; exact S|]. split.
      * intros x. cbn [memb]. rewrite AL, negb_andb, negb_involutive, <- CO, (Nat.eqb_sym d x). destruct (Nat.eqb x d); cbn; [rewrite orb_true_r|rewrite orb_false_r]; reflexivity.
      * rewrite AD, app_nil_r.
        assert (SUB : forall x, alive (es ++ [Collect d]) x = true -> alive es x = true) by (intros x; rewrite AL; intros X; apply andb_true_iff in X; tauto).
        rewrite <- (filter_filter_sub _ _ (entries s) SUB), <- (filter_filter_sub _ _ (added es) SUB), EN. reflexivity.
    + rewrite AD, app_nil_r. assert (EXT : forall l, filter (alive (es ++ [Tick r])) l = filter (alive es) l) by (intros l; apply filter_ext; intros x; rewrite AL; apply andb_true_r).
      assert (ALE : forall x, negb (alive (es ++ [Tick r]) x) = negb (alive es x)) by (intros x; rewrite AL, andb_true_r; reflexivity).
      destruct (died s || (starts s =? 0)) eqn:Q.
      * split; [exact D|]. split; [exact S|]. split; [intros x; rewrite ALE; apply CO|]. rewrite !EXT. exact EN.
      * rewrite eedt_loop_ok by (intros x; apply (NR r); apply in_or_app; right; left; reflexivity). cbn [died starts collected entries].
        split; [reflexivity|]. split; [exact S|]. split; [intros x; rewrite ALE; apply CO|]. rewrite !EXT.
        rewrite filter_filter_sub; [exact EN|]. intros x A. rewrite CO, A. reflexivity.
Qed.

Lemma thread_cleans : forall es r, never_raises (es ++ [Tick r]) -> added es <> [] ->
  exists live, cleaned (eedt_run (es ++ [Tick r])) = cleaned (eedt_run es) ++ live /\ (forall d, gone es d -> ~ In d live) /\
    (forall d, ~ gone es d -> count_occ Nat.eq_dec live d = count_occ Nat.eq_dec (added es) d).
Proof.
  intros es r NR NE. assert (NR' : never_raises es) by (intros x I; apply NR; apply in_or_app; auto).
  destruct (eedt_inv es NR') as (D & S & CO & EN). unfold eedt_run in *. rewrite run_snoc. set (s := fold_left _ es _) in *. cbn [eedt_step].
  rewrite D. replace (starts s =? 0) with false by (rewrite S; destruct (added es); [congruence|reflexivity]). cbn [orb].
  rewrite eedt_loop_ok by (intros x; apply (NR r); apply in_or_app; right; left; reflexivity). cbn [cleaned].
  assert (F : filter (fun d => negb (memb Nat.eqb d (collected s))) (entries s) = filter (alive es) (added es)).
  { rewrite <- EN. apply filter_ext. intros x. rewrite CO, negb_involutive. reflexivity. }
  rewrite F. exists (filter (alive es) (added es)). split; [reflexivity|]. split.
  - intros d G I. apply filter_In in I. apply (proj1 (alive_gone es d)); tauto.
  - intros d G. apply alive_gone in G. clear -G. induction (added es) as [|x t IH]; cbn; [reflexivity|]. destruct (alive es x) eqn:A; cbn.
    + destruct (Nat.eq_dec x d); rewrite IH; reflexivity.
    + rewrite IH. destruct (Nat.eq_dec x d); [subst; congruence|reflexivity].
Qed.
Lemma thread_starts : forall es, never_raises es -> starts (eedt_run es) = match added es with [] => 0 | _ => 1 end.
Proof. intros es NR. destruct (eedt_inv es NR) as (_ & S & _). rewrite S. destruct (added es); reflexivity. Qed.
Lemma thread_starts_once : forall es, starts (eedt_run es) <= 1.
Proof.
  induction es as [|e es IH] using rev_ind; [cbn; lia|]. unfold eedt_run in *. rewrite run_snoc. destruct e as [d|d|r]; cbn; auto.
  - destruct (starts _); cbn; lia.
  - destruct (_ || _); auto. destruct (eedt_loop _ _ _). cbn. auto.
Qed.
Lemma thread_dies : exists es d, In (AddDict d) es /\ forall later, (forall e, In e later -> e <> Collect d) -> cleaned (eedt_run (es ++ later)) = [0].
Proof.
  exists [AddDict 0; AddDict 1; Tick (fun d => Nat.eqb d 0)], 1. split; [cbn; auto|]. intros later _.
  assert (H : died (eedt_run ([AddDict 0; AddDict 1; Tick (fun d => Nat.eqb d 0)] ++ later)) = true /\ cleaned (eedt_run ([AddDict 0; AddDict 1; Tick (fun d => Nat.eqb d 0)] ++ later)) = [0]); [|tauto].
  induction later as [|e later [D C]] using rev_ind; [split; reflexivity|]. rewrite app_assoc. unfold eedt_run in *. rewrite run_snoc. destruct e as [d|d|r]; cbn [eedt_step died cleaned]; auto.
  rewrite D. cbn. auto.
Qed.
