From Coq Require Import ZArith Lia Permutation.
From Verif Require Import Prelude PreludeFacts MoreFacts PySeq_Model Order_Spec SortedList_Proofs MemDump_Model MemDump_Spec.
Set Implicit Arguments.

Lemma total_app l1 l2 : total (l1 ++ l2) = (total l1 + total l2)%Z.
Proof. unfold total. rewrite map_app, fold_right_app. induction (map bytes l1) as [|x l IH]; simpl; lia. Qed.
Lemma of_type_app t l1 l2 : of_type t (l1 ++ l2) = of_type t l1 ++ of_type t l2.
Proof. unfold of_type. induction l1 as [|x l IH]; simpl; auto. destruct (typ x =? t); simpl; congruence. Qed.

(** what the dictionaries hold after the objects [done] *)
Record inv (done : list obj) (sc : dict nat Z) (ins : dict nat nat) : Prop := {
  i_wf : dwf sc;
  i_sc : forall t, dget Nat.eqb sc t = if (existsb (fun o => typ o =? t) done)%nat then Some (total (of_type t done)) else None;
  i_in : forall t, dget Nat.eqb ins t = if (existsb (fun o => typ o =? t) done)%nat then Some (length (of_type t done)) else None }.

Lemma none_total t l : existsb (fun o => typ o =? t) l = false -> of_type t l = [].
Proof. unfold of_type. induction l as [|x l IH]; simpl; auto. destruct (typ x =? t); simpl; [discriminate|auto]. Qed.

Lemma inv_step done sc ins o : inv done sc ins ->
  inv (done ++ [o]) (add_size sc (typ o) (bytes o)) (add_one ins (typ o) (dmem Nat.eqb sc (typ o))).
Proof.
  intros [W S I]. unfold add_size, add_one, dmem. pose proof (S (typ o)) as So. pose proof (I (typ o)) as Io.
  assert (ONE : total (of_type (typ o) [o]) = bytes o /\ length (of_type (typ o) [o]) = 1).
  { unfold of_type, total. simpl. rewrite Nat.eqb_refl. simpl. split; [lia|reflexivity]. }
  destruct ONE as [ON1 ON2].
  destruct (existsb (fun o0 => typ o0 =? typ o) done) eqn:E; rewrite So; [rewrite Io|]; constructor.
  - apply (dset_wf nateqb_ok); auto.
  - intros t. rewrite existsb_app, of_type_app, total_app. cbn [existsb]. destruct (Nat.eq_dec t (typ o)) as [->|N].
    + rewrite (dget_dset_eq nateqb_ok), E, ON1. reflexivity.
    + rewrite (dget_dset_neq nateqb_ok) by auto. rewrite S. assert (X : (typ o =? t) = false) by (apply Nat.eqb_neq; auto).
      assert (Y : of_type t [o] = []) by (unfold of_type; simpl; rewrite X; reflexivity). rewrite Y, X. cbn [orb]. rewrite Bool.orb_false_r. change (total []) with 0%Z. rewrite Z.add_0_r. reflexivity.
  - intros t. rewrite existsb_app, of_type_app, app_length. cbn [existsb]. destruct (Nat.eq_dec t (typ o)) as [->|N].
    + rewrite (dget_dset_eq nateqb_ok), E, ON2. reflexivity.
    + rewrite (dget_dset_neq nateqb_ok) by auto. rewrite I. assert (X : (typ o =? t) = false) by (apply Nat.eqb_neq; auto).
      assert (Y : of_type t [o] = []) by (unfold of_type; simpl; rewrite X; reflexivity). rewrite Y, X. cbn [orb]. rewrite Bool.orb_false_r. rewrite Nat.add_0_r. reflexivity.
  - apply (dset_wf nateqb_ok); auto.
  - intros t. rewrite existsb_app, of_type_app, total_app. cbn [existsb]. destruct (Nat.eq_dec t (typ o)) as [->|N].
    + rewrite (dget_dset_eq nateqb_ok), E, ON1, Nat.eqb_refl, (none_total _ _ E). reflexivity.
    + rewrite (dget_dset_neq nateqb_ok) by auto. rewrite S. assert (X : (typ o =? t) = false) by (apply Nat.eqb_neq; auto).
      assert (Y : of_type t [o] = []) by (unfold of_type; simpl; rewrite X; reflexivity). rewrite Y, X. cbn [orb]. rewrite Bool.orb_false_r. change (total []) with 0%Z. rewrite Z.add_0_r. reflexivity.
  - intros t. rewrite existsb_app, of_type_app, app_length. cbn [existsb]. destruct (Nat.eq_dec t (typ o)) as [->|N].
    + rewrite (dget_dset_eq nateqb_ok), E, ON2, Nat.eqb_refl, (none_total _ _ E). reflexivity.
    + rewrite (dget_dset_neq nateqb_ok) by auto. rewrite I. assert (X : (typ o =? t) = false) by (apply Nat.eqb_neq; auto).
      assert (Y : of_type t [o] = []) by (unfold of_type; simpl; rewrite X; reflexivity). rewrite Y, X. cbn [orb]. rewrite Bool.orb_false_r. rewrite Nat.add_0_r. reflexivity.
Qed.

Lemma objects_ok : forall l done sc ins, inv done sc ins -> Forall printable l ->
  exists sc' ins', objects l sc ins = (flat_map (fun o => match text o with Ok s => [Object s (typ o) (bytes o)] | Err _ => [] end) l, Ok (sc', ins')) /\ inv (done ++ l) sc' ins'.
Proof.
  induction l as [|o l IH]; intros done sc ins I F.
  - exists sc, ins. rewrite app_nil_r. split; auto.
  - inversion F as [|? ? [[s T] P] F']; subst. destruct (IH _ _ _ (inv_step o I) F') as (sc' & ins' & E & I').
    exists sc', ins'. rewrite <- app_assoc in I'. split; auto. cbn [objects].
    assert (X : match size o with Ok n => Ok n | Err TypeError => Ok 0%Z | Err e => Err e end = Ok (bytes o)).
    { unfold bytes. destruct (size o) as [n|e]; auto. subst e. reflexivity. }
    rewrite X, T, E. cbn [flat_map]. rewrite T. reflexivity.
Qed.

Lemma by_size_order : total_preorder (fun x y : nat * Z => Z.ltb (- snd x) (- snd y)).
Proof.
  split.
  - intros x y H. apply Z.ltb_lt in H. apply Z.ltb_ge. lia.
  - intros x y z H1 H2. apply Z.ltb_ge in H1, H2. apply Z.ltb_ge. lia.
Qed.
