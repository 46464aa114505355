From Verif Require Import Prelude Sleep_Model Sleep_Spec.
From Coq Require Import Lia.
Set Implicit Arguments.
Open Scope Z_scope.

Lemma sleeping_ends y abort : forall turns calls r, sleeping y abort turns calls = Some r ->
  match ended r with
  | Ok true => y <= when_ r
  | Ok false => abort = true
  | Err e => e = ValueError
  end.
Proof.
  induction turns as [|t l IH]; simpl; intros calls r H; [discriminate|].
  destruct (Z.ltb_spec (test t) y).
  - destruct (Z.ltb_spec (y - arg t) 0); [injection H as <-; reflexivity|].
    destruct (interrupted t && abort) eqn:E; [injection H as <-; simpl; apply andb_prop in E; tauto|]. exact (IH _ _ H).
  - injection H as <-. simpl. lia.
Qed.
Lemma sleeping_full y : forall turns1 t t' turns2 now calls,
  sane y now (turns1 ++ t :: t' :: turns2) -> Forall (not_between y) (turns1 ++ [t]) -> interrupted t = false ->
  exists r, sleeping y false (turns1 ++ t :: t' :: turns2) calls = Some r /\ ended r = Ok true /\ y <= when_ r /\
    exists new, asked r = calls ++ new /\ (length new <= S (length turns1))%nat /\ Forall (fun a => 0 <= a <= y - now) new.
Proof.
  induction turns1 as [|u l IH]; intros t t' turns2 now calls S F I; simpl app in *; cbn [sane sleeping] in *.
  - destruct S as (S1 & S2 & S3 & S4 & _). inversion F as [|? ? N _]; subst. specialize (S3 I). unfold not_between in N.
    destruct (Z.ltb_spec (test t) y).
    + specialize (N H). destruct (Z.ltb_spec (y - arg t) 0); [lia|]. rewrite I. simpl.
      destruct (Z.ltb_spec (test t') y); [lia|]. eexists. split; [reflexivity|]. simpl. repeat split; auto; try lia.
      exists [y - arg t]. split; [reflexivity|]. split; [simpl; lia|]. constructor; [lia|constructor].
    + eexists. split; [reflexivity|]. simpl. repeat split; auto; try lia. exists []. rewrite app_nil_r. split; [reflexivity|]. split; [simpl; lia|constructor].
  - destruct S as (S1 & S2 & S3 & S4). inversion F as [|? ? N F']; subst. unfold not_between in N.
    destruct (Z.ltb_spec (test u) y).
    + specialize (N H). destruct (Z.ltb_spec (y - arg u) 0); [lia|]. rewrite Bool.andb_false_r.
      destruct (IH t t' turns2 _ (calls ++ [y - arg u]) S4 F' I) as (r & E1 & E2 & E3 & new & E4 & E5 & E6).
      exists r. repeat split; auto. exists ((y - arg u) :: new). rewrite E4, <- app_assoc. split; [reflexivity|]. split; [simpl; lia|].
      constructor; [lia|]. eapply Forall_impl; [|exact E6]. simpl. intros a Ha. lia.
    + eexists. split; [reflexivity|]. simpl. repeat split; auto; try lia. exists []. rewrite app_nil_r. split; [reflexivity|]. split; [simpl; lia|constructor].
Qed.
Lemma sleeping_aborted y : forall turns1 t turns2 now calls,
  sane y now (turns1 ++ t :: turns2) -> Forall (fun u => test u < y /\ arg u <= y /\ interrupted u = false) turns1 ->
  test t < y -> arg t <= y -> interrupted t = true ->
  sleeping y true (turns1 ++ t :: turns2) calls =
    Some {| ended := Ok false; when_ := arg t + lasts t; asked := calls ++ map (fun u => y - arg u) (turns1 ++ [t]) |}.
Proof.
  induction turns1 as [|u l IH]; intros t turns2 now calls S F T A I; simpl app in *; cbn [sane sleeping map] in *.
  - destruct (Z.ltb_spec (test t) y); [|lia]. destruct (Z.ltb_spec (y - arg t) 0); [lia|]. rewrite I. reflexivity.
  - inversion F as [|? ? (F1 & F2 & F3) F']; subst. destruct (Z.ltb_spec (test u) y); [|lia]. destruct (Z.ltb_spec (y - arg u) 0); [lia|].
    rewrite F3. simpl. destruct S as (_ & _ & _ & S). rewrite (IH t turns2 _ (calls ++ [y - arg u]) S F' T A I), <- app_assoc. reflexivity.
Qed.

(** ** signals *)
Section H.
  Variable catchable : nat -> bool.
  Lemma installs_ok : forall sigs s olds, Forall (fun x => catchable x = true) sigs -> NoDup sigs ->
    exists s', installs catchable s sigs olds = (s', Some (olds ++ map (table s) sigs)) /\ end_ s' = end_ s /\
      forall x, table s' x = if existsb (Nat.eqb x) sigs then Ours else table s x.
  Proof.
    induction sigs as [|a l IH]; simpl; intros s olds F N; [exists s; rewrite app_nil_r; auto|].
    inversion F as [|? ? Fa Fl]; inversion N as [|? ? Na Nl]; subst. rewrite Fa.
    destruct (IH (install s a Ours) (olds ++ [table s a]) Fl Nl) as (s' & -> & E & T).
    exists s'. split; [|split; [exact E|]].
    - rewrite <- app_assoc. simpl. do 4 f_equal. apply map_ext_in. intros x Hx. destruct (Nat.eqb_spec x a); [congruence|reflexivity].
    - intros x. rewrite T. simpl. destruct (Nat.eqb_spec x a); simpl; [destruct (existsb _ _); reflexivity|reflexivity].
  Qed.
  Lemma restores_ok : forall sigs (f : nat -> handler) s, NoDup sigs ->
    (forall x, table (restores s (combine sigs (map f sigs))) x = if existsb (Nat.eqb x) sigs then f x else table s x).
  Proof.
    induction sigs as [|a l IH]; simpl; intros f s N x; [reflexivity|]. inversion N as [|? ? Na Nl]; subst. rewrite IH by auto. simpl.
    destruct (Nat.eqb_spec x a) as [->|]; simpl; [|destruct (existsb (Nat.eqb x) l); reflexivity].
    destruct (existsb (Nat.eqb a) l) eqn:E; [|reflexivity]. reflexivity.
  Qed.
  Lemma deliver_table s x : table (deliver s x) = table s.
  Proof. unfold deliver. destruct (table s x); reflexivity. Qed.
  Lemma deliver_all_table sigs : forall s, table (fold_left deliver sigs s) = table s.
  Proof. induction sigs as [|a l IH]; simpl; intros s; auto. rewrite IH, deliver_table. reflexivity. Qed.
  Lemma deliver_end sigs : forall s, end_ (fold_left deliver sigs s) = true <-> end_ s = true \/ exists x, In x sigs /\ table s x = Ours.
  Proof.
    induction sigs as [|a l IH]; simpl; intros s; [split; auto; intros [H|(x & [] & _)]; auto|].
    rewrite IH, deliver_table. unfold deliver. destruct (table s a) eqn:E; simpl; split.
    - intros _. right. eauto.
    - intros _. auto.
    - intros [H|(x & H1 & H2)]; eauto.
    - intros [H|(x & [<-|H1] & H2)]; eauto. congruence.
  Qed.
  Section Poll.
    Variable extra : list nat.
    Variable tab : nat -> handler.
    Hypothesis Htab : forall x, tab x = Ours <-> listened extra x.
    Lemma polling_silent : forall l s r n, table s = tab -> end_ s = false -> Forall (silent extra) l ->
      exists s', polling s (l ++ r) n = polling s' r (n + length l)%nat /\ table s' = tab /\ end_ s' = false.
    Proof.
      induction l as [|p l IH]; simpl; intros s r n T E F; [exists s; rewrite Nat.add_0_r; auto|].
      pose proof (Forall_inv F) as Fp. pose proof (Forall_inv_tail F) as Fl. rewrite E. destruct p as [sigs|]; [|contradiction Fp]. simpl in Fp.
      destruct (IH (fold_left deliver sigs s) r (S n)) as (s' & H & T' & E'); auto.
      - rewrite deliver_all_table. exact T.
      - destruct (end_ (fold_left deliver sigs s)) eqn:D; auto. apply deliver_end in D. destruct D as [D|(x & D1 & D2)]; [congruence|].
        exfalso. apply (Fp x D1). apply Htab. rewrite <- T. exact D2.
      - exists s'. rewrite H. split; [f_equal; lia|auto].
    Qed.
    Lemma polling_loud p r s n : table s = tab -> end_ s = false -> loud extra p ->
      exists s', polling s (p :: r) n = Returns s' (S n) /\ table s' = tab /\ end_ s' = true.
    Proof.
      intros T E L. simpl. rewrite E. destruct p as [sigs|]; [|contradiction L]. destruct L as (x & L1 & L2).
      assert (D : end_ (fold_left deliver sigs s) = true).
      { apply deliver_end. right. exists x. split; auto. rewrite T. apply Htab. exact L2. }
      exists (fold_left deliver sigs s). split; [destruct r; simpl; rewrite D; reflexivity|]. rewrite deliver_all_table. auto.
    Qed.
  End Poll.
  Lemma existsb_In x l : existsb (Nat.eqb x) l = true <-> In x l.
  Proof. rewrite existsb_exists. split; [intros (y & H & E); apply Nat.eqb_eq in E; subst; auto|intros H; exists x; rewrite Nat.eqb_refl; auto]. Qed.
  Lemma existsb_notIn x l : ~ In x l -> existsb (Nat.eqb x) l = false.
  Proof. intros H. destruct (existsb (Nat.eqb x) l) eqn:E; auto. apply existsb_In in E. contradiction. Qed.

  (** the handlers while waiting *)
  Lemma installed extra s : Forall (fun x => catchable x = true) extra -> NoDup (SIGTERM :: extra) ->
    (forall x, ~ listened extra x -> table s x <> Ours) ->
    exists s', installs catchable (install s SIGTERM Ours) extra [] = (s', Some (map (table s) extra)) /\ end_ s' = end_ s /\
      (forall x, table s' x = Ours <-> listened extra x) /\ (forall x, ~ listened extra x -> table s' x = table s x).
  Proof.
    intros F N O. inversion N as [|? ? Na Nl]; subst. destruct (@installs_ok extra (install s SIGTERM Ours) [] F Nl) as (s' & E & D & T).
    exists s'. split; [|split; [exact D|]].
    - rewrite E. simpl. do 2 f_equal. apply map_ext_in. intros x Hx. unfold install. simpl.
      destruct (Nat.eqb_spec x SIGTERM); [congruence|reflexivity].
    - unfold listened. split; intros x.
      + rewrite T. unfold install. simpl. destruct (existsb (Nat.eqb x) extra) eqn:Ex; [apply existsb_In in Ex; tauto|].
        assert (Nx : ~ In x extra) by (intros Hx; apply existsb_In in Hx; congruence).
        destruct (Nat.eqb_spec x SIGTERM); [tauto|]. split; [|tauto]. intros Ho. exfalso. eapply O; [|exact Ho]. unfold listened. tauto.
      + intros Hx. rewrite T. rewrite existsb_notIn by tauto. unfold install. simpl. destruct (Nat.eqb_spec x SIGTERM); [tauto|reflexivity].
  Qed.
End H.
