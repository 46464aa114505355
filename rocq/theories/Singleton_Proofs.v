(** Proofs about the singletons. *)
From Coq Require Import Lia.
From Verif Require Import Prelude PreludeFacts MoreFacts Singleton_Model Singleton_Spec.

Section Singletons.
  Variables (A : Type) (key_eqb : list A -> list A -> bool) (num_args : nat).
  Hypothesis key_ok : forall a b, key_eqb a b = true <-> a = b.
  Notation step := (step key_eqb num_args).
  Notation run := (run key_eqb num_args).
  Notation spec_step := (spec_step key_eqb num_args).
  Notation spec_run := (spec_run key_eqb num_args).

  Definition related (s : state A) (t : table A) : Prop :=
    made s = count t /\ inits s = ran t /\
    match it s with None => dicts s = [] /\ count t = 0 /\ known t = [] | Some d => d < length (dicts s) /\ dict_of s d = known t /\ count t <> 0 end.
  Lemma dmem_get : forall (d : list (list A * nat)) k, dmem key_eqb d k = match dget key_eqb d k with Some _ => true | None => false end.
  Proof. intros. unfold dmem. destruct (dget key_eqb d k); auto. Qed.
  Lemma dict_upd : forall (s : state A) d x, d < length (dicts s) -> nth d (upd (dicts s) d x) [] = x.
  Proof. intros s d x L. apply nth_error_nth. apply nth_error_upd_eq. auto. Qed.
  Lemma call_related : forall s t a init, related s t -> dget key_eqb (known t) (firstn num_args (pos a)) <> None \/ init = None ->
    let (s', r) := finish key_eqb num_args 5 s (Entering a) init in let (t', r') := spec_call key_eqb num_args t a in related s' t' /\ r = r'.
  Proof.
    intros s t a init (R1 & R2 & R3) H. unfold spec_call. cbn [finish turn]. destruct (it s) as [d|] eqn:I.
    - destruct R3 as (L & E & N). cbn [finish turn]. rewrite dmem_get, E. destruct (dget key_eqb (known t) (firstn num_args (pos a))) as [i|] eqn:G; cbn [finish turn].
      + rewrite E, G. cbn [finish]. split; auto. repeat split; auto. rewrite ?I. auto.
      + destruct H as [H|H]; [congruence|]. subst init. cbn [finish turn]. split; [|rewrite R1; auto]. repeat split; simpl; rewrite ?R1, ?R2; auto. rewrite ?I.
        split; [rewrite upd_length; auto|]. split; [|lia]. unfold dict_of. simpl. rewrite dict_upd by auto. fold (dict_of s d). rewrite E. auto.
    - destruct R3 as (D & C & K). cbn [finish turn]. rewrite D, K in *. simpl length. cbn [app]. unfold dict_of at 1. simpl nth. cbn [dmem dget finish turn]. simpl in H.
      destruct H as [H|H]; [congruence|]. subst init. cbn [finish turn]. split; [|rewrite R1; auto]. repeat split; simpl; rewrite ?R1, ?R2; auto.
  Qed.
  Lemma step_related : forall s t o, related s t -> succeeds o -> related (fst (step s o)) (fst (spec_step t o)) /\ snd (step s o) = snd (spec_step t o).
  Proof.
    intros s t o R Su. destruct o as [a init| |args].
    - cbn [Singleton_Model.step Singleton_Spec.spec_step]. pose proof (call_related s t a init R) as C. destruct init; [contradiction|]. specialize (C (or_intror eq_refl)).
      destruct (finish key_eqb num_args 5 s (Entering a) None) as (s' & r). destruct (spec_call key_eqb num_args t a) as (t' & r'). destruct C as (C1 & C2). simpl. subst. auto.
    - simpl. pose proof R as (R1 & R2 & R3). destruct (it s) as [d|]; simpl; split; auto.
      + destruct R3 as (_ & E & N). rewrite E. destruct (Nat.eqb_spec (count t) 0); auto. contradiction.
      + destruct R3 as (_ & E & N). rewrite E. auto.
    - simpl. pose proof R as (R1 & R2 & R3). destruct (it s) as [d|] eqn:I; simpl.
      + destruct R3 as (L & E & N). rewrite dmem_get, E. destruct (dget key_eqb (known t) args) as [i|] eqn:G; simpl.
        * split; auto. unfold related. simpl. split; auto. split; auto. split; [rewrite upd_length; auto|]. split; auto. unfold dict_of. simpl. rewrite dict_upd by auto. auto.
        * split; auto. destruct (Nat.eqb_spec (count t) 0); auto. contradiction.
      + destruct R3 as (D & C & K). rewrite K, C. simpl. auto.
  Qed.
  Lemma run_related : forall ops s t, related s t -> Forall (@succeeds A) ops -> related (fst (run s ops)) (fst (spec_run t ops)) /\ snd (run s ops) = snd (spec_run t ops).
  Proof.
    induction ops as [|o r IH]; intros s t R F; simpl; auto. inversion F as [|? ? F1 F2]; subst. destruct (step_related s t o R F1) as (R1 & E1).
    destruct (step s o) as (s1 & x), (spec_step t o) as (t1 & y). simpl in R1, E1. subst. specialize (IH s1 t1 R1 F2).
    destruct (run s1 r) as (s2 & xs), (spec_run t1 r) as (t2 & ys). simpl in *. destruct IH as (IH1 & ->). auto.
  Qed.
  Lemma refines : forall ops, Forall (@succeeds A) ops ->
    snd (run (begin A) ops) = snd (spec_run (empty A) ops) /\ inits (fst (run (begin A) ops)) = ran (fst (spec_run (empty A) ops)).
  Proof.
    intros ops F. assert (R : related (begin A) (empty A)) by (repeat split; auto). destruct (run_related ops _ _ R F) as ((_ & E & _) & E2). auto.
  Qed.

  (** * The table *)
  Definition sane (t : table A) : Prop :=
    dwf (known t) /\ (forall k i, dget key_eqb (known t) k = Some i -> i < count t) /\
    (forall k k' i, dget key_eqb (known t) k = Some i -> dget key_eqb (known t) k' = Some i -> k = k') /\
    map fst (ran t) = seq 0 (count t) /\ (forall k i, dget key_eqb (known t) k = Some i -> exists a, In (i, a) (ran t) /\ firstn num_args (pos a) = k).
  Lemma sane_empty : sane (empty A).
  Proof. repeat split; simpl; try discriminate; try constructor. Qed.
  Lemma sane_step : forall t o, sane t -> sane (fst (spec_step t o)).
  Proof.
    intros t o (W & B & J & M & P). destruct o as [a init| |args]; simpl.
    - unfold spec_call. destruct (dget key_eqb (known t) (firstn num_args (pos a))) as [i|] eqn:G; simpl; [repeat split; auto|].
      set (k0 := firstn num_args (pos a)) in *. assert (Q : forall k i, dget key_eqb (dset key_eqb (known t) k0 (count t)) k = Some i -> (k = k0 /\ i = count t) \/ (k <> k0 /\ dget key_eqb (known t) k = Some i)).
      { intros k i E. destruct (key_eqb k k0) eqn:Ek; [apply key_ok in Ek; subst; rewrite (dget_dset_eq key_ok) in E; inversion E; auto|].
        assert (N : k <> k0) by (intro; subst; rewrite (proj2 (key_ok k0 k0) eq_refl) in Ek; discriminate). rewrite (dget_dset_neq key_ok) in E by auto. auto. }
      repeat split; simpl.
      + apply (dset_wf key_ok). auto.
      + intros k i E. destruct (Q k i E) as [(-> & ->)|(N & E')]; [lia|]. apply B in E'. lia.
      + intros k k' i E E'. destruct (Q k i E) as [(-> & ->)|(N & E1)], (Q k' _ E') as [(-> & X)|(N' & E2)]; auto.
        * apply B in E2. lia.
        * subst. apply B in E1. lia.
        * eapply J; eauto.
      + rewrite map_app, M. simpl. symmetry. apply (seq_S (count t) 0).
      + intros k i E. destruct (Q k i E) as [(-> & ->)|(N & E')].
        * exists a. split; auto. rewrite in_app_iff. right. left. auto.
        * destruct (P _ _ E') as (b & I & Eb). exists b. rewrite in_app_iff. auto.
    - repeat split; auto.
    - destruct (dget key_eqb (known t) args) as [j|] eqn:G; simpl; [|repeat split; auto].
      assert (Q : forall k i, dget key_eqb (ddel key_eqb (known t) args) k = Some i -> dget key_eqb (known t) k = Some i).
      { intros k i E. destruct (key_eqb k args) eqn:Ek; [apply key_ok in Ek; subst; rewrite (dget_ddel_eq key_ok) in E by auto; discriminate|].
        assert (N : k <> args) by (intro; subst; rewrite (proj2 (key_ok args args) eq_refl) in Ek; discriminate). rewrite (dget_ddel_neq key_ok) in E by auto. auto. }
      repeat split; simpl; eauto. apply ddel_wf. auto.
  Qed.
  Lemma sane_run : forall ops t, sane t -> sane (fst (spec_run t ops)).
  Proof.
    induction ops as [|o r IH]; intros t S; simpl; auto. pose proof (sane_step t o S) as S1. destruct (spec_step t o) as (t1 & x). specialize (IH t1 S1). destruct (spec_run t1 r). auto.
  Qed.
  Lemma spec_run_app : forall a b t, spec_run t (a ++ b) = (let (t1, xs) := spec_run t a in let (t2, ys) := spec_run t1 b in (t2, xs ++ ys)).
  Proof.
    induction a as [|o r IH]; intros b t; simpl; [destruct (spec_run t b); auto|]. destruct (spec_step t o) as (t1 & x). rewrite IH. destruct (spec_run t1 r) as (t2 & xs).
    destruct (spec_run t2 b). auto.
  Qed.
  (** each instance is constructed once *)
  Lemma init_once : forall ops, Forall (@succeeds A) ops -> NoDup (map fst (inits (fst (run (begin A) ops)))).
  Proof. intros ops F. destruct (refines ops F) as (_ & ->). destruct (sane_run ops _ sane_empty) as (_ & _ & _ & -> & _). apply seq_NoDup. Qed.
  (** an instance, once given for a key, is kept *)
  Lemma known_kept : forall ops t k i, sane t -> dget key_eqb (known t) k = Some i -> (forall args, In (Delete args) ops -> args <> k) -> dget key_eqb (known (fst (spec_run t ops))) k = Some i.
  Proof.
    induction ops as [|o r IH]; intros t k i S G N; simpl; auto. pose proof (sane_step t o S) as S1. assert (G1 : dget key_eqb (known (fst (spec_step t o))) k = Some i).
    { destruct o as [a init| |args]; simpl; auto.
      - unfold spec_call. destruct (dget key_eqb (known t) (firstn num_args (pos a))) eqn:E; simpl; auto. rewrite (dget_dset_neq key_ok); auto. intro; subst; congruence.
      - destruct (dget key_eqb (known t) args) eqn:E; simpl; auto. rewrite (dget_ddel_neq key_ok); auto. intro; subst. eapply N; [left; reflexivity|auto]. }
    destruct (spec_step t o) as (t1 & x). simpl in *. specialize (IH t1 k i S1 G1). destruct (spec_run t1 r). simpl in *. apply IH. intros args I. apply N. auto.
  Qed.
  Definition instance (ops : list (op A)) (a : call_args A) : res nat := snd (finish key_eqb num_args 5 (fst (run (begin A) ops)) (Entering a) None).
  Lemma run_call : forall ops a, Forall (@succeeds A) ops -> instance ops a = snd (spec_call key_eqb num_args (fst (spec_run (empty A) ops)) a).
  Proof.
    intros ops a F. unfold instance. assert (R : related (begin A) (empty A)) by (repeat split; auto). destruct (run_related ops _ _ R F) as (R1 & _).
    pose proof (call_related _ _ a None R1 (or_intror eq_refl)) as C. destruct (finish _ _ _ _ _ _) as (s' & r), (spec_call _ _ _ _) as (t' & r'). simpl. tauto.
  Qed.
  Lemma spec_step_call : forall t a, spec_step t (Call a None) = (fst (spec_call key_eqb num_args t a), OInst A (snd (spec_call key_eqb num_args t a))).
  Proof. intros t a. simpl. destruct (spec_call key_eqb num_args t a). auto. Qed.
  Lemma after_call : forall t a, exists i, spec_call key_eqb num_args t a = (fst (spec_call key_eqb num_args t a), Ok i) /\
    dget key_eqb (known (fst (spec_call key_eqb num_args t a))) (firstn num_args (pos a)) = Some i.
  Proof.
    intros t a. unfold spec_call. destruct (dget key_eqb (known t) (firstn num_args (pos a))) as [i|] eqn:G; [exists i; auto|]. exists (count t). simpl. rewrite (dget_dset_eq key_ok). auto.
  Qed.
  Lemma same_instance : forall ops more a b, Forall (@succeeds A) (ops ++ Call a None :: more) -> firstn num_args (pos a) = firstn num_args (pos b) ->
    (forall args, In (Delete args) more -> args <> firstn num_args (pos a)) ->
    exists i, instance ops a = Ok i /\ instance (ops ++ Call a None :: more) b = Ok i.
  Proof.
    intros ops more a b F K N. pose proof F as F'. apply Forall_app in F'. destruct F' as (F1 & F2). inversion F2; subst.
    rewrite (run_call ops a F1), (run_call _ b F). set (t := fst (spec_run (empty A) ops)). assert (S : sane t) by (apply sane_run; apply sane_empty).
    destruct (after_call t a) as (i & E & G). exists i. rewrite E. split; auto. rewrite spec_run_app. unfold t in *.
    destruct (spec_run (empty A) ops) as (t0 & xs). simpl in *. rewrite E. pose proof (known_kept more (fst (spec_call key_eqb num_args t0 a)) (firstn num_args (pos a)) i) as Kp.
    assert (S1 : sane (fst (spec_call key_eqb num_args t0 a))). { pose proof (sane_step t0 (Call a None) S) as Z. rewrite spec_step_call in Z. auto. }
    specialize (Kp S1 G N). destruct (spec_run _ more) as (t2 & ys). simpl in *. unfold spec_call. rewrite <- K, Kp. auto.
  Qed.
  Lemma other_instance : forall ops a b, Forall (@succeeds A) ops -> firstn num_args (pos a) <> firstn num_args (pos b) ->
    instance (ops ++ [Call a None]) b <> instance ops a.
  Proof.
    intros ops a b F K. assert (F' : Forall (@succeeds A) (ops ++ [Call a None])) by (apply Forall_app; split; auto; repeat constructor).
    rewrite (run_call ops a F), (run_call _ b F'). rewrite spec_run_app. assert (S : sane (fst (spec_run (empty A) ops))) by (apply sane_run; apply sane_empty).
    destruct (spec_run (empty A) ops) as (t0 & xs). simpl in *. pose proof (sane_step t0 (Call a None) S) as S1. rewrite spec_step_call in S1. destruct (after_call t0 a) as (i & E & G). rewrite E in *. simpl in *.
    clear E. set (t1 := fst (spec_call key_eqb num_args t0 a)) in *. destruct S1 as (_ & B & J & _). unfold spec_call.
    destruct (dget key_eqb (known t1) (firstn num_args (pos b))) as [m|] eqn:Gb; simpl; intros X; inversion X; subst.
    - apply K. eapply J; eauto.
    - apply B in G. lia.
  Qed.
End Singletons.

Section Plain.
  Variable A : Type.
  Lemma prun_known : forall calls (s : pstate A) i, cell s = Some i -> prun s calls = (s, map (fun _ => Ok i) calls).
  Proof.
    induction calls as [|(a & init) t IH]; intros s i C; simpl; auto. rewrite C. simpl. rewrite (IH s i C). auto.
  Qed.
  Lemma plain_one : forall (a : A) calls, let (s, rs) := prun (mk_pstate None 0 []) ((a, None) :: calls) in
    Forall (eq (Ok 0)) rs /\ length rs = 1 + length calls /\ pinits s = [(0, a)].
  Proof.
    intros a calls. simpl. rewrite (prun_known calls (mk_pstate (Some 0) 1 [(0, a)]) 0 eq_refl). simpl. split; [constructor; auto|].
    - apply Forall_forall. intros x I. apply in_map_iff in I. destruct I as (y & E & _). auto.
    - rewrite map_length. auto.
  Qed.
End Plain.
