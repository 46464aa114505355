From Verif Require Import Prelude PreludeFacts MoreFacts Frozen_Model Frozen_Spec.

Section FrozenP.
  Variables K V : Type.
  Variable keqb : K -> K -> bool.
  Variable veqb : V -> V -> bool.
  Hypothesis kok : eqb_ok keqb.
  Variable hk : K -> Z.
  Variable hv : V -> option Z.
  Notation step := (@fstep K V keqb hk hv).

  Lemma step_guarded : forall d op, guarded op -> snd (step d op) = d.
  Proof. intros d op G. destruct op; simpl in *; auto; contradiction. Qed.
  Lemma run_guarded : forall ops d, Forall (@guarded K V) ops -> snd (frun keqb hk hv d ops) = d.
  Proof.
    induction ops as [|op ops IH]; simpl; intros d F; auto. inversion F; subst. pose proof (step_guarded d op H1) as E.
    destruct (step d op) as [o d1]; simpl in *. subst d1. specialize (IH d H2). destruct (frun keqb hk hv d ops). exact IH.
  Qed.

  (** the hash as a sum without order *)
  Fixpoint hsum (d : dict K V) : option Z :=
    match d with
    | [] => Some 0%Z
    | (k, v) :: rest => match hv v, hsum rest with Some h, Some s => Some (Z.lxor (Z.lxor (hk k) h) s) | _, _ => None end
    end.
  Lemma fhash_hsum : forall d o, fhash_from hk hv o d = match hsum d with Some s => Ok (Z.lxor o s) | None => Err TypeError end.
  Proof.
    induction d as [|[k v] d IH]; simpl; intros o.
    - now rewrite Z.lxor_0_r.
    - destruct (hv v) as [h|]; auto. rewrite IH. destruct (hsum d) as [s|]; auto. f_equal. now rewrite !Z.lxor_assoc.
  Qed.
  Lemma hsum_take : forall d k v, dget keqb d k = Some v ->
    hsum d = match hv v, hsum (ddel keqb d k) with Some h, Some s => Some (Z.lxor (Z.lxor (hk k) h) s) | _, _ => None end.
  Proof.
    induction d as [|[k' v'] d IH]; simpl; intros k v E; [discriminate|]. destruct (keqb k' k) eqn:Ek.
    - apply kok in Ek; subst. inversion E; subst. reflexivity.
    - simpl. rewrite (IH k v E). destruct (hv v') as [h'|], (hv v) as [h|]; auto; destruct (hsum (ddel keqb d k)) as [s|]; auto.
      f_equal. rewrite <- (Z.lxor_assoc (Z.lxor (hk k') h')), <- (Z.lxor_assoc (Z.lxor (hk k) h)). f_equal. apply Z.lxor_comm.
  Qed.
  Lemma equal_hash : (forall v w, veqb v w = true -> hv v = hv w) -> forall d e, dwf d -> dwf e -> dict_eq keqb veqb d e -> hsum d = hsum e.
  Proof.
    intros C d. induction d as [|[k v] d IH]; intros e Wd We [L E].
    - destruct e; [auto|discriminate].
    - destruct (E k v) as (w & G & Q). { simpl. now rewrite (eqb_refl' kok). }
      rewrite (hsum_take e k w G). simpl. rewrite <- (C v w Q). rewrite (IH (ddel keqb e k)); auto.
      + inversion Wd; auto.
      + now apply ddel_wf.
      + split.
        * rewrite ddel_length. -- simpl in L. lia. -- exact kok. -- eapply dget_Some_key; eauto.
        * intros k1 v1 G1. assert (N : k1 <> k). { intros ->. inversion Wd; subst. apply H1. eapply dget_Some_key; eauto. }
          destruct (E k1 v1) as (w1 & G2 & Q2). { simpl. replace (keqb k k1) with false; auto. symmetry. apply eqb_false_iff; auto. }
          exists w1. split; auto. rewrite dget_ddel_neq; auto.
  Qed.
End FrozenP.

Section ImmutableP.
  Variables A V : Type.
  Variable aeqb : A -> A -> bool.
  Lemma locked_run : forall ops (o : iobj A V), locked o = Some true -> Forall (@not_the_flag A V) ops ->
    irun aeqb o ops = (repeat (Some TypeError) (length ops), o).
  Proof.
    induction ops as [|op ops IH]; simpl; intros o L F; auto. inversion F; subst.
    assert (E : istep aeqb o op = (Some TypeError, o)) by (unfold istep; rewrite L; destruct op; simpl in *; auto; contradiction).
    rewrite E, IH; auto.
  Qed.
  Lemma constructed_locked : forall ops : list (iop A V), locked (iconstruct aeqb ops) = Some true.
  Proof. reflexivity. Qed.
End ImmutableP.

Section OmniP.
  Variables F V : Type.
  Variable veqb : V -> V -> bool.
  Variable hv : V -> Z.
  Variable subclass : nat -> nat -> bool.
  Variable fields : nat -> F + list F.
  Hypothesis ord : class_order subclass.
  Notation eq := (py_eq veqb subclass fields).
  Notation ne := (py_ne veqb subclass fields).
  Notation geq := (generic_eq veqb subclass fields).

  Definition same_fields (x y : obj F V) : bool :=
    match fields (cls x) with
    | inl f => match attr x f, attr y f with Some v, Some w => veqb v w | _, _ => false end
    | inr l => match any_differs veqb x y l with Some false => true | _ => false end
    end.
  Lemma geq_truth : forall x y t, geq x y t = if subclass (cls y) (cls x) && same_fields x y then negb t else t.
  Proof.
    intros x y t. unfold generic_eq, same_fields. destruct (subclass (cls y) (cls x)); auto. destruct (fields (cls x)) as [f|l]; simpl.
    - destruct (attr x f), (attr y f); auto. destruct t, (veqb v v0); auto.
    - destruct (any_differs veqb x y l) as [[]|]; auto.
  Qed.
  Lemma eq_char : forall x y, eq x y = (cls x =? cls y) && same_fields x y.
  Proof.
    intros x y. destruct ord as [R A]. unfold py_eq, dispatch. rewrite !geq_truth. simpl. destruct (cls x =? cls y) eqn:E; simpl.
    - apply Nat.eqb_eq in E. rewrite E, Nat.eqb_refl, !R. simpl. destruct (same_fields x y); auto.
    - apply Nat.eqb_neq in E. replace (cls y =? cls x) with false by (symmetry; apply Nat.eqb_neq; congruence).
      destruct (subclass (cls y) (cls x)) eqn:S; simpl; auto. destruct (subclass (cls x) (cls y)) eqn:S2; simpl; auto. exfalso; auto.
  Qed.
  Lemma ne_neg : forall x y, ne x y = negb (eq x y).
  Proof.
    intros x y. unfold py_ne, py_eq, dispatch. rewrite !geq_truth. destruct (subclass (cls y) (cls x) && negb (cls y =? cls x)).
    - destruct (_ && _); auto.
    - destruct (_ && _); auto.
  Qed.
  Lemma differs_false : forall (l : list F) (x y : obj F V), any_differs veqb x y l = Some false <-> forall f, In f l -> exists v w, attr x f = Some v /\ attr y f = Some w /\ veqb v w = true.
  Proof.
    induction l as [|f l IH]; simpl; intros x y. - split; auto. intros _ f [].
    - destruct (attr x f) as [v|] eqn:Ex.
      + destruct (attr y f) as [w|] eqn:Ey.
        * destruct (veqb v w) eqn:Q. -- rewrite IH. split; intros H g; [intros [<-|I]|]; eauto 6.
          -- split; [discriminate|]. intros H. destruct (H f) as (v' & w' & A & B & C); auto. congruence.
        * split; [discriminate|]. intros H. destruct (H f) as (v' & w' & A & B & C); auto. congruence.
      + split; [discriminate|]. intros H. destruct (H f) as (v' & w' & A & B & C); auto. congruence.
  Qed.
  Lemma eq_meaning : forall x y, eq x y = true <-> cls x = cls y /\ forall f, match fields (cls x) with inl g => f = g | inr l => In f l end ->
    exists v w, attr x f = Some v /\ attr y f = Some w /\ veqb v w = true.
  Proof.
    intros x y. rewrite eq_char, andb_true_iff, Nat.eqb_eq. unfold same_fields. destruct (fields (cls x)) as [g|l].
    - split; intros [E H]; split; auto.
      + intros f ->. destruct (attr x g), (attr y g); try discriminate. eauto.
      + destruct (H g (Logic.eq_refl g)) as (v & w & -> & -> & Q). exact Q.
    - split; intros [E H]; split; auto.
      + apply differs_false. destruct (any_differs veqb x y l) as [[]|]; auto; discriminate.
      + apply differs_false in H. now rewrite H.
  Qed.
  Hypothesis eqv : equivalence veqb.
  Lemma differs_sym : forall (l : list F) (x y : obj F V), any_differs veqb x y l = any_differs veqb y x l.
  Proof.
    destruct eqv as (_ & S & _). induction l as [|f l IH]; simpl; intros x y; auto. destruct (attr x f), (attr y f); auto. rewrite (S v v0). destruct (veqb v0 v); auto.
  Qed.
  Lemma eq_sym' : forall x y, eq x y = eq y x.
  Proof.
    intros x y. rewrite !eq_char, (Nat.eqb_sym (cls y)). destruct (cls x =? cls y) eqn:E; auto. apply Nat.eqb_eq in E. simpl.
    unfold same_fields. rewrite <- E. destruct (fields (cls x)) as [f|l].
    - destruct eqv as (_ & S & _). destruct (attr x f), (attr y f); auto.
    - now rewrite differs_sym.
  Qed.
  Lemma differs_refl : forall (l : list F) (x : obj F V), (forall f, In f l -> attr x f <> None) -> any_differs veqb x x l = Some false.
  Proof.
    destruct eqv as (R & _). induction l as [|f l IH]; simpl; intros x C; auto. destruct (attr x f) eqn:E. - rewrite R. apply IH. intros; apply C; auto. - exfalso. apply (C f); auto.
  Qed.
  Lemma eq_refl' : forall x, complete fields x -> eq x x = true.
  Proof.
    intros x C. rewrite eq_char, Nat.eqb_refl. simpl. unfold same_fields, complete in *. destruct (fields (cls x)) as [f|l].
    - specialize (C f (Logic.eq_refl f)). destruct (attr x f); [apply eqv|congruence].
    - rewrite differs_refl; auto.
  Qed.
  Lemma eq_trans' : forall x y z, eq x y = true -> eq y z = true -> eq x z = true.
  Proof.
    intros x y z. rewrite !eq_char, !andb_true_iff, !Nat.eqb_eq. intros [E1 S1] [E2 S2]. split; [congruence|].
    unfold same_fields in *. rewrite <- E1 in S2. destruct eqv as (_ & _ & T). destruct (fields (cls x)) as [f|l].
    - destruct (attr x f), (attr y f), (attr z f); try discriminate. eauto.
    - destruct (any_differs veqb x y l) as [[]|] eqn:D1; try discriminate. destruct (any_differs veqb y z l) as [[]|] eqn:D2; try discriminate.
      rewrite differs_false in D1, D2. replace (any_differs veqb x z l) with (Some false); auto. symmetry. apply differs_false.
      intros f I. destruct (D1 f I) as (v & w & A & B & C), (D2 f I) as (w' & u & A' & B' & C'). exists v, u. repeat split; auto. apply T with w; auto. congruence.
  Qed.
  Lemma eq_same_hash : (forall v w, veqb v w = true -> hv v = hv w) -> forall x y, eq x y = true -> ohash hv fields x = ohash hv fields y /\ ohash hv fields x <> None.
  Proof.
    intros C x y. rewrite eq_char, andb_true_iff, Nat.eqb_eq. intros [E S]. unfold same_fields, ohash in *. rewrite <- E. destruct (fields (cls x)) as [f|l].
    - destruct (attr x f), (attr y f); try discriminate. simpl. rewrite (C _ _ S). split; auto; discriminate.
    - destruct (any_differs veqb x y l) as [[]|] eqn:D; try discriminate. clear S. rewrite differs_false in D. generalize 0%Z as acc. revert D. induction l as [|f l IH]; simpl; intros D acc.
      + split; auto; discriminate.
      + destruct (D f (or_introl (Logic.eq_refl f))) as (v & w & -> & -> & Q). rewrite (C v w Q). apply IH. auto.
  Qed.
End OmniP.
