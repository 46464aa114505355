(** C121: the breakdown of memory *)
From Coq Require Import ZArith Lia Permutation.
From Verif Require Import Prelude PreludeFacts MoreFacts PySeq_Model Order_Spec SortedList_Proofs MemDump_Model MemDump_Spec MemDump_Proofs.
Set Implicit Arguments.

(** Every object is printed, then each type once, with the sum of the sizes of its objects and their number, the largest first. *)
Theorem C121_partial : forall l, Forall printable l -> exists types,
  dump_memory_on l =
    (flat_map (fun o => match text o with Ok s => [Object s (typ o) (bytes o)] | Err _ => [] end) l ++ [Rule; Heading; Rule] ++
     map (fun t => Total t (total (of_type t l)) (length (of_type t l))) types, None) /\
  NoDup types /\ (forall t, In t types <-> In t (map typ l)) /\
  ForallOrdPairs (fun a b => (total (of_type a l) >= total (of_type b l))%Z) types.
Proof.
  intros l F.
  assert (I0 : inv [] [] []) by (constructor; [constructor|reflexivity|reflexivity]).
  destruct (objects_ok I0 F) as (sc & ins & E & I). cbn [app] in I.
  set (lt := fun x y : nat * Z => Z.ltb (- snd x) (- snd y)).
  exists (map fst (py_sorted lt sc)). pose proof (py_sorted_perm lt sc) as P. destruct I as [W S N].
  assert (V : forall x, In x (py_sorted lt sc) -> snd x = total (of_type (fst x) l) /\ existsb (fun o => typ o =? fst x) l = true).
  { intros [t n] H. apply (Permutation_in _ P) in H. apply (In_dget nateqb_ok) in H; auto. rewrite S in H. cbn [fst snd].
    destruct (existsb (fun o => typ o =? t) l); [|discriminate]. injection H as <-. split; reflexivity. }
  split; [|split; [|split]].
  - unfold dump_memory_on. rewrite E. f_equal. f_equal. f_equal. f_equal. f_equal. unfold summary. fold lt. rewrite map_map. apply map_ext_in. intros x H.
    destruct (V x H) as [V1 V2]. rewrite V1, N, V2. reflexivity.
  - apply (Permutation_NoDup (l := map fst sc)); auto. apply Permutation_map. apply Permutation_sym; auto.
  - intros t. transitivity (In t (dkeys sc)).
    + split; apply Permutation_in; [|apply Permutation_sym]; apply Permutation_map; auto.
    + rewrite <- (dmem_In nateqb_ok). unfold dmem. rewrite S. destruct (existsb (fun o => typ o =? t) l) eqn:X.
      * split; auto. intros _. apply existsb_exists in X. destruct X as (o & Ho & T). apply Nat.eqb_eq in T. subst t. apply in_map; auto.
      * split; [discriminate|]. intros H. apply in_map_iff in H. destruct H as (o & T & Ho). exfalso.
        assert (existsb (fun o => typ o =? t) l = true); [|congruence]. apply existsb_exists. exists o. split; auto. apply Nat.eqb_eq; auto.
  - pose proof (py_sorted_sorted by_size_order sc) as Q. fold lt in Q. revert Q V. generalize (py_sorted lt sc). clear.
    induction 1 as [|x l0 H Q IH]; intros V; [constructor|]. cbn [map]. constructor.
    + apply Forall_forall. intros t T. apply in_map_iff in T. destruct T as (y & <- & Hy). pose proof (H y Hy) as L. unfold lt in L. apply Z.ltb_ge in L.
      destruct (V x (or_introl eq_refl)) as [Vx _]. destruct (V y (or_intror Hy)) as [Vy _]. lia.
    + apply IH. intros y Hy. apply V. right; auto.
Qed.
Print Assumptions C121_partial.
(** "Each Python object will be printed, along with a breakdown" *)
Definition C121_full_statement : Prop := forall l, snd (dump_memory_on l) = None.
(** an object whose repr() raises ends it: those after it are not printed, and there is no breakdown *)
Theorem C121_full_statement_refuted : ~ C121_full_statement.
Proof. intros H. specialize (H [{| typ := 1; size := Ok 5%Z; text := Err ValueError |}]). discriminate. Qed.
Print Assumptions C121_full_statement_refuted.
Theorem C121_fails : forall l1 o l2, Forall printable l1 -> forall e,
  (exists n, size o = Ok n \/ (size o = Err TypeError /\ n = 0%Z)) /\ text o = Err e \/ size o = Err e /\ e <> TypeError ->
  dump_memory_on (l1 ++ o :: l2) = (flat_map (fun o => match text o with Ok s => [Object s (typ o) (bytes o)] | Err _ => [] end) l1, Some e).
Proof.
  intros l1 o l2 F e H.
  assert (K : forall l1 sc ins, Forall printable l1 -> objects (l1 ++ o :: l2) sc ins =
     (flat_map (fun o => match text o with Ok s => [Object s (typ o) (bytes o)] | Err _ => [] end) l1, Err e)).
  { clear - H. induction l1 as [|x l IH]; intros sc ins F.
    - cbn [app objects flat_map]. destruct H as [[[n [S|[S _]]] T]|[S N]]; rewrite S; [rewrite T|rewrite T|]; auto. destruct e; congruence.
    - inversion F as [|? ? [[s T] P] F']; subst. cbn [app objects flat_map].
      assert (X : match size x with Ok n => Ok n | Err TypeError => Ok 0%Z | Err e => Err e end = Ok (bytes x)).
      { unfold bytes. destruct (size x) as [n|e']; auto. subst e'. reflexivity. }
      rewrite X, T, (IH _ _ F'). reflexivity. }
  unfold dump_memory_on. rewrite (K l1 [] [] F). reflexivity.
Qed.
Print Assumptions C121_fails.

Example C121_case : dump_memory_on [{| typ := 1; size := Ok 5%Z; text := Ok 0 |}; {| typ := 2; size := Ok 7%Z; text := Ok 1 |}; {| typ := 1; size := Ok 3%Z; text := Ok 2 |}; {| typ := 3; size := Err TypeError; text := Ok 3 |}] =
  ([Object 0 1 5; Object 1 2 7; Object 2 1 3; Object 3 3 0; Rule; Heading; Rule; Total 1 8 2; Total 2 7 1; Total 3 0 1], None).
Proof. reflexivity. Qed.
Example C121_case_printable : Forall printable [{| typ := 1; size := Ok 5%Z; text := Ok 0 |}; {| typ := 3; size := Err TypeError; text := Ok 3 |}].
Proof. repeat constructor; eexists; reflexivity. Qed.
