(** C105: the size of an object is the sum of the sizes of everything in it, each object once. *)
From Verif Require Import Prelude PreludeFacts Size_Model Size_Spec Size_Proofs.
From Coq Require Import Lia.
Set Implicit Arguments.
Open Scope Z_scope.

(** However the object is built, with cycles and shared parts, the answer is the sum over the objects within it, each
    once; it is found at a depth of calls of at most one more than there are objects. *)
Definition C105_full_statement : Prop := forall h x all fuel,
  (forall y, within h x y -> In y all) -> (length all < fuel)%nat ->
  exists l, NoDup l /\ (forall y, In y l <-> within h x y) /\ get_size true h fuel x = Some (Ok (total h l)).
Theorem C105_partial : forall h x all fuel,
  (forall y, within h x y -> plain (h y)) ->
  (forall y, within h x y -> In y all) -> (length all < fuel)%nat ->
  exists l, NoDup l /\ (forall y, In y l <-> within h x y) /\ get_size true h fuel x = Some (Ok (total h l)).
Proof.
  intros h x all fuel P Ha Hf. unfold get_size. destruct (sized h fuel x []) as [[t s]|] eqn:E.
  - destruct (sized_visited _ _ _ _ E) as (new & -> & V & ->). exists new. split; [apply (v_nodup V)|]. split; [|reflexivity].
    intros y. rewrite (visited_all V). split; [apply via_within|apply within_via; exact P].
  - exfalso. eapply sized_ends; [| |exact E].
    + intros y Hy. apply Ha. apply via_within. exact Hy.
    + eapply Nat.le_lt_trans; [|exact Hf]. apply unseen_all.
Qed.
Print Assumptions C105_partial.
(** Whatever the objects, it ends, counts nothing outside of the object, and nothing twice. *)
Theorem C105_ends : forall h x all fuel,
  (forall y, within h x y -> In y all) -> (length all < fuel)%nat ->
  exists l, NoDup l /\ In x l /\ (forall y, In y l -> within h x y) /\ get_size true h fuel x = Some (Ok (total h l)).
Proof.
  intros h x all fuel Ha Hf. unfold get_size. destruct (sized h fuel x []) as [[t s]|] eqn:E.
  - destruct (sized_visited _ _ _ _ E) as (new & -> & V & ->). exists new. split; [apply (v_nodup V)|].
    split; [apply (visited_all V); constructor|]. split; [|reflexivity].
    intros y Hy. apply (visited_all V) in Hy. apply via_within. exact Hy.
  - exfalso. eapply sized_ends; [| |exact E].
    + intros y Hy. apply Ha. apply via_within. exact Hy.
    + eapply Nat.le_lt_trans; [|exact Hf]. apply unseen_all.
Qed.
Print Assumptions C105_ends.
(** On another Python it refuses. *)
Theorem C105_cpython_only : forall h fuel x, get_size false h fuel x = Some (Err RuntimeError).
Proof. reflexivity. Qed.
Print Assumptions C105_cpython_only.

(** a list that contains itself, a dict and an instance; the dict and the instance share a string *)
Definition leaf (n : Z) : obj := {| bytes := n; is_dict := false; vals := []; keys := []; attrs := None; items := None; is_text := false |}.
Definition C105_heap : heap := fun x => match x with
  | 0%nat => {| bytes := 80; is_dict := false; vals := []; keys := []; attrs := None; items := Some [0; 1; 3; 1]%nat; is_text := false |}
  | 1%nat => {| bytes := 232; is_dict := true; vals := [2]%nat; keys := [5]%nat; attrs := None; items := Some [5]%nat; is_text := false |}
  | 2%nat => {| bytes := 50; is_dict := false; vals := []; keys := []; attrs := None; items := Some [2]%nat; is_text := true |}
  | 3%nat => {| bytes := 48; is_dict := false; vals := []; keys := []; attrs := Some 4%nat; items := None; is_text := false |}
  | 4%nat => {| bytes := 104; is_dict := true; vals := [2; 0]%nat; keys := [2; 5]%nat; attrs := None; items := Some [2; 5]%nat; is_text := false |}
  | _ => leaf 28
  end.
Example C105_case : get_size true C105_heap 7%nat 0%nat = Some (Ok (80 + 232 + 50 + 48 + 104 + 28)) /\
  (forall y, within C105_heap 0%nat y -> In y [0; 1; 2; 3; 4; 5]%nat) /\ (forall y, within C105_heap 0%nat y -> plain (C105_heap y)).
Proof.
  split; [reflexivity|].
  assert (H : forall y, within C105_heap 0%nat y -> In y [0; 1; 2; 3; 4; 5]%nat).
  { induction 1 as [|y z _ IH C]; [simpl; auto|].
    simpl in IH. repeat (destruct IH as [<-|IH]; [destruct C as [[E [C|C]]|[C|(l & C & Ht & Hi)]]; simpl in *; try discriminate; try (injection C as <-); simpl in *; intuition subst; auto 10; fail|]).
    contradiction. }
  split; [exact H|]. intros y Hy. specialize (H y Hy). simpl in H.
  repeat (destruct H as [<-|H]; [unfold plain; simpl; auto; fail|]). contradiction.
Qed.
(** The elements of an instance of a class derived from list, which has a __dict__, are not counted. *)
Theorem C105_full_statement_refuted : ~ C105_full_statement.
Proof.
  intros H. set (h := fun x : nat => match x with
    | O => {| bytes := 80; is_dict := false; vals := []; keys := []; attrs := Some 1%nat; items := Some [2]%nat; is_text := false |}
    | _ => leaf 28 end).
  destruct (H h 0%nat [0; 1; 2]%nat 4%nat) as (l & N & I & E).
  - induction 1 as [|y z _ IH C]; [simpl; auto|].
    simpl in IH. repeat (destruct IH as [<-|IH]; [destruct C as [[E [C|C]]|[C|(l & C & Ht & Hi)]]; simpl in *; try discriminate; try (injection C as <-); simpl in *; intuition subst; auto 10; fail|]).
    contradiction.
  - simpl. lia.
  - assert (I2 : In 2%nat l).
    { apply I. eapply deeper; [constructor|]. right. right. exists [2]%nat. simpl. auto. }
    assert (I1 : In 1%nat l).
    { apply I. eapply deeper; [constructor|]. right. left. reflexivity. }
    assert (I0 : In 0%nat l) by (apply I; constructor).
    unfold get_size in E. simpl in E. injection E as E.
    assert (G : forall l, 0 <= total h l).
    { intros k. induction k as [|a k IH]; [unfold total; simpl; lia|].
      change (total h (a :: k)) with (bytes (h a) + total h k). assert (0 <= bytes (h a)) by (destruct a; simpl; lia). lia. }
    apply in_split in I0. destruct I0 as (a & b & ->).
    assert (T : forall u v, total h (u ++ v) = total h u + total h v) by (intros; apply total_app).
    assert (TC : forall y l, total h (y :: l) = bytes (h y) + total h l) by reflexivity.
    assert (N1 : In 1%nat (a ++ b)) by (apply in_app_or in I1; apply in_or_app; destruct I1 as [|[|]]; auto; discriminate).
    assert (N2 : In 2%nat (a ++ b)) by (apply in_app_or in I2; apply in_or_app; destruct I2 as [|[|]]; auto; discriminate).
    assert (S1 : total h (a ++ 0%nat :: b) = 80 + total h (a ++ b)) by (rewrite !T, TC; change (bytes (h 0%nat)) with 80; change (bytes (h 1%nat)) with 28; change (bytes (h 2%nat)) with 28; lia).
    apply in_split in N1. destruct N1 as (c & d & Ec). rewrite Ec in *.
    assert (N3 : In 2%nat (c ++ d)) by (apply in_app_or in N2; apply in_or_app; destruct N2 as [|[|]]; auto; discriminate).
    apply in_split in N3. destruct N3 as (e & g & Eg).
    assert (S2 : total h (c ++ 1%nat :: d) = 28 + total h (c ++ d)) by (rewrite !T, TC; change (bytes (h 0%nat)) with 80; change (bytes (h 1%nat)) with 28; change (bytes (h 2%nat)) with 28; lia).
    assert (S3 : total h (e ++ 2%nat :: g) = 28 + total h (e ++ g)) by (rewrite !T, TC; change (bytes (h 0%nat)) with 80; change (bytes (h 1%nat)) with 28; change (bytes (h 2%nat)) with 28; lia).
    rewrite S1, S2, Eg, S3 in E. pose proof (G (e ++ g)). lia.
Qed.
Print Assumptions C105_full_statement_refuted.
