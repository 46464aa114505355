(** C120: an iterator as a list; setting an attribute that is not there *)
From Coq Require Import ZArith Lia.
From Verif Require Import Prelude PySeq_Model Adapter_Model Adapter_Spec Adapter_Proofs.
Set Implicit Arguments.

(** The iterator "can be processed as a list": whatever has been done before, indexing, membership and length answer as the list of
    all its elements does. *)
Definition C120_full_statement : Prop := forall A (eqb : A -> A -> bool) (l : list A) os o d, of_list o ->
  last (run eqb (make l) (os ++ [o])) d = list_answer eqb l o.
(** what was taken is lost to the list *)
Theorem C120_full_statement_refuted : ~ C120_full_statement.
Proof. intros H. specialize (H nat Nat.eqb [5; 6] [Next] Len (Is _ true) I). discriminate. Qed.
Print Assumptions C120_full_statement_refuted.
(** It holds as long as nothing has been taken from the adapter. *)
Theorem C120_partial : forall A (eqb : A -> A -> bool) (l : list A) os, Forall (@of_list A) os -> run eqb (make l) os = map (list_answer eqb l) os.
Proof.
  intros A eqb l os F. destruct F as [|o os H F]; [reflexivity|].
  assert (G : forall it p, run eqb {| iterator := it; list_ := Some l; pointer := p |} os = map (list_answer eqb l) os).
  { intros it p. rewrite after. clear H. revert p. induction F as [|x os Hx F IH]; intros p; [reflexivity|]. destruct x; cbn in Hx; try tauto; cbn [map]; f_equal; apply IH. }
  destruct o; cbn in H; try tauto; cbn [run step make list_ unfold_ iterator map]; rewrite G; reflexivity.
Qed.
Print Assumptions C120_partial.
(** What has been taken is gone, exactly: after k elements, the operations answer as the list of the rest. *)
Theorem C120_taken : forall A (eqb : A -> A -> bool) (l : list A) k os, Forall (@of_list A) os ->
  run eqb (make l) (repeat Next k ++ os) = map (element l) (seq 0 k) ++ map (list_answer eqb (skipn k l)) os.
Proof.
  intros A eqb l k os F. unfold make. rewrite nexts. f_equal. apply (C120_partial eqb (skipn k l) F).
Qed.
Print Assumptions C120_taken.
(** Taking elements one by one is not disturbed by such questions: the elements come once each, in order. *)
Theorem C120_iteration : forall A (eqb : A -> A -> bool) (l : list A) os, Forall (fun o => o = Next \/ of_list o) os ->
  taken (combine os (run eqb (make l) os)) = map (element l) (seq 0 (count_next os)).
Proof.
  intros A eqb l os F. unfold make.
  assert (G : forall os, Forall (fun o => o = Next \/ of_list o) os -> forall full k it p,
     taken (combine os (run eqb {| iterator := it; list_ := Some (skipn k full); pointer := p |} os)) = map (element full) (seq (k + p) (count_next os))).
  { clear. intros os F. induction F as [|o os H F IH]; intros full k it p; [reflexivity|].
    destruct o; try (destruct H as [H|H]; [discriminate|cbn in H; tauto]); cbn [run step list_ unfold_ combine]; cbn -[run skipn].
    - f_equal; [|pose proof (IH full k it (S p)) as Q; rewrite <- plus_n_Sm in Q; exact Q].
      unfold element. rewrite nth_error_skipn_. reflexivity.
    - apply (IH full k _ p).
    - apply (IH full k _ p).
    - apply (IH full k _ p). }
  assert (K : forall os, Forall (fun o => o = Next \/ of_list o) os -> forall full k p,
     taken (combine os (run eqb {| iterator := skipn k full; list_ := None; pointer := p |} os)) = map (element full) (seq k (count_next os))).
  { clear - G. intros os F. induction F as [|o os H F IH]; intros full k p; [reflexivity|].
    destruct o; try (destruct H as [H|H]; [discriminate|cbn in H; tauto]); cbn [run step list_ unfold_ combine iterator]; cbn -[run skipn].
    - destruct (skipn k full) as [|a t] eqn:S.
      + cbn -[run skipn]. f_equal.
        * unfold element. rewrite <- (Nat.add_0_r k), <- nth_error_skipn_, S. reflexivity.
        * pose proof (IH full (Datatypes.S k) p) as Q. rewrite (skipn_S_nil _ _ S) in Q. exact Q.
      + cbn -[run skipn]. f_equal.
        * unfold element. rewrite <- (Nat.add_0_r k), <- nth_error_skipn_, S. reflexivity.
        * pose proof (IH full (Datatypes.S k) p) as Q. rewrite (skipn_S_cons _ _ S) in Q. exact Q.
    - pose proof (G os F full k [] 0) as Q. rewrite Nat.add_0_r in Q. exact Q.
    - pose proof (G os F full k [] 0) as Q. rewrite Nat.add_0_r in Q. exact Q.
    - pose proof (G os F full k [] 0) as Q. rewrite Nat.add_0_r in Q. exact Q. }
  apply (K os F l 0 0).
Qed.
Print Assumptions C120_iteration.
(** A loop, though, takes everything the first time, and nothing that comes after sees it; once the adapter has been asked a question
    of a list, every loop sees all that was left. *)
Theorem C120_loop : forall A (eqb : A -> A -> bool) (l : list A) k,
  run eqb (make l) (repeat Next k ++ [Loop; Len; Loop]) = map (element l) (seq 0 k) ++ [Elems (skipn k l); Count A 0; Elems []] /\
  run eqb (make l) (repeat Next k ++ [Len; Next; Loop; Loop]) =
    map (element l) (seq 0 k) ++ [Count A (length (skipn k l)); element l k; Elems (skipn k l); Elems (skipn k l)].
Proof.
  intros A eqb l k. unfold make. split; rewrite nexts; [reflexivity|]. f_equal. cbn -[skipn]. f_equal. f_equal.
  unfold element. rewrite <- (Nat.add_0_r k), <- nth_error_skipn_, Nat.add_0_r. reflexivity.
Qed.
Print Assumptions C120_loop.

(** update_attr_if_none. The attribute is set exactly if it reads as None, or is missing and that is allowed. *)
Theorem C120_update_partial : forall V (o : obj V) v on_attribute_error, (forall v n, setter o v n = None) ->
  update_attr_if_none o v on_attribute_error false =
  match reads o with
  | Ok None => ([(v, None)], Ok tt)
  | Ok (Some _) => ([], Ok tt)
  | Err AttributeError => if on_attribute_error then ([(v, None)], Ok tt) else ([], Err AttributeError)
  | Err e => ([], Err e)
  end.
Proof.
  intros V o v oae S. unfold update_attr_if_none, set_attr. destruct (reads o) as [[x|]|e]; cbn; rewrite ?S; auto.
  destruct e; cbn; auto; destruct oae; cbn; rewrite ?S; reflexivity.
Qed.
Print Assumptions C120_update_partial.
(** with if_value_is_not_none the attribute is not read: a value is set once, None is not *)
Theorem C120_update_value : forall V (o : obj V) v on_attribute_error,
  update_attr_if_none o v on_attribute_error true =
  match v with None => ([], Ok tt) | Some _ => ([(v, setter o v 0)], match setter o v 0 with None => Ok tt | Some e => Err e end) end.
Proof. intros. unfold update_attr_if_none, set_attr. destruct v; reflexivity. Qed.
Print Assumptions C120_update_value.
Definition C120_update_full_statement : Prop := forall V (o : obj V) v on_attribute_error if_value_is_not_none,
  length (fst (update_attr_if_none o v on_attribute_error if_value_is_not_none)) <= 1.
(** an AttributeError of the setter itself makes it be called again *)
Theorem C120_update_full_statement_refuted : ~ C120_update_full_statement.
Proof. intros H. specialize (H nat {| reads := Ok None; setter := fun _ _ => Some AttributeError |} (Some 1) true false). cbn in H. lia. Qed.
Print Assumptions C120_update_full_statement_refuted.

(** cases *)
Example C120_case : run Nat.eqb (make [5; 6; 7]) [Next; Len; Item (-1); Next; Contains 5; Next; Next] =
  [Elem 5; Count _ 2; Elem 7; Elem 6; Is _ false; Elem 7; Exc _ StopIteration] /\ Forall (@of_list nat) [Len; Item (-1)%Z; Contains 7].
Proof. split; [reflexivity|]. repeat constructor. Qed.
