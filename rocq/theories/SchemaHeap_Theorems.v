(** C122: checking a configuration does not change it *)
From Coq Require Import String Lia.
From Verif Require Import Prelude PreludeFacts MoreFacts SchemaHeap_Model SchemaHeap_Spec SchemaHeap_Proofs.
Set Implicit Arguments.

(** Whatever a descriptor is, and whatever it is given, every list and dictionary there was has the contents it had, whether the value is
    accepted, refused or something else is raised. *)
Theorem C122_input_kept : forall fuel d h v, kept h (fst (call fuel d h v)).
Proof. exact call_kept. Qed.
Print Assumptions C122_input_kept.

(** The result shares no object with what there was ("checking gives a new configuration"). *)
Definition C122_full_statement : Prop := forall fuel d h v h' w, call fuel d h v = (h', Ok w) -> forall n, reach h' w n -> next h <= n.
(** It does where a part is not described: the element of a List() is the same object *)
Theorem C122_full_statement_refuted : ~ C122_full_statement.
Proof.
  intros H.
  set (h := {| cells := fun n => match n with 0 => LCell [VRef 1] | _ => LCell [] end; next := 2 |}).
  specialize (H 2 (HList any) h (VRef 0)). cbn in H. specialize (H _ _ eq_refl 1). 
  assert (2 <= 1); [|lia]. apply H. eapply reach_in; [|apply reach_here]. cbn. auto.
Qed.
Print Assumptions C122_full_statement_refuted.
(** nor are unknown keys copied *)
Theorem C122_unknown_refuted : exists h h' w, call 1 (HDict [] keep) h (VRef 0) = (h', Ok w) /\ reach h' w 1 /\ 1 < next h.
Proof.
  exists {| cells := fun n => match n with 0 => DCell [("a"%string, VRef 1)] | _ => LCell [] end; next := 2 |}. eexists. eexists.
  split; [reflexivity|]. split; [|cbn; lia]. eapply reach_in; [|apply reach_here]. cbn. auto.
Qed.
Print Assumptions C122_unknown_refuted.
(** and a default is the same object in every result *)
Theorem C122_default_refuted : exists d h h1 w1 h2 w2, call 1 d h (VRef 0) = (h1, Ok w1) /\ call 1 d h1 (VRef 0) = (h2, Ok w2) /\ w1 <> w2 /\
  reach h2 w1 1 /\ reach h2 w2 1.
Proof.
  exists (HDict [("a"%string, (true, VRef 1, any))] keep).
  exists {| cells := fun n => match n with 0 => DCell [] | _ => LCell [] end; next := 2 |}. do 4 eexists.
  split; [reflexivity|]. split; [reflexivity|]. split; [discriminate|]. split; (eapply reach_in; [|apply reach_here]); cbn; auto.
Qed.
Print Assumptions C122_default_refuted.
(** It does not where everything is described. *)
Theorem C122_partial : forall fuel d h v h' w, thorough d -> call fuel d h v = (h', Ok w) -> forall n, reach h' w n -> next h <= n.
Proof.
  intros fuel d h v h' w TH E n R. destruct (@call_apart fuel d h v h' w TH E) as (G & [A B] & W).
  assert (G n); [|apply A in H; lia]. clear - B W R. induction R as [n|n x m I R IH]; [exact W|]. apply IH. eapply B; eauto.
Qed.
Print Assumptions C122_partial.
(** The list or dictionary itself is always a new one. *)
Theorem C122_new : forall fuel d h v h' w, (exists td, d = HList td) \/ (exists keys mapper, d = HDict keys mapper) -> call fuel d h v = (h', Ok w) ->
  exists n, w = VRef n /\ next h <= n < next h'.
Proof.
  intros [|fuel] d h v h' w D E; [discriminate|]. pose proof (call_kept fuel) as K. destruct D as [[td ->]|[keys [mapper ->]]]; cbn [call] in E.
  - destruct v as [n|n]; [discriminate|].
    assert (Q : forall l, (let (h1, m) := alloc h (LCell l) in
          match list_loop (call fuel) td h1 l [] with
          | (h2, Ok ws) => let (h3, k) := alloc h2 (LCell ws) in (h3, Ok (VRef k))
          | (h2, Err e) => (h2, Err e)
          end) = (h', Ok w) -> exists n, w = VRef n /\ next h <= n < next h').
    { clear E. intros l E. pose proof (kept_alloc h (LCell l)) as A. destruct (alloc h (LCell l)) as [h1 m]. cbn [fst] in A.
      pose proof (list_kept (call fuel) K td l h1 []) as B.
      destruct (list_loop (call fuel) td h1 l []) as [h2 [ws|e]] eqn:X; cbn [fst] in *; [|discriminate].
      cbn in E. injection E as <- <-. exists (next h2). split; auto. cbn. destruct A, B. lia. }
    destruct (cells h n) as [l|l|d]; [eauto|eauto|discriminate].
  - pose proof (copy_kept h v) as A. destruct (copy h v) as [h1 v1]. cbn [fst] in A.
    destruct v1 as [n|n]; [discriminate|]. destruct (cells h1 n) as [l|l|d]; [discriminate|discriminate|].
    pose proof (kept_alloc h1 (DCell d)) as B. destruct (alloc h1 (DCell d)) as [h2 m] eqn:EA. cbn [fst] in B.
    assert (M : next h <= m) by (injection EA as _ <-; apply A).
    pose proof (keys_kept (call fuel) K keys M [] (kept_trans A B)) as D.
    destruct (keys_loop (call fuel) keys h2 m []) as [h3 [out|e]]; cbn [fst] in D; [|discriminate].
    destruct (cells h3 m) as [l|l|rest]; [discriminate|discriminate|]. destruct (unknown_loop mapper rest out) as [o|e]; [|discriminate].
    cbn in E. injection E as <- <-. exists (next h3). split; auto. cbn. destruct D. lia.
Qed.
Print Assumptions C122_new.

(** cases *)
Definition number : desc := HBasic (fun v => match v with VAtom n => Ok (VAtom n) | VRef _ => Err TypeError end).
Example C122_case_thorough : thorough (HDict [("a"%string, (true, VAtom 0, HList number))] (fun _ _ => Err ConfigurationValidationError)).
Proof.
  constructor; [|discriminate]. constructor; [|constructor]. split; [exact I|]. constructor. constructor. intros [n|n] w H; [injection H as <-; exact I|discriminate].
Qed.
Example C122_case :
  let h := {| cells := fun n => match n with 0 => DCell [("a"%string, VRef 1)] | _ => LCell [VAtom 5; VAtom 6] end; next := 2 |} in
  exists h' w, call 3 (HDict [("a"%string, (true, VAtom 0, HList number))] keep) h (VRef 0) = (h', Ok w) /\ w = VRef 6 /\
    cells h' 6 = DCell [("a"%string, VRef 5)] /\ cells h' 5 = LCell [VAtom 5; VAtom 6] /\ cells h' 0 = cells h 0.
Proof. eexists. eexists. split; [reflexivity|]. repeat split. Qed.
