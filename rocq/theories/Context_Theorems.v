(** C72: theorems. *)
From Coq Require Import String Lia.
From Verif Require Import Prelude Context_Model Context_Spec Context_Proofs.

(** Reading a variable gives the value of the nearest context, going up the parents, that mentions it; a deletion hides what is above. *)
Theorem C72_getattr : forall (V : Type) (s : state V) c n, reachable s -> exists_ s c -> ~ In n own_names ->
  exists r, step s (GetAttr V c n) = (s, OVal r) /\
    (forall v, r = Ok v <-> visible s c n v) /\ (forall e, r = Err e -> e = AttributeError).
Proof. exact get_attr. Qed.
Print Assumptions C72_getattr.

Theorem C72_does_exist : forall (V : Type) (s : state V) c n, reachable s -> exists_ s c ->
  exists b, step s (Exists V c n) = (s, OBool V (Ok b)) /\ (b = true <-> exists v, visible s c n v).
Proof. exact exists_rule. Qed.
Print Assumptions C72_does_exist.

(** Setting: this name, in this context and those under it. *)
Theorem C72_setattr : forall (V : Type) (s : state V) c n v, reachable s -> exists_ s c -> ~ In n ["parent"; "variables"; "bool"]%string ->
  let s' := fst (step s (SetAttr c n v)) in
  snd (step s (SetAttr c n v)) = ODone V /\
  (forall w, visible s' c n w <-> w = v) /\
  (forall c' m w, m <> n \/ ~ above s c' c -> (visible s' c' m w <-> visible s c' m w)).
Proof. exact set_rule. Qed.
Print Assumptions C72_setattr.

(** Deleting hides the name from this context, even if a parent has it, and takes nothing from the parents. *)
Theorem C72_delattr : forall (V : Type) (s : state V) c n, reachable s -> exists_ s c ->
  let s' := fst (step s (DelAttr V c n)) in
  snd (step s (DelAttr V c n)) = ODone V /\
  (forall w, ~ visible s' c n w) /\
  (forall c' m w, m <> n \/ ~ above s c' c -> (visible s' c' m w <-> visible s c' m w)).
Proof. exact del_rule. Qed.
Print Assumptions C72_delattr.

(** push_up with a value: the parent has it *)
Theorem C72_push_up_value : forall (V : Type) (s : state V) c k p n v, reachable s -> nth_error (cards s) c = Some k -> parent k = Some p ->
  let s' := fst (step s (PushUp c n (Some v))) in
  snd (step s (PushUp c n (Some v))) = ODone V /\
  (forall w, visible s' p n w <-> w = v) /\
  (forall c' m w, m <> n \/ ~ above s c' p -> (visible s' c' m w <-> visible s c' m w)).
Proof. exact push_value. Qed.
Print Assumptions C72_push_up_value.

(** push_up of a variable of the context itself: it moves up and both see it *)
Theorem C72_push_up_own : forall (V : Type) (s : state V) c k p n v, reachable s -> nth_error (cards s) c = Some k -> parent k = Some p ->
  dget String.eqb (variables k) n = Some (Some v) ->
  let s' := fst (step s (PushUp c n None)) in
  snd (step s (PushUp c n None)) = ODone V /\
  (forall w, visible s' p n w <-> w = v) /\ (forall w, visible s' c n w <-> w = v) /\
  (forall c' m w, m <> n \/ ~ above s c' p -> (visible s' c' m w <-> visible s c' m w)).
Proof. exact push_own. Qed.
Print Assumptions C72_push_up_own.

(** The constructor: its variables first, then its parent's. *)
Theorem C72_new : forall (V : Type) (s : state V) p vars, reachable s -> dwf vars -> (forall q, p = Some q -> exists_ s q) ->
  let s' := fst (step s (New p vars)) in
  exists b, snd (step s (New p vars)) = OContext V b /\ ~ exists_ s b /\
    (forall n v, visible s' b n v <->
      dget String.eqb vars n = Some v \/ (dget String.eqb vars n = None /\ exists q, p = Some q /\ visible s q n v)) /\
    (forall x n v, exists_ s x -> (visible s' x n v <-> visible s x n v)).
Proof. exact new_rule. Qed.
Print Assumptions C72_new.

(** Entering a with block gives the thread a new, empty context on top of the one it had. *)
Theorem C72_enter : forall (V : Type) (s : state V) t c, reachable s ->
  exists b, step s (Enter V t c) = (fst (step s (Enter V t c)), OContext V b) /\
    let s' := fst (step s (Enter V t c)) in
    ~ exists_ s b /\ exists_ s' b /\ current s' t = Some b /\ snd (step s' (Get V t)) = OContext V b /\
    (forall n v, visible s' b n v <-> exists p, current s t = Some p /\ visible s p n v) /\
    (forall p, current s t = Some p -> above s' b p) /\
    (forall x n v, exists_ s x -> (visible s' x n v <-> visible s x n v)).
Proof. exact enter_rule. Qed.
Print Assumptions C72_enter.

(** Context.get(): the thread's context; an empty one is made the first time. *)
Theorem C72_get : forall (V : Type) (s : state V) t, reachable s ->
  let s' := fst (step s (Get V t)) in
  exists b, snd (step s (Get V t)) = OContext V b /\ current s' t = Some b /\
    (forall c, current s t = Some c -> b = c /\ s' = s) /\
    (current s t = None -> ~ exists_ s b /\ (forall n v, ~ visible s' b n v) /\
      (forall x n v, exists_ s x -> (visible s' x n v <-> visible s x n v))).
Proof. exact get_rule. Qed.
Print Assumptions C72_get.

(** What other threads do, and operations on variables, never changes which context a thread is in. *)
Theorem C72_threads : forall (V : Type) (s : state V) o t, foreign t o -> current (fst (step s o)) t = current s t.
Proof. exact other_threads. Qed.
Print Assumptions C72_threads.

(** ** After a with block the thread has the context it had before it *)
Definition C72_full_statement : Prop := forall (V : Type) (s : state V) t c m body, reachable s -> current s t = Some c ->
  current (perform t s (With m body)) t = Some c.

(** It does for [with Context(parent=Context.get()):], whatever is done, entered and left inside. *)
Theorem C72_with_partial : forall (V : Type) (s : state V) t c body, reachable s -> current s t = Some c ->
  current (perform t s (With OnCurrent body)) t = Some c.
Proof. intros V s t c body R. exact (with_on_current V t body s c (reachable_wf V s R)). Qed.
Print Assumptions C72_with_partial.

(** After [with Context():] the thread has no context at all - also when it had one. *)
Theorem C72_with_fresh : forall (V : Type) (s : state V) t body, current (perform t s (With Fresh body)) t = None.
Proof. intros V s t body. exact (with_outermost V t body s). Qed.
Print Assumptions C72_with_fresh.

Definition in_context : state nat := fst (run (begin nat) [Get nat 0; SetAttr 0 "value"%string 22]).
Theorem C72_full_statement_refuted : ~ C72_full_statement.
Proof.
  intros H. specialize (H nat in_context 0 0 Fresh []). rewrite C72_with_fresh in H.
  assert (X: @None nat = Some 0); [|discriminate]. apply H; [eexists; reflexivity|reflexivity].
Qed.
Print Assumptions C72_full_statement_refuted.

(** with Context(): set a variable, then an inner with Context(): after the inner block Context.get() does not show the variable *)
Theorem C72_nested_loses_refuted : exists (s : state nat), reachable s /\ visible s 0 "value"%string 22 /\ current s 0 = Some 0 /\
  let s' := perform 0 s (With Fresh []) in
  exists b, snd (step s' (Get nat 0)) = OContext nat b /\ forall v, ~ visible (fst (step s' (Get nat 0))) b "value"%string v.
Proof.
  exists in_context. split; [eexists; reflexivity|]. split; [eapply visible_here; reflexivity|]. split; [reflexivity|].
  eexists. split; [reflexivity|]. intros v H. inversion H; subst; vm_compute in H0; injection H0 as <-; discriminate.
Qed.
Print Assumptions C72_nested_loses_refuted.
(** [with Context.get():] leaves one context too many *)
Theorem C72_with_get_refuted : exists (s : state nat) c, reachable s /\ current s 0 = Some c /\ current (perform 0 s (With TheCurrent [])) 0 <> Some c.
Proof. exists in_context, 0. split; [eexists; reflexivity|]. split; [reflexivity|]. vm_compute. discriminate. Qed.
Print Assumptions C72_with_get_refuted.
(** push_up without a parent raises an exception and loses the variable *)
Theorem C72_push_up_loses_refuted : exists (s : state nat), reachable s /\ visible s 0 "value"%string 22 /\
  snd (step s (PushUp 0 "value"%string None)) = OErr nat AttributeError /\
  forall v, ~ visible (fst (step s (PushUp 0 "value"%string None))) 0 "value"%string v.
Proof.
  exists in_context. split; [eexists; reflexivity|]. split; [eapply visible_here; reflexivity|]. split; [reflexivity|].
  intros v H. inversion H; subst; vm_compute in H0; injection H0 as <-; discriminate.
Qed.
Print Assumptions C72_push_up_loses_refuted.
(** push_up of a visible variable that belongs to a parent raises KeyError *)
Theorem C72_push_up_inherited_refuted : exists (s : state nat) c, reachable s /\ visible s c "value"%string 22 /\
  snd (step s (PushUp c "value"%string None)) = OErr nat KeyError.
Proof.
  exists (fst (step in_context (Enter nat 0 0))), 1. split.
  { exists [Get nat 0; SetAttr 0 "value"%string 22; Enter nat 0 0]. reflexivity. }
  split; [|reflexivity]. eapply visible_up; [reflexivity|reflexivity|reflexivity|]. eapply visible_here; reflexivity.
Qed.
Print Assumptions C72_push_up_inherited_refuted.
(** push_up of a variable deleted in the context hides the parent's *)
Theorem C72_push_up_deleted_refuted : exists (s : state nat), reachable s /\ visible s 0 "value"%string 22 /\ (forall v, ~ visible s 1 "value"%string v) /\
  snd (step s (PushUp 1 "value"%string None)) = ODone nat /\
  forall v, ~ visible (fst (step s (PushUp 1 "value"%string None))) 0 "value"%string v.
Proof.
  exists (fst (run (begin nat) [Get nat 0; SetAttr 0 "value"%string 22; Enter nat 0 0; DelAttr nat 1 "value"%string])).
  split; [eexists; reflexivity|]. split; [eapply visible_here; reflexivity|]. split.
  { intros v H. inversion H; subst; vm_compute in H0; injection H0 as <-; discriminate. }
  split; [reflexivity|]. intros v H. inversion H; subst; vm_compute in H0; injection H0 as <-; discriminate.
Qed.
Print Assumptions C72_push_up_deleted_refuted.
(** a variable named get is stored and cannot be read as an attribute *)
Theorem C72_name_of_method_refuted : exists (s : state nat), reachable s /\ visible s 0 "get"%string 1 /\ snd (step s (GetAttr nat 0 "get"%string)) = OMember nat.
Proof.
  exists (fst (run (begin nat) [New None []; SetAttr 0 "get"%string 1])).
  split; [eexists; reflexivity|]. split; [eapply visible_here; reflexivity|reflexivity].
Qed.
Print Assumptions C72_name_of_method_refuted.

(** the hypotheses are met: three contexts deep, a deletion in the middle *)
Definition deep : state nat := fst (run (begin nat)
  [Get nat 0; SetAttr 0 "a"%string 1; SetAttr 0 "b"%string 2; Enter nat 0 0; DelAttr nat 1 "a"%string; Enter nat 0 0; Enter nat 7 0]).
Example C72_met : reachable deep /\ exists_ deep 2 /\ ~ In "a"%string own_names /\ current deep 0 = Some 2 /\ above deep 2 0 /\ ~ above deep 3 0.
Proof.
  split; [eexists; reflexivity|]. split; [vm_compute; lia|]. split.
  { vm_compute. intros H. repeat destruct H as [H|H]; try discriminate; auto. }
  split; [reflexivity|]. split.
  { eapply above_up; [reflexivity|reflexivity|]. eapply above_up; [reflexivity|reflexivity|]. eapply above_self; reflexivity. }
  intros H. inversion H; subst. vm_compute in H0. injection H0 as <-. discriminate.
Qed.
Example C72_ex : snd (step deep (GetAttr nat 2 "b"%string)) = OVal (Ok 2) /\ snd (step deep (GetAttr nat 2 "a"%string)) = OVal (Err AttributeError)
  /\ snd (step deep (GetAttr nat 0 "a"%string)) = OVal (Ok 1) /\ snd (step deep (Exists nat 2 "a"%string)) = OBool nat (Ok false).
Proof. repeat split; reflexivity. Qed.
Example C72_nested_ex : current (perform 0 in_context (With OnCurrent [With Fresh []; Do (Enter nat 5 0); With OnCurrent [With TheCurrent []]])) 0 = Some 0.
Proof. reflexivity. Qed.
