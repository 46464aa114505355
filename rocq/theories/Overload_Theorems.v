(* C70: overloads are chosen by the types of the arguments. *)
From Coq Require Import List Bool Arith ZArith String Lia.
From Verif Require Import Prelude Args_Model Args_Spec Args_Proofs
  Overload_Model Overload_Spec Overload_Proofs.
Import ListNotations.

(* The property in full: the function called suits the arguments, and none of
   the others that suit them is more specific; only if no function suits them,
   TypeError is raised. *)
Definition C70_full_statement : Prop :=
  forall (ty : Type) (inst : val -> ty -> bool) (t : list (tsig ty * nat)) args kw,
  (forall o f, In (o, f) t -> writable (t_sig o)) ->
  ((exists o f, In (o, f) t /\ suits inst o args kw) ->
     exists o f, In (o, f) t /\ choose inst t args kw = Ok f /\ suits inst o args kw /\
       forall o' f', In (o', f') t -> suits inst o' args kw -> ~ more_specific inst o' o) /\
  ((forall o f, In (o, f) t -> ~ suits inst o args kw) -> choose inst t args kw = Err TypeError).

(* A function is only called with arguments that suit it. Missing from the
   property: parameters without annotations. *)
Theorem C70_called_suits_partial : forall ty (inst : val -> ty -> bool) t args kw f,
  (forall o f, In (o, f) t -> writable (t_sig o) /\ annotated o) ->
  choose inst t args kw = Ok f -> exists o, In (o, f) t /\ suits inst o args kw.
Proof. exact chosen_matches. Qed.
Print Assumptions C70_called_suits_partial.

(* Provided the arguments can be bound to every overload, the first registered
   suitable function is called, and TypeError is raised if none is suitable.
   Missing: the most specific one should be called, and functions the arguments
   cannot be bound to should not matter. *)
Theorem C70_first_registered_partial : forall ty (inst : val -> ty -> bool) t args kw,
  (forall o f, In (o, f) t ->
     writable (t_sig o) /\ annotated o /\ python_accepts (t_sig o) args kw) ->
  (forall o f, first_suiting inst t args kw o f -> choose inst t args kw = Ok f) /\
  ((forall o f, In (o, f) t -> ~ suits inst o args kw) -> choose inst t args kw = Err TypeError).
Proof. exact first_wins. Qed.
Print Assumptions C70_first_registered_partial.

(* One overload the arguments cannot be bound to makes every such call fail. *)
Theorem C70_unbindable : forall ty (inst : val -> ty -> bool) t args kw o f,
  In (o, f) t -> writable (t_sig o) -> ~ python_accepts (t_sig o) args kw ->
  choose inst t args kw = Err TypeError.
Proof. exact unbindable. Qed.
Print Assumptions C70_unbindable.

(* A function with an unannotated parameter is never called. *)
Theorem C70_unannotated_never_called : forall ty (inst : val -> ty -> bool) t args kw f,
  (forall o, In (o, f) t -> writable (t_sig o) /\
     exists p, In p (t_sig o) /\ t_ann o (p_name p) = None) ->
  choose inst t args kw <> Ok f.
Proof. exact unannotated_never. Qed.
Print Assumptions C70_unannotated_never_called.

(* Registering either adds the function, or raises and changes nothing because
   that signature is taken. *)
Theorem C70_register : forall ty (same : tsig ty -> tsig ty -> bool) t o f t' x,
  register same t o f = (t', x) ->
  (x = None /\ t' = t ++ [(o, f)] /\ forall e, In e t -> same (fst e) o = false) \/
  (x = Some TypeError /\ t' = t /\ exists e, In e t /\ same (fst e) o = true).
Proof. exact register_keeps. Qed.
Print Assumptions C70_register.

Theorem C70_one_function_per_signature : forall ty (same : tsig ty -> tsig ty -> bool) l t t' rs,
  (forall i j a b, i < j -> nth_error t i = Some a -> nth_error t j = Some b ->
     same (fst a) (fst b) = false) ->
  register_all same t l = (t', rs) ->
  (exists r, t' = t ++ r /\ incl r l) /\
  (forall i j a b, i < j -> nth_error t' i = Some a -> nth_error t' j = Some b ->
     same (fst a) (fst b) = false).
Proof. exact registered_distinct. Qed.
Print Assumptions C70_one_function_per_signature.

(* ---- refutations. Types: true is object, false is int; positive numbers are
   the ints. ---- *)
Local Open Scope string_scope.
Definition ex_inst (v : val) (t : bool) : bool :=
  t || match v with Atom n => Z.ltb 0 n | _ => false end.
Definition one (n : string) (t : option bool) : tsig bool :=
  TSig [Param n PosOrKw None] (fun m => if String.eqb m n then t else None).
Definition two : tsig bool :=
  TSig [Param "x" PosOrKw None; Param "y" PosOrKw None] (fun _ => Some true).

Lemma one_writable n t : writable (t_sig (one n t)).
Proof. apply writableb_ok. reflexivity. Qed.

Lemma one_suits n t v : ex_inst v t = true -> suits ex_inst (one n (Some t)) [v] [].
Proof.
  intros H. split.
  { eapply bound_accepts; [reflexivity|]. unfold py_bind, unclaimed, get. simpl.
    unfold get. simpl. rewrite String.eqb_refl. reflexivity. }
  intros [|i] p u w A B C; simpl in A; [|destruct i; discriminate].
  injection A as <-. simpl in B. rewrite String.eqb_refl in B. injection B as <-.
  simpl in C. injection C as <-. auto.
Qed.

(* The body of f(x: int) is never reached when f(x: object) was there first. *)
Theorem C70_most_specific_refuted :
  choose ex_inst [(one "x" (Some true), 0); (one "x" (Some false), 1)] [Atom 5] [] = Ok 0 /\
  choose ex_inst [(one "x" (Some false), 1); (one "x" (Some true), 0)] [Atom 5] [] = Ok 1.
Proof. split; reflexivity. Qed.
Print Assumptions C70_most_specific_refuted.

(* f(x: object) and f(x: object, y: object): neither can be called. *)
Theorem C70_arity_refuted :
  choose ex_inst [(one "x" (Some true), 0); (two, 1)] [Atom 5] [] = Err TypeError /\
  choose ex_inst [(one "x" (Some true), 0); (two, 1)] [Atom 5; Atom 6] [] = Err TypeError.
Proof. split; reflexivity. Qed.
Print Assumptions C70_arity_refuted.

(* f(x) without an annotation *)
Theorem C70_unannotated_refuted : choose ex_inst [(one "x" None, 0)] [Atom 5] [] = Err TypeError.
Proof. reflexivity. Qed.
Print Assumptions C70_unannotated_refuted.

Lemma one_value' n t args kw : suits ex_inst (one n (Some t)) args kw ->
  suits ex_inst (one n (Some true)) args kw.
Proof.
  intros [A B]. split; auto. intros i p u w I T V.
  simpl in T. destruct (String.eqb (p_name p) n) eqn:E; [|discriminate].
  injection T as <-. reflexivity.
Qed.

Theorem C70_full_statement_refuted : ~ C70_full_statement.
Proof.
  intros H.
  destruct (H bool ex_inst [(one "x" (Some true), 0); (one "x" (Some false), 1)] [Atom 5] []) as [F _].
  { intros o f [I|[I|[]]]; injection I as <- _; apply one_writable. }
  destruct F as [o [f [I [C [S N]]]]].
  { exists (one "x" (Some true)), 0. split; [left; auto|apply one_suits; reflexivity]. }
  vm_compute in C. injection C as <-.
  destruct I as [I|[I|[]]]; [|discriminate]. injection I as <-.
  apply (N (one "x" (Some false)) 1); [right; left; auto|apply one_suits; reflexivity|].
  split.
  - intros args kw X. eapply one_value'; eauto.
  - exists [Tup []], []. split; [apply one_suits; reflexivity|].
    intros [_ X]. specialize (X 0 (Param "x" PosOrKw None) false (Tup []) eq_refl eq_refl eq_refl).
    discriminate.
Qed.
Print Assumptions C70_full_statement_refuted.

(* the hypotheses of the partial theorems are met *)
Example C70_hypotheses_met :
  (forall o f, In (o, f) [(one "x" (Some false), 1); (one "y" (Some true), 0)] ->
     writable (t_sig o) /\ annotated o /\ python_accepts (t_sig o) [Tup []] []) /\
  first_suiting ex_inst [(one "x" (Some false), 1); (one "y" (Some true), 0)] [Tup []] []
    (one "y" (Some true)) 0.
Proof.
  split.
  - intros o f [I|[I|[]]]; injection I as <- _; (split; [apply one_writable|]);
      (split; [|eapply bound_accepts; reflexivity]); intros p [<-|[]]; discriminate.
  - exists [(one "x" (Some false), 1)], []. split; auto. split; [apply one_suits; reflexivity|].
    intros e [<-|[]] [_ X].
    specialize (X 0 (Param "x" PosOrKw None) false (Tup []) eq_refl eq_refl eq_refl). discriminate.
Qed.

Example C70_example :
  choose ex_inst [(one "x" (Some false), 1); (one "y" (Some true), 0)] [Tup []] [] = Ok 0 /\
  choose ex_inst [(one "x" (Some false), 1)] [Tup []] [] = Err TypeError /\
  snd (overloaded (fun a b => String.eqb (p_name (hd (Param "" PosOnly None) (t_sig a)))
                                         (p_name (hd (Param "" PosOnly None) (t_sig b))))
        (one "x" (Some true)) 0 [(one "y" (Some true), 1); (one "x" (Some true), 2)])
  = [None; Some TypeError].
Proof. repeat split; reflexivity. Qed.
