(** C78: theorems. *)
From Verif Require Import Prelude Proxy_Model Proxy_Spec Proxy_Proofs.

(** ** Proxy *)
(** An expression gives the same with proxies of objects in the place of the objects, whatever the operators do. *)
Definition C78_full_statement : Prop := forall (V : Type) op2 op1 (e : expr V), res_map (@strip V) (value op2 op1 e) = plainly op2 op1 e.
(** Without % and round(x). *)
Theorem C78_expressions_partial : forall (V : Type) op2 op1 (e : expr V), usual e -> res_map (@strip V) (value op2 op1 e) = plainly op2 op1 e.
Proof. exact value_strip. Qed.
Print Assumptions C78_expressions_partial.
(** % of a proxy is a TypeError, and round(proxy) is round(object, 0), which is a float for a float. *)
Theorem C78_mod_refuted : forall (V : Type) op2 (a b : V) w, eval op2 Mod_ (Prox (Plain a) w) (Plain b) = Err TypeError /\
  eval op2 Mod_ (Plain a) (Prox (Plain b) w) = Err TypeError /\ inplace op2 Mod_ (Prox (Plain a) w) (Plain b) = Err TypeError.
Proof. intros. repeat split; reflexivity. Qed.
Print Assumptions C78_mod_refuted.
Theorem C78_round_refuted : forall (V : Type) op1 (x : val V) w, res_map (@strip V) (unary op1 Round (Prox x w)) = op1 (RoundTo 0) (strip x).
Proof. exact round_strip. Qed.
Print Assumptions C78_round_refuted.
Theorem C78_full_statement_refuted : ~ C78_full_statement.
Proof.
  intros H. specialize (H nat (fun _ a b => Ok a) (fun _ a => Ok a) (Bin Mod_ (Const (Prox (Plain 7) false)) (Const (Plain 2)))). discriminate H.
Qed.
Print Assumptions C78_full_statement_refuted.

(** x += y and the like: the name holds the proxy afterwards, of what the object would be. *)
Theorem C78_inplace_partial : forall (V : Type) op2 o (x y : val V) w, o <> Mod_ -> o <> Divmod ->
  res_map (@strip V) (inplace op2 o x y) = op2 o (strip x) (strip y) /\
  forall r, inplace op2 o (Prox x w) y = Ok r -> exists z, r = Prox z w.
Proof. intros. split; [apply inplace_strip; auto|]. intros. eapply inplace_stays; eauto. Qed.
Print Assumptions C78_inplace_partial.

(** Comparisons, for objects whose x < y is y > x and so on. *)
Theorem C78_compare : forall (V : Type) (cmp2 : cop -> V -> V -> res bool), mirrored cmp2 ->
  forall c x y, compare cmp2 c x y = cmp2 c (strip x) (strip y).
Proof. exact compare_mirrored. Qed.
Print Assumptions C78_compare.

(** Without wrap_operations the result is not a proxy. *)
Theorem C78_shed : forall (V : Type) op2 o (x y : val V) r, plain_results x -> plain_results y -> eval op2 o x y = Ok r -> exists v, r = Plain v.
Proof. exact eval_shed. Qed.
Print Assumptions C78_shed.

(** With wrap_operations, results of arithmetic and bitwise operations, except for divmod, are proxies, as are roundings. *)
Definition C78_wrap_full_statement : Prop := forall (V : Type) op2 o (x y r : val V), o <> Divmod -> eval op2 o (Prox x true) y = Ok r -> is_proxy r.
Theorem C78_wrap_partial : forall (V : Type) op2 op1,
  (forall o (x y r : val V), ~ In o [And_; Or_; Divmod] -> eval op2 o (Prox x true) y = Ok r -> is_proxy r) /\
  (forall u (x r : val V), In u [Neg; Pos; Invert; Abs; Trunc; Floor; Ceil; Round] \/ (exists n, u = RoundTo n) ->
    unary op1 u (Prox x true) = Ok r -> is_proxy r).
Proof. intros. split; [apply eval_wraps|apply unary_wraps]. Qed.
Print Assumptions C78_wrap_partial.
(** & and | are not wrapped; reflected, they are. *)
Theorem C78_wrap_and_refuted : eval (fun _ a b => Ok (a + b)) And_ (Prox (Plain 1) true) (Plain 2) = Ok (Plain 3) /\
  eval (fun _ a b => Ok (a + b)) And_ (Plain 1) (Prox (Plain 2) true) = Ok (Prox (Plain 3) false).
Proof. split; reflexivity. Qed.
Print Assumptions C78_wrap_and_refuted.
(** The proxy that comes out does not have wrap_operations: the second of two operations is not wrapped. *)
Theorem C78_wrap_second_refuted : forall (V : Type) op2 (a b c d : V), op2 Add a b = Ok d -> forall e, op2 Add d c = Ok e ->
  value op2 (fun _ v => Ok v) (Bin Add (Bin Add (Const (Prox (Plain a) true)) (Const (Plain b))) (Const (Plain c))) = Ok (Plain e).
Proof. intros V op2 a b c d H e E. simpl. rewrite H. simpl. rewrite E. reflexivity. Qed.
Print Assumptions C78_wrap_second_refuted.
Theorem C78_wrap_full_statement_refuted : ~ C78_wrap_full_statement.
Proof.
  intros H. specialize (H nat (fun _ a b => Ok (a + b)) And_ (Plain 1) (Plain 2) (Plain 3)). destruct H as (y & w & E); [discriminate|reflexivity|discriminate].
Qed.
Print Assumptions C78_wrap_full_statement_refuted.
Example C78_met : let op2 := fun o a b => match o with Sub => if Nat.leb b a then Ok (a - b) else Err ValueError | _ => Ok (a + b) end in
  let e := Bin Sub (Const (Plain 9)) (Bin Add (Const (Prox (Prox (Plain 2) false) true)) (Const (Prox (Plain 3) true))) in
  usual e /\ value op2 (fun _ v => Ok v) e = Ok (Plain 4) /\ plainly op2 (fun _ v => Ok v) e = Ok 4.
Proof. repeat split; discriminate. Qed.

(** ** Optional *)
(** A chain of uses of Optional(None), however long, gives the empty Optional. *)
Theorem C78_empty : forall (V U : Type) use none_use (us : list U), chain use none_use (Opt (@None V)) us = Ok (Opt None).
Proof. intros. apply empty_chain. Qed.
Print Assumptions C78_empty.
(** Of another object, it is the chain of the object itself: what is handed out is never an Optional. *)
Theorem C78_present : forall (V U : Type) (use : V -> U -> res (option V)) none_use v us, us <> [] ->
  chain use none_use (Opt (Some v)) us = chain use none_use (Obj v) us /\
  forall r, chain use none_use (Opt (Some v)) us = Ok r -> forall o, r <> Opt o.
Proof. intros V U use none_use v us N. split; [destruct us; [congruence|reflexivity]|]. intros r E. eapply never_wrapped; eauto. Qed.
Print Assumptions C78_present.
(** Membership and truth of the empty Optional are false, changes of it are not made. *)
Theorem C78_empty_tests : forall (V U : Type) (use : V -> U -> res (option V)) contains truth u,
  opt_contains contains (@None V) = Ok false /\ opt_truth truth (@None V) = Ok false /\ opt_change use None u = None.
Proof. repeat split. Qed.
Print Assumptions C78_empty_tests.

(** A nonexistent element always compares false. *)
Definition C78_optional_full_statement : Prop := forall (V : Type) cmp2 cmp_none c (b : V), opt_compare cmp2 cmp_none c None b = Ok false.
Theorem C78_optional_equal_partial : forall (V : Type) cmp2 cmp_none (b : V), opt_compare cmp2 cmp_none Eq_ None b = Ok false.
Proof. reflexivity. Qed.
Print Assumptions C78_optional_equal_partial.
(** Only == does: != is True and < raises, as for None itself. *)
Theorem C78_optional_compare_refuted : forall (V : Type) cmp2 cmp_none c (b : V), c <> Eq_ -> opt_compare cmp2 cmp_none c None b = cmp_none c b.
Proof. intros V cmp2 cmp_none c b N. destruct c; auto; congruence. Qed.
Print Assumptions C78_optional_compare_refuted.
Theorem C78_optional_full_statement_refuted : ~ C78_optional_full_statement.
Proof. intros H. specialize (H nat (fun _ _ _ => Ok true) (fun c _ => match c with Ne_ => Ok true | Eq_ => Ok false | _ => Err TypeError end) Ne_ 5). discriminate H. Qed.
Print Assumptions C78_optional_full_statement_refuted.
