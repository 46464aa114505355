(** C38: exception translators. *)
From Verif Require Import Prelude PreludeFacts Recast_Model Recast_Spec Recast_Proofs.

(** raises_exception and catch_exception, all of them. *)
Theorem C38_raises_exception : forall (E C V : Type) (isa : E -> C -> bool) l (clb : outcome E V),
  match clb with
  | Value _ => raises_exception isa l clb = inl false
  | Raised e => (listed isa l e -> raises_exception isa l clb = inl true) /\ (~ listed isa l e -> raises_exception isa l clb = inr e)
  end.
Proof. intros E C V isa l clb. exact (raises_ok E C V isa l clb). Qed.
Print Assumptions C38_raises_exception.
Theorem C38_catch_exception : forall (E C V : Type) (isa : E -> C -> bool) l (clb : outcome E V) instead value,
  let r := catch_exception isa l clb instead value in
  match clb with
  | Raised e => (listed isa l e -> r = Exception_ V e) /\ (~ listed isa l e -> r = Other V e)
  | Value v => match instead with Some w => r = Plain E (Some w) | None => if value then r = Plain E v else r = NoException end
  end.
Proof. intros E C V isa l clb instead value. exact (catch_ok E C V isa l clb instead value). Qed.
Print Assumptions C38_catch_exception.

(** reraise_as, rethrow_as and log_exceptions around a block. *)
Theorem C38_reraise_as_block : forall (E C V : Type) (isa : E -> C -> bool) l target (o : outcome E V),
  replaced isa l (match target with Some t => Raised t | None => Value None end) o (reraise_block isa l target o).
Proof. intros E C V isa l target o. exact (reraise_block_spec E C V isa l target o). Qed.
Print Assumptions C38_reraise_as_block.
Theorem C38_rethrow_as_block : forall (E C V : Type) (isa : E -> C -> bool) pairs (o : outcome E V),
  first_pair isa pairs (Value None) o (rethrow_block isa pairs o).
Proof. intros E C V isa pairs o. exact (block_ok E C V isa pairs o). Qed.
Print Assumptions C38_rethrow_as_block.
Theorem C38_log_exceptions_block : forall (E C V : Type) (isa : E -> C -> bool) l swallow log (o : outcome E V),
  let after := log_block isa l swallow log o in
  match o with
  | Value v => after = (log, Value v)
  | Raised e => (listed isa l e -> after = (log ++ [e], if swallow then Value None else Raised e)) /\ (~ listed isa l e -> after = (log, Raised e))
  end.
Proof. intros E C V isa l swallow log o. exact (log_block_spec E C V isa l swallow log o). Qed.
Print Assumptions C38_log_exceptions_block.

(** The same as decorators. *)
Definition C38_reraise_as_decorator : Prop := forall (E C V : Type) (isa : E -> C -> bool) (exception : E -> bool) l target (o : outcome E V),
  replaced isa l (match target with Some t => Raised t | None => Value None end) o (reraise_decorated isa exception l target o).
Definition C38_rethrow_as_decorator : Prop := forall (E C V : Type) (isa : E -> C -> bool) pairs returns factory (b : body E V) o,
  let silenced := silenced_value returns factory in
  ends isa pairs silenced b o -> first_pair isa pairs silenced o (call isa pairs returns factory b).
Definition C38_full_statement : Prop := C38_reraise_as_decorator /\ C38_rethrow_as_decorator.

(** Missing: listed exceptions that do not derive from Exception, such as SystemExit. *)
Theorem C38_reraise_as_decorator_partial : forall (E C V : Type) (isa : E -> C -> bool) (exception : E -> bool) l target (o : outcome E V),
  (forall e, o = Raised e -> listed isa l e -> exception e = true) ->
  replaced isa l (match target with Some t => Raised t | None => Value None end) o (reraise_decorated isa exception l target o).
Proof. intros E C V isa exception l target o. exact (reraise_decorated_spec E C V isa exception l target o). Qed.
Print Assumptions C38_reraise_as_decorator_partial.
Theorem C38_log_exceptions_decorator_partial : forall (E C V : Type) (isa : E -> C -> bool) (exception : E -> bool) l swallow log (o : outcome E V),
  let after := log_decorated isa exception l swallow log o in
  match o with
  | Value v => after = (log, Value v)
  | Raised e => (listed isa l e -> exception e = true -> after = (log ++ [e], if swallow then Value None else Raised e)) /\
                (~ listed isa l e -> after = (log, Raised e))
  end.
Proof. intros E C V isa exception l swallow log o. exact (log_decorated_spec E C V isa exception l swallow log o). Qed.
Print Assumptions C38_log_exceptions_decorator_partial.

(** Missing: functions that call themselves and meet a listed exception in the inner call. *)
Theorem C38_rethrow_as_decorator_partial : forall (E C V : Type) (isa : E -> C -> bool) pairs returns factory (b : body E V) o,
  let silenced := silenced_value returns factory in
  undisturbed isa pairs silenced b -> ends isa pairs silenced b o -> first_pair isa pairs silenced o (call isa pairs returns factory b).
Proof. intros E C V isa pairs returns factory b o. exact (call_ok E C V isa pairs returns factory b o). Qed.
Print Assumptions C38_rethrow_as_decorator_partial.
Theorem C38_silence_excs_partial : forall (E C V : Type) (isa : E -> C -> bool) l returns factory (b : body E V) o,
  let silenced := silenced_value returns factory in
  undisturbed isa [(l, None)] silenced b -> ends isa [(l, None)] silenced b o ->
  replaced isa l silenced o (silence_excs isa l returns factory b).
Proof. intros E C V isa l returns factory b o. exact (silence_ok E C V isa l returns factory b o). Qed.
Print Assumptions C38_silence_excs_partial.

(** rethrow_as(A, B), rethrow_as(A, None) and rethrow_as((A, B), (C, D), ...) stand for the pairs one expects. *)
Theorem C38_rethrow_as_arguments : forall (C : Type) (a : arg C) (ps : list (arg C * arg C)),
  (forall c, mapping_of [a; Class c] = [Tuple [a; Class c]]) /\ mapping_of [a; NoneArg] = [Tuple [a; NoneArg]] /\
  mapping_of (map (fun p => Tuple [fst p; snd p]) ps) = map (fun p => Tuple [fst p; snd p]) ps.
Proof. intros C a ps. exact (mapping_ok C a ps). Qed.
Print Assumptions C38_rethrow_as_arguments.

(** classes 0 > 1 > 2 > ...: an exception n is an instance of c when c <= n; 0 alone is BaseException *)
Definition under (e c : nat) : bool := Nat.leb c e.
Definition is_exception (e : nat) : bool := Nat.leb 1 e.
Example C38_first_pair_example : call (V := Z) under [([5], Some (fun _ => 100)); ([2; 3], None); ([1], Some (fun _ => 200))] (Some 9%Z) None (End (Raised 4)) = Value (Some 9%Z)
  /\ call (V := Z) under [([5], Some (fun _ => 100)); ([2; 3], None); ([1], Some (fun _ => 200))] (Some 9%Z) None (End (Raised 1)) = Raised 200
  /\ call (V := Z) under [([5], Some (fun _ => 100)); ([2; 3], None); ([1], Some (fun _ => 200))] (Some 9%Z) None (End (Raised 6)) = Raised 100.
Proof. repeat split. Qed.
(** a function that calls itself once; the inner call raises an exception that is not listed, and it is caught *)
Definition recursive (inner : outcome nat Z) : body nat Z := CallSelf (End inner) (fun _ => End (Value (Some 3%Z))).
Example C38_recursive_example : undisturbed under [([5], None)] (Value None) (recursive (Raised 2)) /\ ends under [([5], None)] (Value None) (recursive (Raised 2)) (Value (Some 3%Z)).
Proof.
  assert (forall l (to : option (nat -> nat)), In (l, to) [([5], None)] -> ~ listed under l 2) as H.
  { intros l to [Q|[]] (c & Hc & Hu). injection Q as <- <-. destruct Hc as [<-|[]]. discriminate Hu. }
  split.
  - eapply U_call; [constructor|constructor| |constructor]. intros e Q. injection Q as <-. exact H.
  - eapply En_call; [constructor|apply FP_other; exact H|constructor].
Qed.
Example C38_reraise_example : reraise_decorated (V := Z) under is_exception [3] (Some 50) (Raised 4) = Raised 50 /\ reraise_decorated (V := Z) under is_exception [3] (Some 50) (Raised 2) = Raised 2.
Proof. auto. Qed.

(** The flag that tells a call its exception was silenced is kept per thread, not per call: the outer call returns None, not 3, because
    the inner one was silenced. *)
Theorem C38_recursion_refuted : call under [([5], None)] None None (recursive (Raised 6)) = Value None /\
  ends under [([5], None)] (Value None) (recursive (Raised 6)) (Value (Some 3%Z)).
Proof.
  split; [reflexivity|]. eapply En_call; [constructor| |constructor].
  refine (@FP_first _ _ _ under [([5], None)] (Value None) 6 [] [5] None [] _ _ _); auto. exists 5. simpl. auto.
Qed.
Print Assumptions C38_recursion_refuted.
(** A listed class that is not an Exception is not converted by the decorator, while the context manager converts it. *)
Theorem C38_base_exception_refuted : reraise_decorated (V := Z) under is_exception [0] (Some 50) (Raised 0) = Raised 0 /\ reraise_block (V := Z) under [0] (Some 50) (Raised 0) = Raised 50 /\
  log_decorated (V := Z) under is_exception [0] false [] (Raised 0) = ([], Raised 0) /\ log_block (V := Z) under [0] false [] (Raised 0) = ([0], Raised 0).
Proof. repeat split. Qed.
Print Assumptions C38_base_exception_refuted.
Theorem C38_full_statement_refuted : ~ C38_full_statement.
Proof.
  intros (_ & H). destruct C38_recursion_refuted as [R1 R2]. specialize (H nat nat Z under [([5], None)] None None _ _ R2). rewrite R1 in H. inversion H.
Qed.
Print Assumptions C38_full_statement_refuted.
Theorem C38_reraise_as_decorator_refuted : ~ C38_reraise_as_decorator.
Proof.
  intros H. specialize (H nat nat Z under is_exception [0] (Some 50) (Raised 0)). destruct H as [H _].
  assert (listed under [0] 0) as L by (exists 0; simpl; auto). specialize (H L). discriminate H.
Qed.
Print Assumptions C38_reraise_as_decorator_refuted.
