(** C103: a wrapped future says what the future it wraps says. C104: collections hold the futures put into them. *)
From Verif Require Import Prelude Futures_Model WrapFut_Model WrapFut_Spec WrapFut_Proofs.
Set Implicit Arguments.

(** C103. *)
(** However the source and its threads interleave with the construction, once the source is over and its callbacks
    were called, the wrapping future's result() is the source's. *)
Definition C103_full_statement : Prop := forall V (none : V) m1 m2 m3 m4,
  others m1 -> others m2 -> others m3 -> callbacks_called (life_after (m1 ++ m2 ++ m3 ++ m4)) ->
  wrapped_result none (run none start (schedule m1 m2 m3 m4)) = outcome (life_after (m1 ++ m2 ++ m3 ++ m4)).

(** It is, unless the source completes after the callback is added, and the copying of the state (188) falls between
    its completion and its callbacks on one side and not on the other. *)
Theorem C103_partial : forall V (none : V) m1 m2 m3 m4,
  others m1 -> others m2 -> others m3 ->
  ~ (alive m1 /\ completed (m1 ++ m2) /\ ~ notified (m1 ++ m2 ++ m3)) ->
  ~ (~ completed (m1 ++ m2) /\ notified (m1 ++ m2 ++ m3)) ->
  callbacks_called (life_after (m1 ++ m2 ++ m3 ++ m4)) ->
  wrapped_result none (run none start (schedule m1 m2 m3 m4)) = outcome (life_after (m1 ++ m2 ++ m3 ++ m4)).
Proof.
  intros V none m1 m2 m3 m4 O1 O2 O3 B1 B2 Hc. unfold schedule. rewrite whole.
  destruct (@verdict _ none _ _ _ O1 O2 O3) as [(H1 & H2 & H3 & _)|[(H1 & H2 & _)|(_ & _ & G)]]; [tauto|tauto|].
  apply answer_good; auto.
Qed.
Print Assumptions C103_partial.

(** Wrapping a future that is over already, or wrapping one before anything happens to it, is safe. *)
Theorem C103_over : forall V (none : V) m1 m2 m3 m4,
  others m1 -> others m2 -> others m3 -> callbacks_called (life_after m1) ->
  wrapped_result none (run none start (schedule m1 m2 m3 m4)) = outcome (life_after m1).
Proof.
  intros V none m1 m2 m3 m4 O1 O2 O3 Hc.
  assert (E : forall l, life_after (m1 ++ l) = life_after m1).
  { intros l. rewrite life_app. destruct (life_after m1) as [b|r b|b]; simpl in Hc; [contradiction| |]; subst b;
      induction l as [|m t IH]; simpl; auto; destruct m; simpl; auto. }
  rewrite <- (E (m2 ++ m3 ++ m4)). apply C103_partial; auto.
  - intros ((b & H) & _). rewrite H in Hc. exact Hc.
  - intros (H & (r & H')). apply H. rewrite E in H'. exists r, true. rewrite E. exact H'.
  - rewrite E. exact Hc.
Qed.
Print Assumptions C103_over.
Theorem C103_quiet : forall V (none : V) m4,
  callbacks_called (life_after m4) ->
  wrapped_result none (run none start (schedule [] [] [] m4)) = outcome (life_after m4).
Proof.
  intros V none m4 Hc.
  apply (@C103_partial V none [] [] [] m4); auto; try (intros []; fail).
  - intros (_ & (r & b & H) & _). discriminate H.
  - intros (_ & (r & H)). discriminate H.
Qed.
Print Assumptions C103_quiet.

(** Completed between the addition and the reading, with the callbacks called only after the writing: the result
    is lost, for ever, and None is returned instead of it, or of its exception. *)
Theorem C103_lost : forall V (none : V) m1 m2 m3 m4,
  others m1 -> others m2 -> others m3 ->
  alive m1 -> completed (m1 ++ m2) -> ~ notified (m1 ++ m2 ++ m3) ->
  wrapped_result none (run none start (schedule m1 m2 m3 m4)) = Ok none.
Proof.
  intros V none m1 m2 m3 m4 O1 O2 O3 H1 H2 H3. unfold schedule. rewrite whole.
  destruct (@verdict _ none _ _ _ O1 O2 O3) as [(_ & _ & _ & B)|[(H & _)|(H & _)]]; [|tauto|tauto].
  apply answer_b1; auto.
Qed.
Print Assumptions C103_lost.
(** Completed after the reading, with the callbacks called before the writing: result() waits for ever. *)
Theorem C103_stuck : forall V (none : V) m1 m2 m3 m4,
  others m1 -> others m2 -> others m3 ->
  ~ completed (m1 ++ m2) -> notified (m1 ++ m2 ++ m3) ->
  wrapped_result none (run none start (schedule m1 m2 m3 m4)) = Err TimeoutExn.
Proof.
  intros V none m1 m2 m3 m4 O1 O2 O3 H1 H2. unfold schedule. rewrite whole.
  destruct (@verdict _ none _ _ _ O1 O2 O3) as [(_ & H & _)|[(_ & _ & B)|(_ & H & _)]]; [tauto| |tauto].
  apply answer_b2; auto.
Qed.
Print Assumptions C103_stuck.

Example C103_lost_case : wrapped_result 0 (run 0 start (schedule [Run] [Finish (Ok 5)] [] [Notify])) = Ok 0 /\
  outcome (life_after [Run; Finish (Ok 5); Notify]) = Ok 5 /\
  @alive nat [Run] /\ completed [Run; Finish (Ok 5)] /\ ~ notified [Run; Finish (Ok 5)].
Proof.
  split; [reflexivity|]. split; [reflexivity|]. split; [exists true; reflexivity|].
  split; [exists (Ok 5), false; reflexivity|]. intros (r & H). discriminate H.
Qed.
Example C103_stuck_case : wrapped_result 0 (run 0 start (schedule [Run] [] [Finish (Err (UserExn 1)); Notify] [Run])) = Err TimeoutExn /\
  outcome (life_after [Run; Finish (Err (UserExn 1)); Notify; Run]) = @Err nat (UserExn 1) /\
  ~ @completed nat [Run] /\ notified [Run; @Finish nat (Err (UserExn 1)); Notify].
Proof.
  split; [reflexivity|]. split; [reflexivity|]. split; [intros (r & b & H); discriminate H|]. exists (Err (UserExn 1)). reflexivity.
Qed.
Example C103_case : wrapped_result 0 (run 0 start (schedule [Run] [Finish (Ok 5); Notify] [] [])) = Ok 5 /\
  wrapped_result 0 (run 0 start (schedule [Run] [] [Finish (Ok 5)] [Notify])) = Ok 5 /\
  wrapped_result 0 (run 0 start (schedule [] [CancelSource] [Notify] [])) = Err CancelledExn.
Proof. repeat split; reflexivity. Qed.
Theorem C103_full_statement_refuted : ~ C103_full_statement.
Proof.
  intros H. specialize (H nat 0 [Run] [Finish (Ok 5)] [] [Notify]). cbv in H.
  assert (E : Ok 0 = Ok 5); [|discriminate E]. apply H; auto; intros C; repeat destruct C as [C|C]; try discriminate C; exact C.
Qed.
Print Assumptions C103_full_statement_refuted.

(** Wrapping twice is wrapping once, the result is always a future of satella, and such a future is never wrapped. *)
Theorem C103_wrap_if : forall f,
  (exists i, f = Python i /\ wrap_if f = Wrapping f) \/ ((forall i, f <> Python i) /\ wrap_if f = f).
Proof. intros [i|i|f]; [left; eauto|right|right]; split; auto; discriminate. Qed.
Print Assumptions C103_wrap_if.
Theorem C103_wrap_if_once : forall f, wrap_if (wrap_if f) = wrap_if f /\ forall i, wrap_if f <> Python i.
Proof. intros [i|i|f]; split; try reflexivity; discriminate. Qed.
Print Assumptions C103_wrap_if_once.

(** Calling a function made by call_in_future submits exactly the function and arguments fixed then, once per call,
    whatever it is called with, when the executor takes it. *)
Theorem C103_call_in_future : forall F A B (gives : list (F * A) -> F -> A -> res fut) f a (calls : list B) l,
  (forall l, exists x, gives l f a = Ok x) ->
  let (l', rs) := inner_calls gives f a l calls in
  l' = l ++ repeat (f, a) (length calls) /\ length rs = length calls /\
  Forall (fun r => exists x, r = Ok x /\ forall i, x <> Python i) rs.
Proof.
  intros F A B gives f a calls. induction calls as [|b t IH]; intros l H; simpl; [rewrite app_nil_r; auto|].
  unfold inner, submit. destruct (H l) as [x ->]. specialize (IH (l ++ [(f, a)]) H).
  destruct (inner_calls gives f a (l ++ [(f, a)]) t) as [l' rs]. destruct IH as (-> & E & Fa). simpl.
  split; [rewrite <- app_assoc; reflexivity|]. split; [simpl; congruence|]. constructor; auto.
  exists (wrap_if x). split; auto. apply (C103_wrap_if_once x).
Qed.
Print Assumptions C103_call_in_future.
(** ExecutorWrapper.submit submits once, gives the same future, wrapped if it is not one of satella, and raises what
    the executor raises. *)
Theorem C103_executor : forall F A (gives : list (F * A) -> F -> A -> res fut) l f a,
  match gives l f a with
  | Ok x => wrapper_submit gives l f a = (l ++ [(f, a)], Ok (match x with Python _ => Wrapping x | _ => x end))
  | Err e => wrapper_submit gives l f a = (l, Err e)
  end.
Proof. intros. unfold wrapper_submit, submit. destruct (gives l f a) as [[i|i|x]|e]; reflexivity. Qed.
Print Assumptions C103_executor.
Example C103_executor_case :
  inner_calls (fun l (f a : nat) => if f =? 9 then Err RuntimeError else Ok (Python (length l))) 3 7 [(1, 1)] [true; false] =
  ([(1, 1); (3, 7); (3, 7)], [Ok (Wrapping (Python 1)); Ok (Wrapping (Python 2))]).
Proof. reflexivity. Qed.

(** C104. Whatever collections were made, added and extended, each holds the futures it was made of and those added
    to it since, in order; and lists of the user are changed by nobody else. *)
Definition C104_full_statement : Prop := forall n l ops c i, Forall (known n) ops ->
  coll_len (coll_run (no_colls n l) ops) c = option_map (@length nat) (fst (values_after (fun _ => None, l) ops) c) /\
  coll_get (coll_run (no_colls n l) ops) c i =
    match fst (values_after (fun _ => None, l) ops) c with Some x => nth_error x i | None => None end.
(** It is so if no collection is made of a list object. *)
Theorem C104_partial : forall n l ops c i, Forall (known n) ops -> Forall copies ops ->
  coll_len (coll_run (no_colls n l) ops) c = option_map (@length nat) (fst (values_after (fun _ => None, l) ops) c) /\
  coll_get (coll_run (no_colls n l) ops) c i =
    match fst (values_after (fun _ => None, l) ops) c with Some x => nth_error x i | None => None end.
Proof.
  intros n l ops c i K C. pose proof (coll_run_value (no_colls_value n l) K C) as O. unfold coll_len, coll_get, elements.
  rewrite (ol_colls O). auto.
Qed.
Print Assumptions C104_partial.
Theorem C104_lists_partial : forall n l ops i, Forall (known n) ops -> Forall copies ops -> i < n ->
  lists (coll_run (no_colls n l) ops) i = snd (values_after (fun _ => None, l) ops) i.
Proof. intros n l ops i K C H. pose proof (coll_run_value (no_colls_value n l) K C) as O. symmetry. apply (ol_lists O). exact H. Qed.
Print Assumptions C104_lists_partial.
Example C104_case :
  let ops := [CNew 0 (OTuple [1; 2]); CNew 1 (OColl 0); CAdd 2 0 (OList 0); CIAdd 1 (OColl 2); CAppend 0 9; CUser 0 4] in
  let s := coll_run (no_colls 1 (fun _ => [7])) ops in
  Forall (known 1) ops /\ Forall copies ops /\
  coll_len s 0 = Some 3 /\ coll_len s 1 = Some 5 /\ coll_get s 1 4 = Some 7 /\ coll_get s 2 2 = Some 7 /\ lists s 0 = [7; 4].
Proof. cbv zeta. split; [repeat constructor|]. split; [repeat constructor|]. repeat split; reflexivity. Qed.
(** A collection made of a list is that list: what the user appends to the list is in the collection, two collections
    made of one list are one, and adding to the collection changes the user's list. *)
Theorem C104_full_statement_refuted : ~ C104_full_statement.
Proof.
  intros H. destruct (H 1 (fun _ => [7]) [CNew 0 (OList 0); CUser 0 8] 0 0) as [E _].
  { repeat constructor. }
  discriminate E.
Qed.
Print Assumptions C104_full_statement_refuted.
Theorem C104_shared_refuted : exists n l ops, Forall (known n) ops /\
  lists (coll_run (no_colls n l) ops) 0 <> snd (values_after (fun _ => None, l) ops) 0 /\
  coll_len (coll_run (no_colls n l) ops) 1 <> option_map (@length nat) (fst (values_after (fun _ => None, l) ops) 1).
Proof.
  exists 1, (fun _ => [7]), [CNew 0 (OList 0); CNew 1 (OList 0); CAppend 0 8]. split; [repeat constructor|]. split; discriminate.
Qed.
Print Assumptions C104_shared_refuted.
