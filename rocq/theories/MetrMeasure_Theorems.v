(** C86: measuring with metrics. *)
From Coq Require Import ZArith.
From Verif Require Import Prelude MetrMeasure_Model MetrMeasure_Spec MetrMeasure_Proofs.

(** Whatever goes on besides, recursively or in other threads, the metric gets for each call of a decorated function or generator just the
    difference between its end and its beginning; nothing if the call raised and exceptions are not included. Proved but for calls that end with
    something that is not an Exception while exceptions are not included. *)
Definition C86_calls_full_statement : Prop := forall (V : Type) (none : V) inc gen (l : list (event V)) a m,
  call_measured inc (filter (of_call a) l) m -> for_call a (handled (exec none inc gen l)) = m.
Theorem C86_calls_partial : forall (V : Type) (none : V) inc gen (l : list (event V)) a m,
  call_measured inc (filter (of_call a) l) m ->
  (inc = true \/ forall t0 e t1, filter (of_call a) l <> [Begin a t0; End a (Aborted e) t1]) ->
  for_call a (handled (exec none inc gen l)) = m.
Proof. exact calls_measured. Qed.
Print Assumptions C86_calls_partial.
(** Those are always measured; so is a generator that its consumer closes. *)
Theorem C86_aborted : forall (V : Type) (none : V) inc gen (l : list (event V)) a t0 e t1,
  filter (of_call a) l = [Begin a t0; End a (Aborted e) t1] -> for_call a (handled (exec none inc gen l)) = [(t1 - t0)%Z].
Proof. exact aborted_measured. Qed.
Print Assumptions C86_aborted.
Theorem C86_calls_full_statement_refuted : ~ C86_calls_full_statement.
Proof. exact call_refuted. Qed.
Print Assumptions C86_calls_full_statement_refuted.

(** The caller sees what the function returned or raised; but a decorated generator returns None to yield from. *)
Definition C86_seen_full_statement : Prop := forall (V : Type) (none : V) inc gen (l : list (event V)) a t0 o t1,
  filter (of_call a) l = [Begin a t0; End a o t1] -> seen_by a (seen (exec none inc gen l)) = [o].
Theorem C86_seen_partial : forall (V : Type) (none : V) inc gen (l : list (event V)) a t0 o t1,
  filter (of_call a) l = [Begin a t0; End a o t1] ->
  seen_by a (seen (exec none inc gen l)) = [match o with Returned v => if gen a then Returned none else Returned v | _ => o end].
Proof. exact calls_seen. Qed.
Print Assumptions C86_seen_partial.
Theorem C86_seen_full_statement_refuted : ~ C86_seen_full_statement.
Proof. exact seen_refuted. Qed.
Print Assumptions C86_seen_full_statement_refuted.

(** A context manager used again and again, but not within itself, measures each use. *)
Theorem C86_with_partial : forall (V : Type) (none : V) inc gen (l : list (event V)) x m,
  with_measured inc (filter (of_with x) l) m -> for_with x (handled (exec none inc gen l)) = m.
Proof. exact withs_measured. Qed.
Print Assumptions C86_with_partial.
(** Used within itself, or by two threads, it forgets when the outer use began. *)
Definition C86_nested_full_statement : Prop := forall (V : Type) (none : V) inc gen x t0 t1 t2 t3,
  for_with x (handled (exec none inc gen [Enter x t0; Enter x t1; Exit x false t2; Exit x false t3])) = [(t2 - t1)%Z; (t3 - t0)%Z].
Theorem C86_nested_full_statement_refuted : ~ C86_nested_full_statement.
Proof. exact nested_refuted. Qed.
Print Assumptions C86_nested_full_statement_refuted.

(** A future measured by one metric gives it the time from measure_future() to its completion. *)
Theorem C86_future_partial : forall (V : Type) (none : V) inc gen (l : list (event V)) f m,
  future_measured (filter (of_future f) l) m -> for_future f (handled (exec none inc gen l)) = m.
Proof. exact futures_measured. Qed.
Print Assumptions C86_future_partial.
(** Measured by two, the second beginning counts for both. *)
Definition C86_twice_full_statement : Prop := forall (V : Type) (none : V) inc gen f m1 t1 m2 t2 later nows,
  for_future f (handled (exec none inc gen [Measure f m1 t1 later; Measure f m2 t2 later; Complete f nows])) = [(m1, nows m1 - t1)%Z; (m2, nows m2 - t2)%Z].
Theorem C86_twice_full_statement_refuted : ~ C86_twice_full_statement.
Proof. exact twice_refuted. Qed.
Print Assumptions C86_twice_full_statement_refuted.

(** A recursive call within another, a context manager used twice around them, and a future. *)
Definition C86_history : list (event nat) :=
  [Enter 0 1; Begin 0 2; Begin 1 3; Measure 5 8 4 0; End 1 (Failed KeyError) 5; Exit 0 true 6; Enter 0 7; End 0 (Returned 3%nat) 9;
   Complete 5 (fun _ => 10); Exit 0 false 12]%Z.
Example C86_example : handled (exec 0 false (fun _ => false) C86_history) = [(By_call 0, 7); (By_future 5 8, 6); (By_with 0, 5)]%Z.
Proof. reflexivity. Qed.
Example C86_example_included : handled (exec 0 true (fun _ => false) C86_history) = [(By_call 1, 2); (By_with 0, 5); (By_call 0, 7); (By_future 5 8, 6); (By_with 0, 5)]%Z.
Proof. reflexivity. Qed.
Example C86_example_hypotheses : call_measured false (filter (of_call 1) C86_history) [] /\ with_measured false (filter (of_with 0) C86_history) [5%Z]
  /\ future_measured (filter (of_future 5) C86_history) [(8, 6%Z)].
Proof.
  repeat split; simpl.
  - apply over_excluded. reflexivity.
  - exact (@w_use nat false 0 1 true 6 _ _ (@w_use nat false 0 7 false 12 _ _ (@w_none nat false))).
  - exact (@f_completed nat 5 8 4 0 (fun _ => 10%Z)).
Qed.
