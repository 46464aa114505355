(** C83: parallel executions, thread collections. *)
From Verif Require Import Prelude Parallel_Model Parallel_Spec Parallel_Proofs.

(** parallel_construct: for every schedule the result is the one of calling the function on the elements one after another *)
Theorem C83_construct : forall (U : Type) (outs : list (outcome (option U))) l r, c_end (construct outs l) = Some r -> r = one_by_one outs.
Proof. exact construct_result. Qed.
Print Assumptions C83_construct.
Theorem C83_construct_ends : forall (U : Type) (outs : list (outcome (option U))) l, served (length outs) l -> c_end (construct outs l) <> None.
Proof. exact construct_ends. Qed.
Print Assumptions C83_construct_ends.
(** it is not given before every call ended *)
Theorem C83_construct_waits : forall (U : Type) (outs : list (outcome (option U))) l r, c_end (construct outs l) = Some (Ok r) -> forall i, i < length outs -> In (Done i) l.
Proof. exact construct_waits. Qed.
Print Assumptions C83_construct_waits.
Definition three : list (outcome (option nat)) := [Value (Some 5); Value None; Value (Some 7)].
Example C83_construct_case : c_end (construct three [Done 2; Go; Done 0; Go; Go; Done 1; Go; Go; Go]) = Some (Ok [5; 7]) /\
  c_end (construct three [Done 2; Go; Done 0; Go; Go]) = None.
Proof. vm_compute. auto. Qed.
Example C83_served_case : served 3 ([Done 2; Go; Done 0; Done 1] ++ [Go; Go; Go; Go]).
Proof. exists [Done 2; Go; Done 0; Done 1], [Go; Go; Go; Go]. split; [reflexivity|]. split; [|simpl; auto]. intros [|[|[|i]]] L; simpl; auto. exfalso; repeat apply le_S_n in L; inversion L. Qed.

(** parallel_execute: in the order of the arguments, whatever the order the calls end in, the value or the exception of each *)
Theorem C83_execute : forall (U : Type) (outs : list (outcome U)) l,
  prefix (e_yielded (execute outs l)) (fst (in_order outs)) /\
  (forall r, e_end (execute outs l) = Some r -> in_order outs = (e_yielded (execute outs l), r)).
Proof. intros U outs l. exact (conj (execute_prefix U outs l) (execute_result U outs l)). Qed.
Print Assumptions C83_execute.
Theorem C83_execute_ends : forall (U : Type) (outs : list (outcome U)) l, served (length outs) l -> e_end (execute outs l) <> None.
Proof. exact execute_ends. Qed.
Print Assumptions C83_execute_ends.
(** nothing is given before its call ended *)
Theorem C83_execute_waits : forall (U : Type) (outs : list (outcome U)) l i, i < length (e_yielded (execute outs l)) -> In (Done i) l.
Proof. exact execute_waits. Qed.
Print Assumptions C83_execute_waits.
(** the calls are made at once, for as many as there are arguments and keyword arguments *)
Theorem C83_launch : forall (A K F : Type) (call : A -> K -> res F) args kwargs made fs, launch call args kwargs = (made, Ok fs) ->
  made = combine args kwargs /\ Forall2 (fun p f => call (fst p) (snd p) = Ok f) made fs.
Proof. exact launch_all. Qed.
Print Assumptions C83_launch.
Example C83_execute_case : e_yielded (execute [Value 5; Raised KeyError; Value 7] [Done 1; Done 2; Go; Done 0; Go; Go; Go; Go]) = [Gave 5; GaveException nat KeyError; Gave 7] /\
  launch (fun a k => Ok (a + k)) [1; 2; 3] [10; 20] = ([(1, 10); (2, 20)], Ok [11; 22]).
Proof. vm_compute. auto. Qed.

(** the value or exception of every call is given: only of those before one that ends with something else than an Exception *)
Definition C83_execute_full_statement : Prop := forall (U : Type) (outs : list (outcome U)) l r,
  e_end (execute outs l) = Some r -> length (e_yielded (execute outs l)) = length outs.
Theorem C83_execute_full_statement_refuted : ~ C83_execute_full_statement.
Proof. intros H. specialize (H nat [RaisedBase SystemExitExn; Value 7] [Done 0; Go] _ eq_refl). discriminate. Qed.
Print Assumptions C83_execute_full_statement_refuted.
Theorem C83_execute_all_partial : forall (U : Type) (outs : list (outcome U)) l r, (forall e, ~ In (RaisedBase e) outs) ->
  e_end (execute outs l) = Some r -> r = Ok tt /\ length (e_yielded (execute outs l)) = length outs.
Proof. exact execute_all. Qed.
Print Assumptions C83_execute_all_partial.

(** a future of run_as_future gets the value or exception of the function; with sys.exit() in it, it never gets anything *)
Definition C83_future_full_statement : Prop := forall (U : Type) (o : outcome U), run_as_future o <> None.
Theorem C83_future_full_statement_refuted : ~ C83_future_full_statement.
Proof. intros H. exact (H nat (RaisedBase SystemExitExn) eq_refl). Qed.
Print Assumptions C83_future_full_statement_refuted.
Theorem C83_future_partial : forall (U : Type) (v : U) e, run_as_future (Value v) = Some (Ok v) /\ run_as_future (Raised e : outcome U) = Some (Err e).
Proof. exact future_set. Qed.
Print Assumptions C83_future_partial.

Local Open Scope Z_scope.
(** join(): when it returns every thread was started and has ended *)
Theorem C83_joined : forall timeout threads now fin, join timeout now threads = (Ok tt, fin) -> any_alive fin threads = false /\ ~ In NotStarted threads.
Proof. exact join_ok. Qed.
Print Assumptions C83_joined.
(** it takes no longer than the timeout for every thread *)
Theorem C83_join_bound : forall w threads now r fin, 0 <= w -> join (Some w) now threads = (r, fin) -> now <= fin <= now + w * Z.of_nat (length threads).
Proof. exact join_times. Qed.
Print Assumptions C83_join_bound.
(** and no longer than until the last of them ended *)
Theorem C83_no_longer : forall timeout threads now r fin m, join timeout now threads = (r, fin) -> now <= m -> (forall t, In t threads -> exists a, t = Ends a /\ a <= m) -> fin <= m.
Proof. exact join_no_longer. Qed.
Print Assumptions C83_no_longer.
(** WouldWaitMore: with a timeout only, and there is a thread that is alive, having been given the timeout *)
Theorem C83_would_wait_more : forall timeout threads now fin, join timeout now threads = (Err WouldWaitMore, fin) ->
  exists w, timeout = Some w /\ any_alive fin threads = true /\ exists t, In t threads /\ alive fin t = true /\ alive (now + w) t = true.
Proof. exact join_would_wait. Qed.
Print Assumptions C83_would_wait_more.
(** threads that end within the timeout are joined; other failures are for threads not started, or that never end *)
Theorem C83_join_succeeds : forall w threads now, 0 <= w -> ~ In NotStarted threads -> any_alive (now + w) threads = false -> exists fin, join (Some w) now threads = (Ok tt, fin).
Proof. exact join_complete. Qed.
Print Assumptions C83_join_succeeds.
Theorem C83_join_fails : forall timeout threads now e fin, join timeout now threads = (Err e, fin) -> e <> WouldWaitMore -> In NotStarted threads \/ timeout = None /\ In Never threads.
Proof. exact join_fails. Qed.
Print Assumptions C83_join_fails.
Example C83_join_case : join (Some 10) 0 [Ends 5; Ends 12; Ends 3] = (Ok tt, 12) /\ join (Some 10) 0 [Ends 5; Ends 16; Ends 3] = (Err WouldWaitMore, 15) /\
  any_alive (0 + 10) [Ends 5; Ends 9] = false /\ join None 0 [Ends 5; Ends 16] = (Ok tt, 16).
Proof. vm_compute. auto. Qed.

Local Open Scope nat_scope.
(** start() starts all threads: if none was started, and none is in the collection twice *)
Theorem C83_start_partial : forall threads started, NoDup threads -> (forall t, In t threads -> ~ In t started) -> start started threads = (started ++ threads, Ok tt).
Proof. exact start_all. Qed.
Print Assumptions C83_start_partial.
Definition C83_start_full_statement : Prop := forall started threads t, In t threads -> In t (fst (start started threads)).
Theorem C83_start_full_statement_refuted : ~ C83_start_full_statement.
Proof. intros H. destruct (H [1] [1; 2] 2 (or_intror (or_introl eq_refl))) as [X|[]]. discriminate. Qed.
Print Assumptions C83_start_full_statement_refuted.
(** terminate() is called on all threads: unless one of them raises something else than AttributeError *)
Theorem C83_terminate_partial : forall call threads, (forall t, In t threads -> call t = Ok tt \/ call t = Err AttributeError) -> terminate call threads = (threads, Ok tt).
Proof. exact terminate_all. Qed.
Print Assumptions C83_terminate_partial.
Definition C83_terminate_full_statement : Prop := forall call threads, fst (terminate call threads) = threads.
Theorem C83_terminate_full_statement_refuted : ~ C83_terminate_full_statement.
Proof. intros H. specialize (H (fun _ => Err RuntimeError) [1; 2]). discriminate. Qed.
Print Assumptions C83_terminate_full_statement_refuted.

(** collections are apart: + makes a new one and leaves both operands; add and += change the one they are used on *)
Theorem C83_collections_apart : forall heap o i, i < length heap -> (match o with CAdd j _ | CIadd j _ => j <> i | _ => True end) -> nth_error (cstep heap o) i = nth_error heap i.
Proof. exact cstep_other. Qed.
Print Assumptions C83_collections_apart.
Theorem C83_added : forall heap i l t l2 j, nth_error heap i = Some l -> nth_error heap j = Some l2 ->
  nth_error (cstep heap (CAdd i t)) i = Some (l ++ [t]) /\ nth_error (cstep heap (CIadd i (ACollection j))) i = Some (l ++ l2) /\
  nth_error (cstep heap (CPlus i (ACollection j))) (length heap) = Some (l ++ l2).
Proof. exact cstep_added. Qed.
Print Assumptions C83_added.
Example C83_added_case : fold_left cstep [CNew [1; 2]; CPlus 0 (AThread 3); CIadd 1 (ACollection 1); CAdd 0 9] [] = [[1; 2; 9]; [1; 2; 3; 1; 2; 3]].
Proof. reflexivity. Qed.
