(** C91: decorators and helpers that direct the flow of control. *)
From Coq Require Import List Arith Lia.
From Verif Require Import Prelude Flow_Model Flow_Spec Flow_Proofs.
Import ListNotations.

(** queue_get: whatever is put and however the method is called, items are handed to the method in order, each once, and none is lost. *)
Theorem C91_queue_get_order : forall outcome ops, let w := snd (shop_run outcome {| waiting := []; handled := []; noticed := 0 |} ops) in handled w ++ waiting w = all_put ops.
Proof. intros outcome ops. exact (run_queue outcome ops {| waiting := []; handled := []; noticed := 0 |}). Qed.
Print Assumptions C91_queue_get_order.
(** Each call should end as the method ends for its item, or with None when the queue is empty. *)
Definition C91_queue_get_full_statement : Prop := forall outcome ops, let w0 := {| waiting := []; handled := []; noticed := 0 |} in
  fst (shop_run outcome w0 ops) = wanted_results outcome [] ops.
(** But a method that itself raises queue.Empty is taken for an empty queue. *)
Theorem C91_queue_get_full_statement_refuted : ~ C91_queue_get_full_statement.
Proof. exact queue_get_refuted. Qed.
Print Assumptions C91_queue_get_full_statement_refuted.
Theorem C91_queue_get_partial : forall outcome ops, (forall x, outcome x <> Err EmptyExn) -> let w0 := {| waiting := []; handled := []; noticed := 0 |} in
  fst (shop_run outcome w0 ops) = wanted_results outcome [] ops /\ noticed (snd (shop_run outcome w0 ops)) = wanted_notices 0 ops.
Proof. intros outcome ops Q. exact (run_results outcome Q ops {| waiting := []; handled := []; noticed := 0 |}). Qed.
Print Assumptions C91_queue_get_partial.

(** Whatever the queue, in each call: the method gets the item; on an empty queue, what is to be done on an empty queue (if anything) is done and the call returns None; other exceptions pass. *)
Theorem C91_queue_get_ends : forall W I R (getter : code W I) (is_empty : exn -> bool) (on_empty : option (code W unit)) (f : I -> code W R) w,
  (forall x w1, getter w = (Ok x, w1) -> forall r w2, f x w1 = (r, w2) -> (forall e, r = Err e -> is_empty e = false) -> queue_get getter is_empty on_empty f w = (res_map Some r, w2)) /\
  (forall e w1, getter w = (Err e, w1) -> is_empty e = true -> on_empty = None -> queue_get getter is_empty on_empty f w = (Ok None, w1)) /\
  (forall e w1 m r w2, getter w = (Err e, w1) -> is_empty e = true -> on_empty = Some m -> m w1 = (r, w2) -> queue_get getter is_empty on_empty f w = (res_map (fun _ => None) r, w2)) /\
  (forall e w1, getter w = (Err e, w1) -> is_empty e = false -> queue_get getter is_empty on_empty f w = (Err e, w1)).
Proof.
  intros W I R getter is_empty on_empty f w. unfold queue_get. repeat split.
  - intros x w1 -> r w2 -> N. destruct r as [r|e]; [reflexivity|]. rewrite (N e eq_refl). reflexivity.
  - intros e w1 -> -> ->. reflexivity.
  - intros e w1 m r w2 -> -> -> ->. destruct r; reflexivity.
  - intros e w1 -> ->. reflexivity.
Qed.
Print Assumptions C91_queue_get_ends.

(** loop_while: the function is called again and again just as long as the predicate, asked before each turn, says so; exceptions of either end the loop. *)
Theorem C91_loop_while_partial : forall (W A R : Type) (accepts : nat -> bool) (pred : option A -> code W bool) (f : list A -> code W R) args (p : code W bool),
  p = match args with [] => pred None | a :: _ => pred (Some a) end -> (match args with [] => accepts 0 | _ => accepts 1 end) = true ->
  (forall w n r w', turns p (f args) w n r w' -> forall fuel, n < fuel -> loop_while fuel accepts pred f args w = (r, w')) /\
  (forall fuel w r w', loop_while fuel accepts pred f args w = (r, w') ->
     (exists n, n < fuel /\ turns p (f args) w n r w') \/ (r = Err Diverges /\ going p (f args) w fuel w')).
Proof.
  intros W A R accepts pred f args p -> AC.
  assert (E : match args with [] => pred None | a :: _ => pred (Some a) end = call_pred accepts pred args) by (destruct args; cbn; now rewrite AC).
  rewrite E. split; [intros w n r w'; apply loop_turns|intros fuel w r w'; apply loop_inv].
Qed.
Print Assumptions C91_loop_while_partial.
(** A predicate that takes no arguments should do for a method too (the default one is such): it is called with the instance, and raises TypeError. *)
Definition C91_loop_while_full_statement : Prop := forall W A R (accepts : nat -> bool) (pred : option A -> code W bool) (f : list A -> code W R) args w n r w', accepts 0 = true ->
  accepts 1 = false -> turns (pred None) (f args) w n r w' -> exists fuel, loop_while fuel accepts pred f args w = (r, w').
Theorem C91_loop_while_full_statement_refuted : ~ C91_loop_while_full_statement.
Proof. exact loop_refuted. Qed.
Print Assumptions C91_loop_while_full_statement_refuted.

(** repeat_forever never returns: it goes on, or ends with the exception of the function. *)
Theorem C91_repeat_forever : forall (W R : Type) (f : code W R) fuel w r w', repeat_forever fuel f w = (r, w') ->
  (exists e n, r = Err e /\ n < fuel /\ turns (fun w => (Ok true, w)) f w n (Err e) w') \/ (r = Err Diverges /\ going (fun w => (Ok true, w)) f w fuel w').
Proof. intros W R. exact (@forever_inv W R). Qed.
Print Assumptions C91_repeat_forever.

(** chain_functions: what the first function returns becomes the arguments of the next, as documented; *)
Definition C91_chain_full_statement : Prop := forall ret, chain_arguments ret = Ok (documented_arguments ret).
(** but a tuple of two is always taken for arguments and keyword arguments. *)
Theorem C91_chain_full_statement_refuted : ~ C91_chain_full_statement.
Proof. exact chain_refuted. Qed.
Print Assumptions C91_chain_full_statement_refuted.
Theorem C91_chain_partial : forall ret, (forall a k, ret = VTuple [a; k] -> exists l d, a = VTuple l /\ k = VDict d) -> chain_arguments ret = Ok (documented_arguments ret).
Proof. exact chain_ok. Qed.
Print Assumptions C91_chain_partial.

(** chain_callables: callable2 gets the result of callable1 if it takes an argument, and its own exceptions come through... *)
Definition C91_callables_full_statement : Prop := forall W A R (c1 : code W A) (c2 : option A -> W -> second R * W) w a w1 s w2, takes_one c2 -> c1 w = (Ok a, w1) -> c2 (Some a) w1 = (s, w2) ->
  chain_callables c1 c2 w = (second_res s, w2).
(** ... but for a TypeError without a message, which becomes an IndexError. *)
Theorem C91_callables_full_statement_refuted : ~ C91_callables_full_statement.
Proof. exact callables_refuted. Qed.
Print Assumptions C91_callables_full_statement_refuted.
Theorem C91_callables_partial : forall W A R (c1 : code W A) (c2 : option A -> W -> second R * W) w a w1 s w2, takes_one c2 -> c1 w = (Ok a, w1) -> c2 (Some a) w1 = (s, w2) -> s <> SecBareType ->
  chain_callables c1 c2 w = (second_res s, w2).
Proof. exact callables_one. Qed.
Print Assumptions C91_callables_partial.
(** It is called with nothing if it takes no arguments. *)
Theorem C91_callables_none : forall W A R (c1 : code W A) (c2 : option A -> W -> second R * W) w a w1 s w2, takes_none c2 -> c1 w = (Ok a, w1) -> c2 None w1 = (s, w2) ->
  chain_callables c1 c2 w = (second_res s, w2).
Proof. exact callables_none. Qed.
Print Assumptions C91_callables_none.
Theorem C91_callables_first_raises : forall W A R (c1 : code W A) (c2 : option A -> W -> second R * W) w e w1, c1 w = (Err e, w1) -> chain_callables c1 c2 w = (Err e, w1).
Proof. intros W A R c1 c2 w e w1 E. unfold chain_callables. now rewrite E. Qed.
Print Assumptions C91_callables_first_raises.
Theorem C91_default_return : forall W R (v : option R) (f : code W (option R)) w,
  default_return v f w = match f w with (Ok None, w1) => (Ok v, w1) | (Ok (Some r), w1) => (Ok (Some r), w1) | (Err e, w1) => (Err e, w1) end.
Proof. intros W R v f w. unfold default_return. destruct (f w) as [[[r|]|e] w1]; reflexivity. Qed.
Print Assumptions C91_default_return.

(** expect_exception: an expected exception is swallowed, any other passes, and no exception is an error. *)
Definition C91_expect_full_statement : Prop := forall W A x else_raise (body : code W A) w, expect_exception (isinstance_of x) else_raise body w =
  match body w with
  | (Ok _, w1) => (Err else_raise, w1)
  | (Err e, w1) => (if is_expected x e then Ok None else Err e, w1)
  end.
(** A list of exceptions, as the documentation has it, makes a TypeError of every exception. *)
Theorem C91_expect_full_statement_refuted : ~ C91_expect_full_statement.
Proof. intros H. specialize (H nat nat (AList [fun _ => true]) KeyError (fun w => (Err ValueError, w)) 0). cbn in H. discriminate. Qed.
Print Assumptions C91_expect_full_statement_refuted.
Theorem C91_expect_partial : forall W A x else_raise (body : code W A) w, (forall cs, x <> AList cs) -> expect_exception (isinstance_of x) else_raise body w =
  match body w with
  | (Ok _, w1) => (Err else_raise, w1)
  | (Err e, w1) => (if is_expected x e then Ok None else Err e, w1)
  end.
Proof. exact expect_ok. Qed.
Print Assumptions C91_expect_partial.

(** A callable wrapped in a context manager: every manager that is entered is left, exactly once, however the callable ends; and the empty manager changes nothing. *)
Theorem C91_wrapped_exits : forall W A B (m : manager W) (clbl : A -> code W B) x w a b r w' a' b',
  wrap_callable (fun w => (Ok (counted m), w)) (fun y => on_first (clbl y)) x (w, (a, b)) = (r, (w', (a', b'))) ->
  (r, w') = wrap_callable (fun w => (Ok m, w)) clbl x w /\ a' = S a /\ (is_ok (fst (enter m w)) = true -> b' = S b) /\ (is_ok (fst (enter m w)) = false -> b' = b).
Proof. intros W A B m clbl x. exact (with_counts W B m (clbl x)). Qed.
Print Assumptions C91_wrapped_exits.
(** The call gives what the callable gives; an exception goes to the manager, that may swallow it (None is returned then) or raise another. *)
Theorem C91_wrapped_result : forall W A B (m : manager W) (clbl : A -> code W B) x w w1, enter m w = (Ok tt, w1) ->
  (forall b w2 s w3, clbl x w1 = (Ok b, w2) -> exit m None w2 = (Ok s, w3) -> wrap_callable (fun w => (Ok m, w)) clbl x w = (Ok (Some b), w3)) /\
  (forall e w2 w3, clbl x w1 = (Err e, w2) -> exit m (Some e) w2 = (Ok true, w3) -> wrap_callable (fun w => (Ok m, w)) clbl x w = (Ok None, w3)) /\
  (forall e w2 w3, clbl x w1 = (Err e, w2) -> exit m (Some e) w2 = (Ok false, w3) -> wrap_callable (fun w => (Ok m, w)) clbl x w = (Err e, w3)) /\
  (forall r w2 e w3, clbl x w1 = (r, w2) -> exit m (match r with Ok _ => None | Err e0 => Some e0 end) w2 = (Err e, w3) -> wrap_callable (fun w => (Ok m, w)) clbl x w = (Err e, w3)).
Proof.
  intros W A B m clbl x w w1 E. unfold wrap_callable, with_. rewrite E. repeat split.
  - intros b w2 s w3 -> ->. reflexivity.
  - intros e w2 w3 -> ->. reflexivity.
  - intros e w2 w3 -> ->. reflexivity.
  - intros [b|e0] w2 e w3 -> ->; reflexivity.
Qed.
Print Assumptions C91_wrapped_result.
Theorem C91_empty_manager : forall W A (body : code W A) w, with_ empty_manager body w = (res_map Some (fst (body w)), snd (body w)).
Proof. intros W A body w. unfold with_. cbn. destruct (body w) as [[a|e] w1]; reflexivity. Qed.
Print Assumptions C91_empty_manager.

(** queue_iterator among any other producers and consumers, whatever the schedule: every item is taken in order and by just one of them; it yields only what it took. *)
Theorem C91_queue_iterator : forall items l, let s := q_exec (q_init items) l in log s ++ q s = items ++ puts l /\ merge (yielded s) (others s) (log s).
Proof. intros items l. destruct (q_inv items l) as (A & B & _). auto. Qed.
Print Assumptions C91_queue_iterator.
(** Alone it yields everything before it ends. *)
Theorem C91_queue_iterator_alone : forall items l, (forall e, In e l -> e = QCheck \/ e = QGet) -> let s := q_exec (q_init items) l in
  yielded s ++ q s = items /\ (ended s = true -> yielded s = items).
Proof. exact q_alone. Qed.
Print Assumptions C91_queue_iterator_alone.

(** Updating dictionaries: just the keys with something to set are set, all others are as before. *)
Theorem C91_update_keys : forall (K V : Type) (eqb : K -> K -> bool), eqb_ok eqb -> forall (items : dict K (option V)) d k, NoDup (dkeys items) ->
  dget eqb (update_keys_if_not_none eqb d items) k = match dget eqb items k with Some (Some v) => Some v | _ => dget eqb d k end.
Proof. intros K V eqb ok. exact (keys_ok eqb ok). Qed.
Print Assumptions C91_update_keys.
Theorem C91_update_key : forall (K V : Type) (eqb : K -> K -> bool), eqb_ok eqb -> forall truth (d : dict K V) k v flag x,
  dget eqb (update_key_if_true eqb truth d k v flag) x = (if (match flag with Some b => b | None => truth v end) && eqb x k then Some v else dget eqb d x).
Proof.
  intros K V eqb ok truth d k v flag x. unfold update_key_if_true. destruct (match flag with Some b => b | None => truth v end); cbn [andb]; auto.
  destruct (eqb x k) eqn:E; [apply ok in E; subst; apply (PreludeFacts.dget_dset_eq ok)|]. apply (PreludeFacts.dget_dset_neq ok). intros ->. assert (eqb k k = true) by now apply ok. congruence.
Qed.
Print Assumptions C91_update_key.
Theorem C91_contains : forall (A : Type) (eq : A -> bool) l, contains eq l = true <-> exists x, In x l /\ eq x = true.
Proof. intros A. exact (@contains_ok A). Qed.
Print Assumptions C91_contains.
Theorem C91_length : forall (A : Type) (l : list A), length_of None l = length l.
Proof. intros A. exact (@length_ok A). Qed.
Print Assumptions C91_length.

(** Cases. *)
Example C91_case_queue : let o x := if x =? 7 then Err (UserExn 1) else Ok (x * 2) in
  fst (shop_run o {| waiting := []; handled := []; noticed := 0 |} [SPut 3; SCall; SCall; SPut 7; SPut 4; SCall; SCall]) =
  [None; Some (Ok (Some 6)); Some (Ok None); None; None; Some (Err (UserExn 1)); Some (Ok (Some 8))] /\ forall x, o x <> Err EmptyExn.
Proof. split; [reflexivity|]. intros x. cbn. destruct (x =? 7); discriminate. Qed.
Example C91_case_loop : loop_while 9 (fun n => n =? 1) (fun (a : option nat) w => (Ok (w <? 3), w)) (fun _ w => (Ok tt, S w)) [5] 0 = (Ok tt, 3).
Proof. reflexivity. Qed.
Example C91_case_chain : chain_arguments (VTuple [VTuple [VOther 1]; VDict [(2, VOther 3)]]) = Ok ([VOther 1], [(2, VOther 3)]) /\ chain_arguments (VTuple [VOther 1; VOther 2; VOther 3]) = Ok ([VOther 1; VOther 2; VOther 3], []).
Proof. split; reflexivity. Qed.
Example C91_case_expect : expect_exception (isinstance_of (Tuple [fun e => match e with KeyError => true | _ => false end])) ValueError (fun w : nat => (Err KeyError : res nat, w)) 4 = (Ok None, 4).
Proof. reflexivity. Qed.
Example C91_case_iter : let s := q_exec (q_init [1; 2]) [QCheck; QPut 3; QTaken; QGet; QCheck; QTaken; QGet] in yielded s = [2] /\ others s = [1; 3] /\ ended s = true /\ log s = [1; 2; 3].
Proof. repeat split. Qed.
Example C91_case_update : update_keys_if_not_none Nat.eqb [(1, 5); (2, 6)] [(1, None); (2, Some 9); (3, Some 4)] = [(1, 5); (2, 9); (3, 4)].
Proof. reflexivity. Qed.
