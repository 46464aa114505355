(** C32: AtomicNumber. C33: MonitorSet. C54: Monitor. C16, C17 from many threads. *)
From Verif Require Import Prelude PreludeFacts IDAlloc_Model IDAlloc_Spec Monitor_Model Monitor_Spec Monitor_Proofs.
Local Open Scope Z_scope.

(** ** C54: methods of a monitor, whatever their steps are, take effect one after the other... *)
Theorem C54_synchronized_methods_are_serial : forall (S O R : Type) (body : O -> code S R) s programs sch1 sch2,
  explained_over_time (fun s o => run_code s (body o)) s programs
    (exec body (start R s programs) sch1) (exec body (start R s programs) (sch1 ++ sch2)).
Proof.
  intros S O R body s programs sch1 sch2.
  exact (over_time S O R body (fun s o => run_code s (body o)) programs (fun _ _ _ _ => eq_refl) s sch1 sch2).
Qed.
Print Assumptions C54_synchronized_methods_are_serial.

(** ... no two threads are inside ... *)
Theorem C54_one_thread_inside : forall (S O R : Type) (body : O -> code S R) s programs sch t t',
  let c := exec body (start R s programs) sch in
  inside (threads c t) <> None -> inside (threads c t') <> None -> t = t'.
Proof. intros S O R body s programs sch t t'. exact (exclusive S O R body s programs sch t t'). Qed.
Print Assumptions C54_one_thread_inside.

(** ... and however far they got, they can all finish. *)
Theorem C54_can_finish : forall (S O R : Type) (body : O -> code S R) s programs sch n,
  exists more, all_over n (exec body (start R s programs) (sch ++ more)).
Proof. intros S O R body s programs sch n. exact (can_finish S O R body s programs sch n). Qed.
Print Assumptions C54_can_finish.

(** ** C32 *)
Definition C32_full_statement : Prop := forall s programs sch1 sch2,
  explained_over_time number_effect s programs
    (exec number_body (start (res answer) s programs) sch1) (exec number_body (start (res answer) s programs) (sch1 ++ sch2)).

(** Missing: %, which AtomicNumber does not have; operands that are AtomicNumbers (below). *)
Theorem C32_atomic_partial : forall s programs sch1 sch2,
  (forall t, Forall no_mod (programs t)) ->
  explained_over_time number_effect s programs
    (exec number_body (start (res answer) s programs) sch1) (exec number_body (start (res answer) s programs) (sch1 ++ sch2)).
Proof.
  intros s programs sch1 sch2 H.
  exact (over_time _ _ _ number_body number_effect programs
           (fun t o Hin => number_body_ok o (proj1 (Forall_forall _ _) (H t) o Hin)) s sch1 sch2).
Qed.
Print Assumptions C32_atomic_partial.

(** No addition is lost. *)
Theorem C32_additions_add_up : forall s amounts n sch,
  (forall t, (n <= t)%nat -> amounts t = []) ->
  let c := exec number_body (start (res answer) s (fun t => map (InPlace Add) (amounts t))) sch in
  all_over n c -> shared c = s + sum (map (fun t => sum (amounts t)) (seq 0 n)).
Proof. intros s amounts n sch. exact (no_lost_updates s amounts n sch). Qed.
Print Assumptions C32_additions_add_up.

Definition adders (t : nat) : list Z := match t with 0%nat => [3; 4] | 1%nat => [10] | _ => [] end.
(** thread 1 finds the lock taken twice *)
Definition adders_schedule : list nat := [0; 0; 1; 0; 1; 0; 1; 1; 0; 1; 1; 0; 0; 0; 0]%nat.
Definition adders_end := exec number_body (start (res answer) 5 (fun t => map (InPlace Add) (adders t))) adders_schedule.
Example C32_additions_example : all_over 2 adders_end /\ shared adders_end = 22.
Proof. split; [intros t Ht; destruct t as [|[|t]]; [reflexivity|reflexivity|lia]|reflexivity]. Qed.
Example C32_atomic_example :
  let c := exec number_body (start (res answer) 5 (fun t => match t with 0%nat => [InPlace Mul 2; Left Sub 1] | 1%nat => [InPlace FloorDiv 0; Compare Gt 7] | _ => [] end))
             [0; 1; 0; 0; 0; 1; 1; 1; 0; 0; 0; 1; 1; 1]%nat in
  (shared c, results (threads c 0%nat), results (threads c 1%nat)) = (10, [Ok ASelf; Ok (ANumber 9)], [Err ZeroDivision; Ok (ABool true)]).
Proof. vm_compute. reflexivity. Qed.

(** "Treat it like a normal number": but 7 % 2 is a TypeError. *)
Theorem C32_no_remainder_refuted :
  results (threads (exec number_body (start (res answer) 7 (fun _ => [Left Mod 2])) [0; 0]%nat) 0%nat) = [Err TypeError].
Proof. vm_compute. reflexivity. Qed.
Print Assumptions C32_no_remainder_refuted.

Theorem C32_full_statement_refuted : ~ C32_full_statement.
Proof.
  intros H. destruct (H 7 (fun t => match t with 0%nat => [Left Mod 2] | _ => [] end) [0; 0]%nat []) as (log & since & (HA & s' & HS & _) & _).
  pose proof (HA 0%nat) as [H1 H2]. vm_compute in H2. destruct log as [|[[[|t] o] r] log]; simpl in *.
  - discriminate.
  - unfold of_thread in H1, H2. simpl in H1, H2. destruct HS as [-> _]. injection H2 as H2 _. injection H1 as H1 _. subst o. discriminate.
  - pose proof (HA (S t)) as [H3 _]. unfold of_thread in H3. simpl in H3. rewrite Nat.eqb_refl in H3. discriminate.
Qed.
Print Assumptions C32_full_statement_refuted.

(** a == a, a + a, a += a never come back, whatever the schedule. *)
Theorem C32_operand_itself_refuted : forall sch,
  finished (lockers (lock_exec (start_locks (fun t => if Nat.eqb t 0 then [(0, 0)%nat] else [])) sch) 0%nat) = 0%nat.
Proof. exact itself_ok. Qed.
Print Assumptions C32_operand_itself_refuted.

(** a == b in one thread and b == a in another: once each has locked its own, neither comes back. *)
Theorem C32_two_numbers_refuted : forall sch t, (t < 2)%nat ->
  finished (lockers (lock_exec (start_locks (fun t => match t with 0 => [(0, 1)] | 1 => [(1, 0)] | _ => [] end)%nat) (0 :: 1 :: sch)%nat) t) = 0%nat.
Proof.
  intros sch t Ht. simpl lock_exec. rewrite stuck; try (intros; discriminate); try reflexivity.
  - destruct t as [|[|t]]; [reflexivity|reflexivity|lia].
  - intros u Hu. destruct u as [|[|u]]; [lia|lia|reflexivity].
Qed.
Print Assumptions C32_two_numbers_refuted.
Example C32_two_numbers_one_by_one :
  let c := lock_exec (start_locks (fun t => match t with 0 => [(0, 1)] | 1 => [(1, 0)] | _ => [] end)%nat) [0; 0; 0; 0; 1; 1; 1; 1]%nat in
  (finished (lockers c 0%nat), finished (lockers c 1%nat)) = (1, 1)%nat.
Proof. vm_compute. reflexivity. Qed.

(** ** C33: of the calls for x that are over, one returned True, unless x was there before; and x is in the set. *)
Theorem C33_admitted_once : forall (A : Type) (eqb : A -> A -> bool) (He : forall x y, eqb x y = true <-> x = y) s programs n sch x,
  (forall t, (n <= t)%nat -> programs t = []) ->
  let c := exec (insert_and_check eqb) (start bool s programs) sch in
  let over := calls_over eqb programs c x n in
  length (filter snd over) = (if memb eqb x s then 0 else match over with [] => 0 | _ => 1 end)%nat /\
  (over <> [] -> In x (shared c)) /\ (forall y, In y s -> In y (shared c)).
Proof. intros A eqb He s programs n sch x. exact (insert_once A eqb He s programs n sch x). Qed.
Print Assumptions C33_admitted_once.

Theorem C33_serial : forall (A : Type) (eqb : A -> A -> bool) s programs sch1 sch2,
  explained_over_time (insert_effect eqb) s programs
    (exec (insert_and_check eqb) (start bool s programs) sch1) (exec (insert_and_check eqb) (start bool s programs) (sch1 ++ sch2)).
Proof.
  intros A eqb s programs sch1 sch2.
  exact (over_time _ _ _ (insert_and_check eqb) (insert_effect eqb) programs (fun t o _ s => insert_body_ok A eqb o s) s sch1 sch2).
Qed.
Print Assumptions C33_serial.

Theorem C33_can_finish : forall (A : Type) (eqb : A -> A -> bool) s programs sch n,
  exists more, all_over n (exec (insert_and_check eqb) (start bool s programs) (sch ++ more)).
Proof. intros A eqb s programs sch n. exact (can_finish _ _ _ (insert_and_check eqb) s programs sch n). Qed.
Print Assumptions C33_can_finish.

Example C33_example :
  let programs := (fun t => match t with 0%nat => [7; 8] | 1%nat => [7] | 2%nat => [1] | _ => [] end) in
  let c := exec (insert_and_check Z.eqb) (start bool [1] programs) [1; 0; 1; 0; 2; 1; 1; 0; 0; 0; 0; 0; 0; 2; 2; 2; 0; 0; 2; 2; 2]%nat in
  (calls_over Z.eqb programs c 7 3, calls_over Z.eqb programs c 1 3, calls_over Z.eqb programs c 8 3, shared c)
  = ([(7, false); (7, true)], [(1, false)], [(8, true)], [8; 7; 1]).
Proof. vm_compute. reflexivity. Qed.

(** ** C16 and C17 from many threads, however the methods are split into steps: in the order in which the calls went through,
    each identifier is larger than all before it; and no identifier is given out while it is held. *)
Theorem C17_from_many_threads : forall body first programs sch,
  (forall o s, run_code s (body o) = let (x, s') := si_step s o in (s', x)) ->
  exists log, accounts_for log programs (exec body (start Z first programs) sch) /\
    issued [] (map (fun e => snd (fst e)) log) (map snd log).
Proof. exact si_concurrent. Qed.
Print Assumptions C17_from_many_threads.

Theorem C16_from_many_threads : forall body start_at top_limit programs sch,
  (forall o s, run_code s (body o) = ida_step start_at top_limit s o) ->
  exists log, accounts_for log programs (exec body (start ida_out ia_init programs) sch) /\
    ida_session (ident_call start_at top_limit) none_held (map (fun e => snd (fst e)) log) (map snd log).
Proof. exact ida_concurrent. Qed.
Print Assumptions C16_from_many_threads.

(** SequentialIssuer.issue in two steps: the value is read, then start is written *)
Definition issue_steps (o : si_op) : code Z Z :=
  Step (fun start => (start, Step (fun _ => let (x, start') := si_step start o in (start', Return x)))).
Example C17_steps_ok : forall o s, run_code s (issue_steps o) = let (x, s') := si_step s o in (s', x).
Proof. intros o s. simpl. destruct (si_step s o); reflexivity. Qed.
Example C17_threads_example :
  let c := exec issue_steps (start Z 5 (fun t => match t with 0%nat => [IIssue; IIssue] | 1%nat => [INoLessThan 9] | _ => [] end))
             [0; 1; 0; 0; 0; 1; 1; 1; 1; 0; 0; 0; 0]%nat in
  (results (threads c 0%nat), results (threads c 1%nat)) = ([5; 10], [9]).
Proof. vm_compute. reflexivity. Qed.
