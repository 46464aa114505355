(** C130: the thread that cleans up dictionaries in the background. *)
From Verif Require Import Prelude PreludeFacts MoreFacts MetrThr_Model MetrThr_Spec ClnReg_Model ClnReg_Spec ClnReg_Proofs.

(** Wherever the threads are, all of them can go on to the ends of their programs, and the cleanup thread never raises. *)
Definition C130_full_statement : Prop :=
  forall breaks n programs schedule, threads_below n programs ->
  let c := reg_run breaks (reg_start programs) schedule in
  (exists schedule', finished (reg_run breaks c schedule')) /\ forall rounds e, ~ In (Background rounds, Err e) (log c).

(** If with blocks are nested in one order and no dictionary is made inside of one, all threads can always end, whatever raises. *)
Theorem C130_partial : forall breaks n programs schedule, threads_below n programs -> (forall t d, In d (programs t) -> orderly d) ->
  exists schedule', finished (reg_run breaks (reg_run breaks (reg_start programs) schedule) schedule').
Proof. intros. eapply can_finish; eauto. Qed.
Print Assumptions C130_partial.
Definition some_users : nat -> list call := fun t =>
  match t with
  | 0 => [User (Make 0); User (With 0 [Use 1; With 2 [Len 3; Drop 4]]); User (Len 0)]
  | 1 => [User (Make 1); User (Make 4); User (Use 1)]
  | 2 => [Background 2]
  | _ => []
  end.
Example C130_case : threads_below 3 some_users /\ (forall t d, In d (some_users t) -> orderly d) /\
  exists schedule, log (reg_run (fun _ => false) (reg_start some_users) schedule) =
  [(User (Make 0), Ok tt); (User (Make 1), Ok tt); (User (Make 4), Ok tt); (User (With 0 [Use 1; With 2 [Len 3; Drop 4]]), Ok tt); (User (Len 0), Ok tt); (User (Use 1), Ok tt); (Background 2, Ok tt)].
Proof.
  split; [intros [|[|[|t]]] L; simpl; auto; lia|]. split.
  - intros [|[|[|t]]] d I; simpl in I; repeat (destruct I as [<-|I]; simpl; auto; try (repeat split; lia)); destruct I.
  - exists (repeat 0 7 ++ repeat 1 12 ++ repeat 0 5 ++ [2;2;2] ++ repeat 0 10 ++ repeat 2 5 ++ repeat 0 5 ++ repeat 1 5 ++ repeat 2 40). vm_compute. reflexivity.
Qed.

(** The thread is started once, however many dictionaries are made at the same time, and at the latest when the first of them is ready. *)
Theorem C130_once : forall breaks programs schedule, let c := reg_run breaks (reg_start programs) schedule in
  launched (shared c) <= 1 /\ forall d r, In (User (Make d), r) (log c) -> launched (shared c) = 1.
Proof.
  intros breaks programs schedule c. pose proof (g_once (single_run breaks programs schedule)) as O. fold c in O. unfold once in O. split; [destruct (started (shared c)); lia|].
  intros d r I. destruct (e_log (enrolled_run breaks programs schedule) _ _ I) as [_ S]. fold c in S. rewrite S in O. auto.
Qed.
Print Assumptions C130_once.
(** A dictionary that was made is registered as long as somebody refers to it. *)
Theorem C130_registered : forall breaks programs schedule d r, let c := reg_run breaks (reg_start programs) schedule in
  In (User (Make d), r) (log c) -> ~ In d (gone (shared c)) -> In d (entries (shared c)).
Proof. intros breaks programs schedule d r c I N. destruct (e_log (enrolled_run breaks programs schedule) _ _ I) as [[X|X] _]; auto. tauto. Qed.
Print Assumptions C130_registered.
(** The cleanup thread is called for some rounds and ends, while others make, use and drop dictionaries. Then it has cleaned every dictionary that
    was registered before and is still referred to (so the cleanup() of none of them raises), these are still registered, and nothing
    is registered that was gone before. *)
Theorem C130_rounds : forall breaks programs before after t m l,
  let c0 := reg_run breaks (reg_start programs) before in
  let c := reg_run breaks c0 after in
  let c' := reg_run breaks c [t] in
  current c0 t = None -> todo c0 t = Background (S m) :: l -> todo c t = l -> log c' = log c ++ [(Background (S m), Ok tt)] ->
  (forall d, In d (entries (shared c')) -> ~ In d (gone (shared c0))) /\
  exists cleaned, swept (shared c') = swept (shared c0) ++ cleaned /\
    forall d, In d (entries (shared c0)) -> ~ In d (gone (shared c')) -> In d (entries (shared c')) /\ In d cleaned /\ breaks d = false.
Proof. intros breaks programs before after t m l c0 c c' C T T' L. apply round with (m := m) (l := l); auto. apply kept_on. apply kept_start. Qed.
Print Assumptions C130_rounds.
Definition a_round : nat -> list call := fun t => match t with 0 => [User (Make 0); User (Make 1); User (Make 2); User (Drop 1); User (Make 3)] | 1 => [Background 1] | _ => [] end.
Example C130_rounds_case : let c0 := reg_run (fun _ => false) (reg_start a_round) (repeat 0 22) in let c := reg_run (fun _ => false) c0 (repeat 1 2 ++ repeat 0 4 ++ repeat 1 7) in let c' := reg_run (fun _ => false) c [1] in
  current c0 1 = None /\ todo c0 1 = [Background 1] /\ todo c 1 = [] /\ log c' = log c ++ [(Background 1, Ok tt)] /\ entries (shared c0) = [0; 1; 2] /\ gone (shared c0) = [1] /\ entries (shared c') = [0; 2] /\ swept (shared c') = [0; 2].
Proof. vm_compute. repeat split. Qed.

(** ** What goes wrong *)
(** The documentation asks for a with block around loops. Whatever the others do: a block on a dictionary that begins with a loop over it, with its
    length or with a write to it never ends. *)
Theorem C130_iterate_refuted : forall breaks programs schedule d x body r, x = Len d \/ x = Use d ->
  ~ In (User (With d (x :: body)), r) (log (reg_run breaks (reg_start programs) schedule)).
Proof. intros breaks programs schedule d x body r A I. exact (h_log (hangs_run breaks programs schedule) _ _ I A). Qed.
Print Assumptions C130_iterate_refuted.
(** the cleanup thread waits for the block with the monitor of the registry in its hand, so that nobody can make a dictionary any more *)
Definition a_loop : nat -> list call := fun t => match t with 0 => [User (Make 0); User (With 0 [Len 0])] | 1 => [Background 1] | 2 => [User (Make 1)] | _ => [] end.
Theorem C130_all_hang_refuted : exists schedule, forall schedule', let c := reg_run (fun _ => false) (reg_run (fun _ => false) (reg_start a_loop) schedule) schedule' in
  log c = [(User (Make 0), Ok tt)].
Proof. exists (repeat 0 7 ++ [0; 0; 1; 1; 1; 2]). intros schedule'. cbv zeta. rewrite frozen; [reflexivity|]. intros [|[|[|t]]]; vm_compute; reflexivity. Qed.
Print Assumptions C130_all_hang_refuted.
(** a dictionary made inside of the block of another: a deadlock with the cleanup thread *)
Definition a_nested_make : nat -> list call := fun t => match t with 0 => [User (Make 0); User (With 0 [Make 1])] | 1 => [Background 1] | _ => [] end.
Theorem C130_make_inside_refuted :
  (exists schedule, forall schedule', log (reg_run (fun _ => false) (reg_run (fun _ => false) (reg_start a_nested_make) schedule) schedule') = [(User (Make 0), Ok tt)]) /\
  (exists schedule, finished (reg_run (fun _ => false) (reg_start a_nested_make) schedule)).
Proof.
  split.
  - exists (repeat 0 7 ++ [0; 0; 1; 1; 1]). intros schedule'. rewrite frozen; [reflexivity|]. intros [|[|[|t]]]; vm_compute; reflexivity.
  - exists (repeat 0 20 ++ repeat 1 20). split; intros [|[|t]]; vm_compute; reflexivity.
Qed.
Print Assumptions C130_make_inside_refuted.
(** a cleanup() that raises ends the cleanup thread: the dictionaries after it are never cleaned any more *)
Definition three_dictionaries : nat -> list call := fun t => match t with 0 => [User (Make 0); User (Make 1); User (Make 2)] | 1 => [Background 100] | _ => [] end.
Theorem C130_raises_refuted : exists schedule, let c := reg_run (Nat.eqb 1) (reg_start three_dictionaries) schedule in
  finished c /\ log c = [(User (Make 0), Ok tt); (User (Make 1), Ok tt); (User (Make 2), Ok tt); (Background 100, Err KeyError)] /\ swept (shared c) = [0].
Proof. exists (repeat 0 21 ++ repeat 1 8). vm_compute. repeat split; intros [|[|t]]; reflexivity. Qed.
Print Assumptions C130_raises_refuted.
Theorem C130_full_statement_refuted : ~ C130_full_statement.
Proof.
  intros H. destruct C130_raises_refuted as (schedule & _ & L & _). destruct (H (Nat.eqb 1) 2 three_dictionaries schedule) as [_ X]; [intros [|[|t]] Lt; simpl; auto; lia|].
  apply (X 100 KeyError). rewrite L. simpl. auto.
Qed.
Print Assumptions C130_full_statement_refuted.
