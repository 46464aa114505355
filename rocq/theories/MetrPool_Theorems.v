(** C85: the metrified thread pool. *)
From Coq Require Import Permutation.
From Verif Require Import Prelude MetrPool_Model MetrPool_Spec MetrPool_Proofs.

(** Every submitted task is, at every moment of every execution in which somebody holds the executor, in exactly one of three places: it waits in
    the queue, it is being run by one worker, or it is finished; no task is run twice. *)
Theorem C85_once_partial : forall max_workers l, no_collection l -> let p := exec max_workers l in
  Permutation (queue p ++ running p ++ finished p) (seq 0 (submitted p)).
Proof. intros m l N. exact (once_exec m l N). Qed.
Print Assumptions C85_once_partial.

(** There are never more than max_workers threads, and while there are fewer of them and no submit() is under way, there is a waiting worker for
    every task in the queue: the semaphore never makes a task wait for a busy thread when a new one could be started. *)
Theorem C85_no_needless_wait_partial : forall max_workers l, no_collection l -> let p := exec max_workers l in
  length (workers p) <= max_workers /\ (adjusting p = false -> length (workers p) < max_workers -> length (queue p) <= waiting p).
Proof. exact conserving. Qed.
Print Assumptions C85_no_needless_wait_partial.

(** The pool never comes to a rest with work undone: when no worker can make a step and no submit() is under way, every submitted task is finished,
    exactly once. *)
Theorem C85_all_done_partial : forall max_workers l, no_collection l -> 0 < max_workers -> let p := exec max_workers l in
  at_rest p -> Permutation (finished p) (seq 0 (submitted p)).
Proof. exact rest_done. Qed.
Print Assumptions C85_all_done_partial.

(** Tasks are taken in the order of their submission: if a task still waits, so do all the later ones. *)
Theorem C85_fifo : forall max_workers l i j, let p := exec max_workers l in i < j -> In i (queue p) -> j < submitted p -> In j (queue p).
Proof. exact fifo. Qed.
Print Assumptions C85_fifo.

(** The metrics: as many waiting times as tasks were begun; as many executing times as tasks were finished, but for the workers that have just
    run one and did not report it yet. *)
Theorem C85_metrics_partial : forall max_workers l, no_collection l -> let p := exec max_workers l in
  waiting_times p = length (running p) + length (finished p) /\
  executing_times p + length (filter (fun x => match x with Ran _ => true | _ => false end) (workers p)) = length (finished p).
Proof. exact metrics_ok. Qed.
Print Assumptions C85_metrics_partial.

(** The full statement, for every execution, is false: a task that waits when the executor is collected is never run, whatever happens later. *)
Definition C85_full_statement : Prop := forall max_workers l, 0 < max_workers -> let p := exec max_workers l in
  at_rest p -> Permutation (finished p) (seq 0 (submitted p)).
Theorem C85_lost_refuted : forall max_workers l l' x, collected (exec max_workers l) = true -> In x (queue (exec max_workers l)) ->
  ~ In x (finished (exec max_workers (l ++ l'))).
Proof. exact lost_exec. Qed.
Print Assumptions C85_lost_refuted.
Theorem C85_full_statement_refuted : ~ C85_full_statement.
Proof. exact full_refuted. Qed.
Print Assumptions C85_full_statement_refuted.

(** Two tasks, one worker, the executor dropped while the first one runs: its worker dies of the AttributeError, and the second task stays. *)
Example C85_example_lost : let p := exec 1 [Put; Adjust; Take 0; Put; Adjust; Collect; Run 0; Release 0; Take 0] in
  finished p = [0] /\ queue p = [1] /\ workers p = [Dead].
Proof. repeat split; reflexivity. Qed.
(** With the executor held, the semaphore counts higher than there are workers, and both tasks are done. *)
Example C85_example : let p := exec 1 [Put; Adjust; Take 0; Put; Adjust; Run 0; Release 0; Take 0; Run 0; Release 0] in
  finished p = [0; 1] /\ queue p = [] /\ workers p = [Waiting] /\ idle p = 2 /\ waiting_times p = 2 /\ executing_times p = 2 /\ at_rest p.
Proof.
  cbv zeta. do 6 (split; [reflexivity|]). split; [reflexivity|]. intros w. vm_compute (exec _ _). destruct w as [|[|w]]; (split; [|split]); reflexivity.
Qed.
(** A worker takes, runs and releases the task of a submit() which has not adjusted the threads yet: then no thread is started. *)
Example C85_example_race : let p := exec 3 [Put; Adjust; Take 0; Run 0; Release 0; Put; Take 0; Run 0; Release 0; Adjust] in
  workers p = [Waiting] /\ finished p = [0; 1] /\ idle p = 1.
Proof. repeat split. Qed.
