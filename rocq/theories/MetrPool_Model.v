(** Model of satella/instrumentation/metrics/structures/threadpool.py: MetrifiedThreadPoolExecutor.

    Tasks are numbered as they are submitted. submit() holds the lock of the pool while it puts the task into the queue and then adjusts the
    number of threads; these are two steps, between which workers go on. Initializers and shutdown are not modelled; a worker starts without one. *)
From Verif Require Import Prelude.
Set Implicit Arguments.

(** Where a worker is (threadpool.py:31-70): waiting at the queue, running a task, having run it but not yet released the semaphore, or ended by an exception. *)
Inductive place : Type := Waiting | Running (task : nat) | Ran (task : nat) | Dead.
(** The executor's state (threadpool.py:91-115) *)
Record pool : Type := mk_pool {
  queue : list nat;
  workers : list place;
  idle : nat;                (* the value of _idle_semaphore *)
  submitted : nat;           (* how many tasks were submitted so far *)
  adjusting : bool;          (* a submit() has put its task and not yet adjusted the threads *)
  finished : list nat;       (* the tasks whose futures are set, in this order *)
  waiting_times : nat;       (* how many measurements the metrics got *)
  executing_times : nat;
  collected : bool           (* the executor is garbage: executor_reference() gives None *)
}.
Definition new_pool : pool := mk_pool [] [] 0 0 false [] 0 0 false.

Inductive event : Type := Put | Adjust | Take (w : nat) | Run (w : nat) | Release (w : nat) | Collect.
Section Pool.
  Variable max_workers : nat.
  Definition set_worker (p : pool) (w : nat) (x : place) : pool :=
    mk_pool (queue p) (upd (workers p) w x) (idle p) (submitted p) (adjusting p) (finished p) (waiting_times p) (executing_times p) (collected p).
  (** submit, the first half: the task is put into the queue (threadpool.py:133-146); simplified: a collected executor cannot be submitted to *)
  Definition put (p : pool) : pool :=
    if (adjusting p || collected p)%bool then p
    else mk_pool (queue p ++ [submitted p]) (workers p) (idle p) (S (submitted p)) true (finished p) (waiting_times p) (executing_times p) (collected p).
  (** _adjust_thread_count (threadpool.py:150-172) *)
  Definition adjust (p : pool) : pool :=
    if adjusting p then
      match idle p with
      | S n => mk_pool (queue p) (workers p) n (submitted p) false (finished p) (waiting_times p) (executing_times p) (collected p)
      | O =>
          mk_pool (queue p) (if length (workers p) <? max_workers then workers p ++ [Waiting] else workers p) 0 (submitted p) false
                  (finished p) (waiting_times p) (executing_times p) (collected p)
      end
    else p.
  (** _worker (threadpool.py:32-38): work_queue.get(), the waiting time; an executor that is gone is an AttributeError, which ends the worker *)
  Definition take (p : pool) (w : nat) : pool :=
    match nth_error (workers p) w, queue p with
    | Some Waiting, x :: q =>
        if collected p then mk_pool q (upd (workers p) w Dead) (idle p) (submitted p) (adjusting p) (finished p) (waiting_times p) (executing_times p) true
        else mk_pool q (upd (workers p) w (Running x)) (idle p) (submitted p) (adjusting p) (finished p) (S (waiting_times p)) (executing_times p) false
    | _, _ => p
    end.
  (** work_item.run(): the future is set (threadpool.py:40-41) *)
  Definition run (p : pool) (w : nat) : pool :=
    match nth_error (workers p) w with
    | Some (Running x) => mk_pool (queue p) (upd (workers p) w (Ran x)) (idle p) (submitted p) (adjusting p) (finished p ++ [x]) (waiting_times p) (executing_times p) (collected p)
    | _ => p
    end.
  (** the executing time, and the semaphore (threadpool.py:43-53) *)
  Definition release (p : pool) (w : nat) : pool :=
    match nth_error (workers p) w with
    | Some (Ran _) =>
        if collected p then set_worker p w Dead
        else mk_pool (queue p) (upd (workers p) w Waiting) (S (idle p)) (submitted p) (adjusting p) (finished p) (waiting_times p) (S (executing_times p)) false
    | _ => p
    end.
  (** nobody holds the executor any more, and nobody is in submit() then: executor_reference() gives None (threadpool.py:35, 43, 164) *)
  Definition collect (p : pool) : pool :=
    if adjusting p then p else mk_pool (queue p) (workers p) (idle p) (submitted p) false (finished p) (waiting_times p) (executing_times p) true.
  Definition step (p : pool) (e : event) : pool :=
    match e with Put => put p | Adjust => adjust p | Take w => take p w | Run w => run p w | Release w => release p w | Collect => collect p end.
  Definition exec (l : list event) : pool := fold_left step l new_pool.
End Pool.
