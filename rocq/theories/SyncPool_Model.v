(** Model of satella/coding/concurrent/sync.py: sync_threadpool, with the ThreadPoolExecutor it works on.

    The executor is as documented: a first-in first-out queue of work and [max_workers] workers. Its threads are started when there is
    work for them; a thread not started yet is an idle worker here. Jobs of the user are numbered in the order they are submitted and
    finish when the scheduler says so. Changing the AtomicNumber together with its notification is one step (Monitor_Theorems and
    Await_Theorems are about that), and so is joining the waiting threads of a Condition. Time is not modelled: a limit that is over
    is an event. Shutting the executor down is not modelled. *)
From Verif Require Import Prelude.
Set Implicit Arguments.

(** what is in the queue: a job of the user, or decrease_atm *)
Inductive item : Type := Job (j : nat) | Task.
Inductive wplace : Type :=
| Idle
| Running (j : nat)
| ToDecrease            (** sync.py:54-56: started, before atm_n -= 1 *)
| ToSleep               (** sync.py:57: before cond.wait() joins the waiting threads *)
| Asleep                (** in cond.wait() *)
| Awake.                (** notified *)
Inductive cplace : Type :=
| NotYet
| Submitting (k : nat)  (** sync.py:59: k tasks submitted *)
| Polling               (** sync.py:13-19 *)
| Head                  (** sync.py:23: the head of the loop of _max_wait_atm_n *)
| Compare               (** atomic.py:270, 276: self == v *)
| GoToSleep             (** atomic.py:272, 278: it was not equal; before the wait joins the waiting threads *)
| Sleeping              (** in the wait of the AtomicNumber *)
| Final                 (** atomic.py:280-282, a second has passed *)
| Notify                (** sync.py:68 *)
| WaitAll               (** sync.py:69 wait(futures) *)
| Returned
| Raised.               (** WouldWaitMore *)
Record pool : Type := mk_pool {
  queue : list item; workers : list wplace; submitted : nat; finished : list nat;
  counter : nat; tasks_done : nat; cancelled : bool; caller : cplace }.
Definition start (max_workers : nat) : pool := mk_pool [] (repeat Idle max_workers) 0 [] 0 0 false NotYet.

Definition set_caller (p : pool) (c : cplace) : pool :=
  mk_pool (queue p) (workers p) (submitted p) (finished p) (counter p) (tasks_done p) (cancelled p) c.
Definition set_worker (p : pool) (i : nat) (w : wplace) : pool :=
  mk_pool (queue p) (upd (workers p) i w) (submitted p) (finished p) (counter p) (tasks_done p) (cancelled p) (caller p).
Definition set_queue (p : pool) (q : list item) : pool :=
  mk_pool q (workers p) (submitted p) (finished p) (counter p) (tasks_done p) (cancelled p) (caller p).

(** a worker does its next step: takes work, finishes the job, or goes through decrease_atm (sync.py:54-57) *)
Definition work (p : pool) (i : nat) : pool :=
  match nth_error (workers p) i with
  | None => p
  | Some Idle =>
    match queue p with
    | [] => p
    | Job j :: q => set_worker (set_queue p q) i (Running j)
    | Task :: q => if cancelled p then set_queue p q else set_worker (set_queue p q) i ToDecrease
    end
  | Some (Running j) =>
    mk_pool (queue p) (upd (workers p) i Idle) (submitted p) (finished p ++ [j]) (counter p) (tasks_done p) (cancelled p) (caller p)
  | Some ToDecrease =>
    mk_pool (queue p) (upd (workers p) i ToSleep) (submitted p) (finished p) (counter p - 1) (tasks_done p) (cancelled p)
      (match caller p with Sleeping => Compare | c => c end)
  | Some ToSleep => set_worker p i Asleep
  | Some Asleep => p
  | Some Awake =>
    mk_pool (queue p) (upd (workers p) i Idle) (submitted p) (finished p) (counter p) (S (tasks_done p)) (cancelled p) (caller p)
  end.

(** the thread that calls sync_threadpool does its next step *)
Definition turn (p : pool) : pool :=
  match caller p with
  | NotYet => mk_pool (queue p) (workers p) (submitted p) (finished p) (length (workers p)) 0 (cancelled p) (Submitting 0)   (* sync.py:49-52 *)
  | Submitting k =>                                                                                                   (* sync.py:59 *)
    if k <? length (workers p) then set_caller (set_queue p (queue p ++ [Task])) (Submitting (S k)) else set_caller p Polling
  | Polling => match queue p with [] => set_caller p Head | _ :: _ => p end                                           (* sync.py:13 *)
  | Head => set_caller p Compare                                                                                      (* sync.py:23-25, 64-67 *)
  | Compare => if Nat.eqb (counter p) 0 then set_caller p Notify else set_caller p GoToSleep                          (* atomic.py:269-272, 276-278 *)
  | GoToSleep => set_caller p Sleeping
  | Sleeping => p
  | Final => if Nat.eqb (counter p) 0 then set_caller p Notify else set_caller p Head                                 (* atomic.py:280-282; sync.py:27-28 *)
  | Notify =>                                                                                                         (* sync.py:68 *)
    mk_pool (queue p) (map (fun w => match w with Asleep => Awake | w => w end) (workers p)) (submitted p) (finished p)
      (counter p) (tasks_done p) (cancelled p) WaitAll
  | WaitAll => if tasks_done p <? length (workers p) then p else set_caller p Returned                                (* sync.py:69 *)
  | Returned | Raised => p
  end.

(** max_wait is over. Cancelling all the futures is one step; it cancels those still in the queue. *)
Definition expire (timed : bool) (p : pool) : pool :=
  if timed then
    match caller p with
    | Polling =>                                                                                                      (* sync.py:14-18 *)
      match queue p with
      | [] => p
      | _ :: _ => mk_pool (queue p) (workers p) (submitted p) (finished p) (counter p) (tasks_done p) true Raised
      end
    | Head => set_caller p Raised                                                                                     (* sync.py:23, 29 *)
    | _ => p
    end
  else p.
(** the second wait_until_equal was given is over (sync.py:25) *)
Definition slice (timed : bool) (p : pool) : pool :=
  if timed then match caller p with Sleeping => set_caller p Final | _ => p end else p.

Inductive event : Type := Submit | Work (i : nat) | Turn | Expire | Slice.
Definition step (timed : bool) (p : pool) (e : event) : pool :=
  match e with
  | Submit =>
    mk_pool (queue p ++ [Job (submitted p)]) (workers p) (S (submitted p)) (finished p) (counter p) (tasks_done p) (cancelled p) (caller p)
  | Work i => work p i
  | Turn => turn p
  | Expire => expire timed p
  | Slice => slice timed p
  end.
Fixpoint exec (timed : bool) (p : pool) (es : list event) : pool :=
  match es with [] => p | e :: rest => exec timed (step timed p e) rest end.
