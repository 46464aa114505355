(** Monitors and the blocks they protect (satella/coding/concurrent/monitor.py and
    locked_structure.py): threads that run programs made of
    - [with monitor:] blocks: [Monitor.__enter__]/[__exit__] (monitor.py:36-42),
      [Monitor.synchronized] (70-85), [synchronize_on_attribute] (49-68),
      [Monitor.acquire] (117-141), [synchronize_on] (143-168), and
      [with LockedStructure:] (locked_structure.py:38-44) - all of them acquire
      the lock, run the body and release the lock however the body ends;
    - [with Monitor.release(monitor):] blocks (monitor.py:87-115): release,
      run the body, acquire again however the body ends;
    - steps of their own, [raise], and [try: ... except: pass].
    Monitors are numbered. The kind of a monitor says whether its lock is a
    threading.Lock (Monitor, 44-47) or a threading.RLock (RMonitor, 171-176).
    A turn of a thread does one such thing, or nothing at all if it waits for a
    lock. Acquiring a lock with a timeout, KeyboardInterrupt in the middle of
    __enter__ and pickling are not modelled. *)
From Verif Require Import Prelude.
Set Implicit Arguments.

Inductive code :=
| Done
| Do (a : nat) (k : code)                 (* a step of the user's own *)
| Throw                                   (* raise *)
| Try (body k : code)                     (* try: body / except Exception: pass; then k *)
| With (m : nat) (body k : code)
| Release (m : nat) (body k : code).

(** what is to be done when the innermost block ends *)
Inductive leave := Unlock (m : nat) | Lock (m : nat) | Catch.

Record thread := { now : code; failing : bool; stack : list (leave * code) }.

(** a lock: who acquired it and how many times. threading.Lock never looks at
    the owner. *)
Definition lock := option (nat * nat).

Inductive event :=
| Did (t a : nat)
| Entered (t m : nat)                     (* a with block was entered *)
| Left (t m : nat)
| GaveUp (t m : nat)                      (* a release block was entered *)
| TookBack (t m : nat)
| Refused (t m : nat).                    (* RuntimeError: release of a lock one may not release *)

Record config := { locks : nat -> lock; threads : nat -> thread; log : list event }.

Definition start_thread (p : code) : thread := {| now := p; failing := false; stack := [] |}.
Definition start (programs : nat -> code) : config :=
  {| locks := fun _ => None; threads := fun t => start_thread (programs t); log := [] |}.

Definition put {A} (f : nat -> A) (i : nat) (v : A) : nat -> A := fun x => if Nat.eqb x i then v else f x.

Section Machine.
  Variable reentrant : nat -> bool.

  (** Lock.acquire()/RLock.acquire() by thread t; None: it has to wait *)
  Definition acquire (m t : nat) (l : lock) : option lock :=
    match l with
    | None => Some (Some (t, 1))
    | Some (u, n) => if reentrant m && Nat.eqb u t then Some (Some (u, S n)) else None
    end.
  (** Lock.release()/RLock.release() by thread t; None: RuntimeError *)
  Definition release (m t : nat) (l : lock) : option lock :=
    match l with
    | None => None
    | Some (u, n) =>
      if reentrant m
      then if Nat.eqb u t then Some (match n with S (S n') => Some (u, S n') | _ => None end) else None
      else Some None
    end.

  Definition update (c : config) (t : nat) (th : thread) (m : nat) (l : lock) (e : event) : config :=
    {| locks := put (locks c) m l; threads := put (threads c) t th; log := log c ++ [e] |}.
  Definition silent (c : config) (t : nat) (th : thread) : config :=
    {| locks := locks c; threads := put (threads c) t th; log := log c |}.
  Definition note (c : config) (t : nat) (th : thread) (e : event) : config :=
    {| locks := locks c; threads := put (threads c) t th; log := log c ++ [e] |}.

  (** the innermost block of [t] is left: monitor.py:40-42, 113-115, 138-141, locked_structure.py:42-44.
      __exit__ returns False, so that an exception goes on. *)
  Definition leave_block (c : config) (t : nat) (th : thread) : config :=
    match stack th with
    | [] => c
    | (Catch, k) :: st => silent c t {| now := k; failing := false; stack := st |}
    | (Unlock m, k) :: st =>
      match release m t (locks c m) with
      | Some l => update c t {| now := k; failing := failing th; stack := st |} m l (Left t m)
      | None => note c t {| now := k; failing := true; stack := st |} (Refused t m)
      end
    | (Lock m, k) :: st =>
      match acquire m t (locks c m) with
      | Some l => update c t {| now := k; failing := failing th; stack := st |} m l (TookBack t m)
      | None => c
      end
    end.

  Definition turn (c : config) (t : nat) : config :=
    let th := threads c t in
    if failing th then leave_block c t th
    else
      match now th with
      | Done => leave_block c t th
      | Do a k => note c t {| now := k; failing := false; stack := stack th |} (Did t a)
      | Throw => silent c t {| now := Done; failing := true; stack := stack th |}
      | Try b k => silent c t {| now := b; failing := false; stack := (Catch, k) :: stack th |}
      | With m b k =>                                      (* 36-38, 134-136; locked_structure.py:38-40 *)
        match acquire m t (locks c m) with
        | Some l => update c t {| now := b; failing := false; stack := (Unlock m, k) :: stack th |} m l (Entered t m)
        | None => c
        end
      | Release m b k =>                                   (* 109-111 *)
        match release m t (locks c m) with
        | Some l => update c t {| now := b; failing := false; stack := (Lock m, k) :: stack th |} m l (GaveUp t m)
        | None => note c t {| now := Done; failing := true; stack := stack th |} (Refused t m)
        end
      end.

  Definition run (c : config) (schedule : list nat) : config := fold_left turn schedule c.
End Machine.
