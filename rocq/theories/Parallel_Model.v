(** Models of satella/coding/concurrent/thread_collection.py: ThreadCollection, functions.py: parallel_execute and list_processor.py: parallel_construct. *)
From Verif Require Import Prelude.
Set Implicit Arguments.

(** * parallel_construct and parallel_execute
    How each call ends is given; when it does is up to the schedule. Exceptions that do not derive from Exception are [RaisedBase]. *)
Inductive outcome (U : Type) : Type := Value (v : U) | Raised (e : exn) | RaisedBase (e : exn).
Arguments Raised {U} e.
Arguments RaisedBase {U} e.

Section Parallel.
  Variable U : Type.
  Inductive pevent : Type := Done (i : nat) | Go.

  (** list_processor.py:40-44: thread_pool.map submits everything at once and gives the results in the order of the iterable *)
  Record construct_state : Type := MkC { c_done : list bool; c_next : nat; c_result : list U; c_end : option (res (list U)) }.
  Definition construct_new (n : nat) : construct_state := MkC (repeat false n) 0 [] None.
  Definition construct_step (outs : list (outcome (option U))) (s : construct_state) (ev : pevent) : construct_state :=
    match ev with
    | Done i => MkC (upd (c_done s) i true) (c_next s) (c_result s) (c_end s)
    | Go =>
        match c_end s with
        | Some _ => s
        | None =>
            match nth_error outs (c_next s) with
            | None => MkC (c_done s) (c_next s) (c_result s) (Some (Ok (c_result s)))
            | Some o =>
                if nth (c_next s) (c_done s) false then
                  match o with
                  | Value None => MkC (c_done s) (S (c_next s)) (c_result s) None
                  | Value (Some v) => MkC (c_done s) (S (c_next s)) (c_result s ++ [v]) None
                  | Raised e | RaisedBase e => MkC (c_done s) (c_next s) (c_result s) (Some (Err e))
                  end
                else s
            end
        end
    end.
  Definition construct (outs : list (outcome (option U))) (l : list pevent) : construct_state := fold_left (construct_step outs) l (construct_new (length outs)).

  (** functions.py:61-65: what the iterator gave, and how it ended *)
  Inductive yielded : Type := Gave (v : U) | GaveException (e : exn).
  Record execute_state : Type := MkE { e_done : list bool; e_next : nat; e_yielded : list yielded; e_end : option (res unit) }.
  Definition execute_new (n : nat) : execute_state := MkE (repeat false n) 0 [] None.
  Definition execute_step (outs : list (outcome U)) (s : execute_state) (ev : pevent) : execute_state :=
    match ev with
    | Done i => MkE (upd (e_done s) i true) (e_next s) (e_yielded s) (e_end s)
    | Go =>
        match e_end s with
        | Some _ => s
        | None =>
            match nth_error outs (e_next s) with
            | None => MkE (e_done s) (e_next s) (e_yielded s) (Some (Ok tt))
            | Some o =>
                if nth (e_next s) (e_done s) false then
                  match o with
                  | Value v => MkE (e_done s) (S (e_next s)) (e_yielded s ++ [Gave v]) None
                  | Raised e => MkE (e_done s) (S (e_next s)) (e_yielded s ++ [GaveException e]) None
                  | RaisedBase e => MkE (e_done s) (e_next s) (e_yielded s) (Some (Err e))
                  end
                else s
            end
        end
    end.
  Definition execute (outs : list (outcome U)) (l : list pevent) : execute_state := fold_left (execute_step outs) l (execute_new (length outs)).
End Parallel.

(** run_as_future (functions.py:26-41): the thread sets the future, unless what the function raises does not derive from Exception. [None]: never set. *)
Definition run_as_future (U : Type) (o : outcome U) : option (res U) :=
  match o with Value v => Some (Ok v) | Raised e => Some (Err e) | RaisedBase _ => None end.

(** The calls made at the first next() (functions.py:60): one for each pair of arguments and keyword arguments, up to the first that raises *)
Section Launch.
  Variables (A K F : Type).
  Variable call : A -> K -> res F.
  Fixpoint launch (args : list A) (kwargs : list K) : list (A * K) * res (list F) :=
    match args, kwargs with
    | a :: args', k :: kwargs' =>
        match call a k with
        | Err e => ([(a, k)], Err e)
        | Ok f => let '(made, r) := launch args' kwargs' in ((a, k) :: made, res_map (cons f) r)
        end
    | _, _ => ([], Ok [])
    end.
End Launch.

(** * ThreadCollection: a thread that runs ends at some time or never *)
Local Open Scope Z_scope.
Inductive life : Type := NotStarted | Ends (at_ : Z) | Never.
Definition alive (now : Z) (t : life) : bool := match t with NotStarted => false | Ends a => now <? a | Never => true end.
(** Thread.join(timeout): the time afterwards *)
Definition thread_join (timeout : option Z) (now : Z) (t : life) : res Z :=
  match t with
  | NotStarted => Err RuntimeError
  | Ends a => Ok (match timeout with None => Z.max now a | Some w => Z.max now (Z.min a (now + w)) end)
  | Never => match timeout with None => Err Diverges | Some w => Ok (Z.max now (now + w)) end
  end.
(** join (thread_collection.py:125-140): how it ended and when *)
Fixpoint join (timeout : option Z) (now : Z) (threads : list life) : res unit * Z :=
  match threads with
  | [] => (Ok tt, now)
  | t :: rest =>
      match thread_join timeout now t with
      | Err e => (Err e, now)
      | Ok now' => if alive now' t then (Err WouldWaitMore, now') else join timeout now' rest
      end
  end.
(** is_alive (thread_collection.py:142-146) *)
Definition any_alive (now : Z) (threads : list life) : bool := existsb (alive now) threads.

(** start (thread_collection.py:102-110): a thread is started once only; the same thread may be in the collection twice. The threads that were
    started, by their numbers, and how it ended. *)
Fixpoint start (started : list nat) (threads : list nat) : list nat * res unit :=
  match threads with
  | [] => (started, Ok tt)
  | t :: rest => if memb Nat.eqb t started then (started, Err RuntimeError) else start (started ++ [t]) rest
  end.
(** terminate (thread_collection.py:112-123): what the threads' methods do; AttributeError for threads without one *)
Fixpoint terminate (call : nat -> res unit) (threads : list nat) : list nat * res unit :=
  match threads with
  | [] => ([], Ok tt)
  | t :: rest =>
      match call t with
      | Ok _ | Err AttributeError => let '(l, r) := terminate call rest in (t :: l, r)
      | Err e => ([t], Err e)
      end
  end.

(** collections by reference; + makes a new one, += and add change one (thread_collection.py:76-80, 92-100, 148-175) *)
Inductive operand : Type := AThread (t : nat) | ACollection (j : nat) | AList (l : list nat).
Inductive cop : Type := CNew (l : list nat) | CAdd (i t : nat) | CIadd (i : nat) (o : operand) | CPlus (i : nat) (o : operand).
Definition elements (heap : list (list nat)) (o : operand) : list nat :=
  match o with AThread t => [t] | ACollection j => nth j heap [] | AList l => l end.
Definition cstep (heap : list (list nat)) (o : cop) : list (list nat) :=
  match o with
  | CNew l => heap ++ [l]
  | CAdd i t => upd heap i (nth i heap [] ++ [t])
  | CIadd i x => upd heap i (nth i heap [] ++ elements heap x)
  | CPlus i x => heap ++ [nth i heap [] ++ elements heap x]
  end.
