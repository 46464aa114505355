(** Futures of the Cassandra driver (satella/cassandra/future.py, satella/cassandra/parallel.py). *)
From Verif Require Import Prelude.
Set Implicit Arguments.

Section WrapFuture.
  Variable V : Type.
  (** The future returned. It is running from the start, so it cannot be cancelled. *)
  Inductive fut := Running | Finished (r : res V).
  (** where wrap_future is (future.py:19-23) *)
  Inductive place := BeforeCallback | BeforeErrback | Returned.
  (** The driver's future: its result, once it has one; the callbacks it has to call. add_callback and the completion exclude each
      other: a callback added later is called at once. [errors]: InvalidStateErrors raised inside the driver. *)
  Record state := { source : option (res V); callback : bool; errback : bool; at_ : place; out : fut; errors : nat }.
  Definition begin : state := {| source := None; callback := false; errback := false; at_ := BeforeCallback; out := Running; errors := 0 |}.
  (** fut.set_result and fut.set_exception *)
  Definition set_ (s : state) (r : res V) : state :=
    match out s with
    | Running => {| source := source s; callback := callback s; errback := errback s; at_ := at_ s; out := Finished r; errors := errors s |}
    | Finished _ => {| source := source s; callback := callback s; errback := errback s; at_ := at_ s; out := out s; errors := S (errors s) |}
    end.
  (** Complete: the driver completes its future; again for each further page that is fetched. Turn: wrap_future goes on. *)
  Inductive event := Complete (r : res V) | Turn.
  Definition step (s : state) (e : event) : state :=
    match e with
    | Complete r =>
      let s' := {| source := Some r; callback := callback s; errback := errback s; at_ := at_ s; out := out s; errors := errors s |} in
      match r with
      | Ok _ => if callback s then set_ s' r else s'
      | Err _ => if errback s then set_ s' r else s'
      end
    | Turn =>
      match at_ s with
      | BeforeCallback =>
        let s' := {| source := source s; callback := true; errback := errback s; at_ := BeforeErrback; out := out s; errors := errors s |} in
        match source s with Some (Ok v) => set_ s' (Ok v) | _ => s' end
      | BeforeErrback =>
        let s' := {| source := source s; callback := callback s; errback := true; at_ := Returned; out := out s; errors := errors s |} in
        match source s with Some (Err e) => set_ s' (Err e) | _ => s' end
      | Returned => s
      end
    end.
  Definition run (s : state) (es : list event) : state := fold_left step es s.
End WrapFuture.

Section ParallelFor.
  Variables Q A V : Type.
  (** one query, or several *)
  Inductive queries := OneQuery (q : Q) | Queries (l : list Q).
  (** what the generator does: calls execute_async (without arguments for None), yields, or raises *)
  Inductive act := Execute (q : Q) (a : option A) | Yield (v : V) | Raise (e : exn).
  (** zip(query, arguments), parallel.py:45-51 *)
  Fixpoint pairs (q : queries) (arguments : list (option A)) : list (Q * option A) :=
    match arguments with
    | [] => []
    | a :: t => match q with
                | OneQuery x => (x, a) :: pairs q t
                | Queries [] => []
                | Queries (x :: l) => (x, a) :: pairs (Queries l) t
                end
    end.
  (** execute_async: a future or an exception; [futures]: made so far *)
  Variable submit : Q -> option A -> res nat.
  Variable result : nat -> res V.
  Fixpoint submits (l : list (Q * option A)) (futures : list nat) : list act * res (list nat) :=
    match l with
    | [] => ([], Ok futures)
    | (q, a) :: t => match submit q a with
                     | Ok f => let (acts, r) := submits t (futures ++ [f]) in (Execute q a :: acts, r)
                     | Err e => ([Execute q a], Err e)
                     end
    end.
  (** parallel.py:53-54, for a consumer that takes [n] elements *)
  Fixpoint yields (n : nat) (futures : list nat) : list act :=
    match n, futures with
    | S n, f :: t => match result f with Ok v => Yield v :: yields n t | Err e => [Raise e] end
    | _, _ => []
    end.
  (** parallel.py:38-54: nothing happens before the first element is asked for *)
  Definition parallel_for (n : nat) (q : queries) (arguments : list (option A)) : list act :=
    match n with
    | O => []
    | S _ => let (acts, r) := submits (pairs q arguments) [] in
             acts ++ match r with Ok futures => yields n futures | Err e => [Raise e] end
    end.
End ParallelFor.
Arguments Running {V}. Arguments begin {V}. Arguments Turn {V}.
Arguments OneQuery {Q}. Arguments Queries {Q}.
