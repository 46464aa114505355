(** What a FIFO queue shared by threads is. *)
From Verif Require Import Prelude Queue_Model.
Set Implicit Arguments.

Section QueueSpec.
  Variable A : Type.
  (** One call on a queue holding q may be answered r, after which it holds q'. A call with a timeout may give up. *)
  Inductive fifo (q : list A) : qop A -> qresult A -> list A -> Prop :=
  | F_put x : fifo q (Put x) Done (q ++ [x])
  | F_put_many l : fifo q (PutMany l) Done (q ++ l)
  | F_get b x rest : q = x :: rest -> fifo q (Get b) (Got x) rest
  | F_peek b x rest : q = x :: rest -> fifo q (Peek b) (Got x) q
  | F_get_empty : fifo q (Get true) RaisedEmpty q
  | F_get_locked : fifo q (Get true) RaisedLocked q
  | F_peek_empty : fifo q (Peek true) RaisedEmpty q
  | F_peek_locked : fifo q (Peek true) RaisedLocked q.
  Definition entry : Type := (nat * qop A * qresult A)%type.
  Inductive fifo_history : list A -> list entry -> list A -> Prop :=
  | FH_nil q : fifo_history q [] q
  | FH_cons q t o r q1 log q' : fifo q o r q1 -> fifo_history q1 log q' -> fifo_history q ((t, o, r) :: log) q'.
  (** the calls of one thread, with answers *)
  Definition of_thread (t : nat) (log : list entry) : list (qop A * qresult A) :=
    map (fun e => (snd (fst e), snd e)) (filter (fun e => Nat.eqb (fst (fst e)) t) log).

  (** The log has the calls that are over, in the order of each thread's program, with the answers the threads got; and perhaps
      one more call of each, that has taken effect but has not returned. *)
  Definition accounts_for (log : list entry) (programs : list (list (qop A))) (c : qstate A) : Prop :=
    forall t program th, nth_error programs t = Some program -> nth_error (qthreads c) t = Some th ->
    (exists rest, program = map fst (of_thread t log) ++ rest) /\
    (exists in_flight, (length in_flight <= 1)%nat /\ map snd (of_thread t log) = qresults th ++ in_flight /\
                       (qtodo th = [] -> in_flight = [])).
  Definition explains (log : list entry) (programs : list (list (qop A))) (c : qstate A) : Prop :=
    accounts_for log programs c /\ exists q, fifo_history [] log q /\ (qlock c = None -> items c = q).

  (** what was put, what was got *)
  Definition puts (log : list entry) : list A :=
    flat_map (fun e => match snd (fst e) with Put x => [x] | PutMany l => l | _ => [] end) log.
  Definition gets (log : list entry) : list A :=
    flat_map (fun e => match snd (fst e), snd e with Get _, Got x => [x] | _, _ => [] end) log.

  Definition calls_over (c : qstate A) (t : nat) : nat := match nth_error (qthreads c) t with Some th => length (qresults th) | None => 0 end.
  Definition is_inside (c : qstate A) (t : nat) : Prop := match nth_error (qthreads c) t with Some th => at_ th <> Outside | None => False end.
  Definition all_over (c : qstate A) : Prop := Forall (fun th => qtodo th = []) (qthreads c).

  (** nothing can happen any more: every thread is done or asleep without timeout *)
  Definition at_rest (c : qstate A) : Prop := forall e, qevent c e = c.

  (** Whoever gives back the lock because the queue is empty starts to wait at once: others take no turns in between, except to finish
      notifying. *)
  Definition no_gap (c : qstate A) (e : event) : Prop :=
    forall t th, nth_error (qthreads c) t = Some th -> at_ th = ToWait ->
    match e with
    | Turn u _ => u = t \/ exists uth n, nth_error (qthreads c) u = Some uth /\ at_ uth = WithCondition n
    | Expire _ => False
    end.
  Fixpoint no_gaps (c : qstate A) (es : list event) : Prop :=
    match es with [] => True | e :: rest => no_gap c e /\ no_gaps (qevent c e) rest end.
  (** neither peek nor timeouts *)
  Definition plain (o : qop A) : Prop := match o with Put _ | PutMany _ | Get false => True | _ => False end.
  Definition asleep (c : qstate A) (t : nat) : Prop := exists th, nth_error (qthreads c) t = Some th /\ at_ th = Waiting.
End QueueSpec.

Definition gives_timeout {A} (o : qop A) : Prop := match o with Get false | Peek false => False | _ => True end.
