(** Model of PeekableQueue (satella/coding/concurrent/queue.py) called by any number of threads, with the Condition it uses
    (satella/coding/concurrent/thread.py:74-143) over CPython's threading.Condition, whose waiters queue up.

    An event is a turn of one thread (one step: taking or giving back a lock, one operation on the deque) or the expiry of the
    time a thread waits. A thread that waits for a lock does nothing in its turn. *)
From Verif Require Import Prelude.
Set Implicit Arguments.

Section Queue.
  Variable A : Type.
  (** get and peek with a timeout or without *)
  Inductive qop : Type := Put (x : A) | PutMany (l : list A) | Get (timed : bool) | Peek (timed : bool).
  Inductive qresult : Type := Done | Got (x : A) | RaisedEmpty | RaisedLocked.

  (** where a thread is *)
  Inductive place : Type :=
  | Outside
  | Adding (rest : list A) (n : nat)  (** in put or put_many, with the queue's lock; n added so far *)
  | Notifying (n : nat)               (** the lock is given back *)
  | WithCondition (n : nat)           (** with the condition's lock, to notify n *)
  | Checking                          (** in get or peek, with the queue's lock *)
  | Looping                           (** the queue was empty; still with the lock *)
  | ToWait                            (** without the lock, not yet waiting *)
  | Waiting                           (** among the condition's waiters *)
  | Expired                           (** the time is over, but still among them, unless notified *)
  | Woken.                            (** notified; to take the queue's lock *)
  Record qthread : Type := mk_qthread { qtodo : list qop; at_ : place; qresults : list qresult }.
  (** the deque; who has its lock; who has the condition's; the condition's waiters *)
  Record qstate : Type := mk_qstate { items : list A; qlock : option nat; clock : option nat; waiters : list nat; qthreads : list qthread }.
  Definition qstart (programs : list (list qop)) : qstate := mk_qstate [] None None [] (map (fun p => mk_qthread p Outside []) programs).

  Definition goto (th : qthread) (p : place) : qthread := mk_qthread (qtodo th) p (qresults th).
  Definition finish (th : qthread) (r : qresult) : qthread := mk_qthread (tl (qtodo th)) Outside (qresults th ++ [r]).
  Definition put_thread (c : qstate) (t : nat) (th : qthread) : list qthread := upd (qthreads c) t th.
  (** thread.py:136-143 notify; those that are not waiting any more are notified in vain *)
  Definition wake (th : qthread) : qthread := match at_ th with Waiting => goto th Woken | _ => th end.
  Definition wake_all (who : list nat) (ths : list qthread) : list qthread :=
    fold_left (fun ths t => match nth_error ths t with Some th => upd ths t (wake th) | None => ths end) who ths.
  Definition timed (th : qthread) : bool := match qtodo th with Get b :: _ | Peek b :: _ => b | _ => false end.

  (** queue.py:24-109 and thread.py:92-143. [late]: measurement.timeouted, if asked now (queue.py:60). Getting the condition's lock back
      after waiting (CPython's Condition.wait) is part of the step that follows. *)
  Definition qturn (c : qstate) (t : nat) (late : bool) : qstate :=
    match nth_error (qthreads c) t with
    | None => c
    | Some th =>
      match at_ th with
      | Outside =>
        match qtodo th, qlock c with
        | Put x :: _, None => mk_qstate (items c) (Some t) (clock c) (waiters c) (put_thread c t (goto th (Adding [x] 0)))
        | PutMany l :: _, None => mk_qstate (items c) (Some t) (clock c) (waiters c) (put_thread c t (goto th (Adding l 0)))
        | _ :: _, None => mk_qstate (items c) (Some t) (clock c) (waiters c) (put_thread c t (goto th Checking))
        | _, _ => c
        end
      | Adding (x :: rest) n =>
        mk_qstate (items c ++ [x]) (qlock c) (clock c) (waiters c) (put_thread c t (goto th (Adding rest (S n))))
      | Adding [] n => mk_qstate (items c) None (clock c) (waiters c) (put_thread c t (goto th (Notifying n)))
      | Notifying n =>
        match clock c with
        | None => mk_qstate (items c) (qlock c) (Some t) (waiters c) (put_thread c t (goto th (WithCondition n)))
        | Some _ => c
        end
      | WithCondition n =>
        mk_qstate (items c) (qlock c) None (skipn n (waiters c)) (wake_all (firstn n (waiters c)) (put_thread c t (finish th Done)))
      | Checking =>
        match items c with
        | x :: rest =>
          mk_qstate (match qtodo th with Get _ :: _ => rest | _ => items c end) None (clock c) (waiters c) (put_thread c t (finish th (Got x)))
        | [] => mk_qstate (items c) (qlock c) (clock c) (waiters c) (put_thread c t (goto th Looping))
        end
      | Looping =>
        if timed th && late then mk_qstate (items c) None (clock c) (waiters c) (put_thread c t (finish th RaisedEmpty))
        else mk_qstate (items c) None (clock c) (waiters c) (put_thread c t (goto th ToWait))
      | ToWait =>
        match clock c with
        | None => mk_qstate (items c) (qlock c) (clock c) (waiters c ++ [t]) (put_thread c t (goto th Waiting))
        | Some _ => c
        end
      | Waiting => c
      | Expired => mk_qstate (items c) (qlock c) (clock c) (remove_first Nat.eqb t (waiters c)) (put_thread c t (finish th RaisedEmpty))
      | Woken =>
        match qlock c with
        | None => mk_qstate (items c) (Some t) (clock c) (waiters c) (put_thread c t (goto th Checking))
        | Some _ => c
        end
      end
    end.
  (** thread.py:112-127: the time runs out while waiting, or before the condition's lock could be taken *)
  Definition qexpire (c : qstate) (t : nat) : qstate :=
    match nth_error (qthreads c) t with
    | None => c
    | Some th =>
      if timed th then
        match at_ th, clock c with
        | Waiting, _ => mk_qstate (items c) (qlock c) (clock c) (waiters c) (put_thread c t (goto th Expired))
        | ToWait, Some _ => mk_qstate (items c) (qlock c) (clock c) (waiters c) (put_thread c t (finish th RaisedLocked))
        | _, _ => c
        end
      else c
    end.

  Inductive event : Type := Turn (t : nat) (late : bool) | Expire (t : nat).
  Definition qevent (c : qstate) (e : event) : qstate := match e with Turn t late => qturn c t late | Expire t => qexpire c t end.
  Fixpoint qexec (c : qstate) (es : list event) : qstate := match es with [] => c | e :: rest => qexec (qevent c e) rest end.
End Queue.
Arguments Done {A}.
Arguments RaisedEmpty {A}.
Arguments RaisedLocked {A}.
Arguments Get {A} timed.
Arguments Peek {A} timed.
Arguments Outside {A}.
Arguments Notifying {A} n.
Arguments WithCondition {A} n.
Arguments Checking {A}.
Arguments Looping {A}.
Arguments ToWait {A}.
Arguments Waiting {A}.
Arguments Expired {A}.
Arguments Woken {A}.
