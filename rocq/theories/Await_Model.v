(** Model of AtomicNumber.wait_until_equal (satella/coding/concurrent/atomic.py) used by any number of threads, with the operations that
    change the number, the monitor's lock and the Condition (satella/coding/concurrent/thread.py) of the number.

    The value is an integer. A section of code guarded by the monitor which only reads the number is one turn, which has to wait for the
    monitor to be free (Monitor_Theorems proves that such sections do not interleave). threading.Condition is as documented: wait joins
    the waiting threads and releases the lock in one go, and takes the lock again before it returns. Time is not modelled: a thread whose
    time is over does so by an Expire event. *)
From Verif Require Import Prelude.
Set Implicit Arguments.

Inductive aop : Type :=
| Change (f : Z -> Z) (noisy : bool)  (** an in-place operator; noisy: one of those that call notify_all *)
| WaitEq (v : Z) (timed : bool).      (** wait_until_equal(v), with a timeout or without *)
Inductive aresult : Type := Changed | Reached (v : Z) | WouldWait (v : Z) | CondLocked (v : Z).
Inductive place : Type :=
| Outside
| AtMonitor (f : Z -> Z) (noisy : bool)   (** wants the monitor *)
| Inside (f : Z -> Z) (noisy : bool)      (** has it, to store the new value *)
| AtLock                                  (** stored; wants the condition's lock *)
| Notifying                               (** has it, to notify *)
| Unlocking                               (** notified, to release the condition's lock *)
| Leaving                                 (** to release the monitor *)
| Checking (v : Z) (timed : bool)         (** the head of the loop *)
| Comparing (v : Z) (timed : bool)        (** to evaluate self == v *)
| ToLock (v : Z) (timed : bool)           (** it was not equal; wants the condition's lock *)
| ToSleep (v : Z) (timed : bool)          (** has it, to wait *)
| Asleep (v : Z) (timed : bool)           (** waits, the condition's lock released *)
| Awake (v : Z) (timed : bool)            (** notified or timed out; wants the lock again *)
| ToUnlock (v : Z) (timed : bool)         (** has it, to release it *)
| Final (v : Z).                          (** the comparison after the loop *)
Record athread : Type := mk_athread { todo : list aop; at_ : place; results : list aresult }.
Record anumber : Type := mk_anumber { value : Z; monitor : option nat; lock : option nat; athreads : list athread }.
(** atomic.py:33-36 __init__ *)
Definition astart (v : Z) (programs : list (list aop)) : anumber := mk_anumber v None None (map (fun p => mk_athread p Outside []) programs).

Definition goto (th : athread) (p : place) : athread := mk_athread (todo th) p (results th).
Definition finish (th : athread) (r : aresult) : athread := mk_athread (todo th) Outside (results th ++ [r]).
(** threading.Condition.notify_all: thread.py:129-134 notify_all of Condition *)
Definition wake (th : athread) : athread := match at_ th with Asleep v timed => goto th (Awake v timed) | _ => th end.

(** atomic.py:141-145 __iadd__ and its likes (noisy), atomic.py:80-83 __iand__ and its likes (not noisy): monitor.py:82-86 takes the
    monitor, the value is changed, notify_all takes and releases the condition's lock, the monitor is released.
    atomic.py:260-282 wait_until_equal; atomic.py:38-50 wait; thread.py:92-127 wait of Condition. *)
Definition aturn (c : anumber) (t : nat) : anumber :=
  match nth_error (athreads c) t with
  | None => c
  | Some th =>
    let put v m l th' := mk_anumber v m l (upd (athreads c) t th') in
    match at_ th with
    | Outside =>
      match todo th with
      | [] => c
      | Change f noisy :: rest => put (value c) (monitor c) (lock c) (mk_athread rest (AtMonitor f noisy) (results th))
      | WaitEq v timed :: rest => put (value c) (monitor c) (lock c) (mk_athread rest (Checking v timed) (results th))
      end
    | AtMonitor f noisy =>
      match monitor c with
      | Some _ => c
      | None => put (value c) (Some t) (lock c) (goto th (Inside f noisy))
      end
    | Inside f noisy => put (f (value c)) (monitor c) (lock c) (goto th (if noisy then AtLock else Leaving))
    | AtLock =>
      match lock c with
      | Some _ => c
      | None => put (value c) (monitor c) (Some t) (goto th Notifying)
      end
    | Notifying => mk_anumber (value c) (monitor c) (lock c) (upd (map wake (athreads c)) t (goto th Unlocking))
    | Unlocking => put (value c) (monitor c) None (goto th Leaving)
    | Leaving => put (value c) None (lock c) (finish th Changed)
    | Checking v timed => put (value c) (monitor c) (lock c) (goto th (Comparing v timed))
    | Comparing v timed =>
      match monitor c with
      | Some _ => c
      | None =>
        if Z.eqb (value c) v
        then put (value c) (monitor c) (lock c) (if timed then goto th (Final v) else finish th (Reached v))
        else put (value c) (monitor c) (lock c) (goto th (ToLock v timed))
      end
    | ToLock v timed =>
      match lock c with
      | Some _ => c
      | None => put (value c) (monitor c) (Some t) (goto th (ToSleep v timed))
      end
    | ToSleep v timed => put (value c) (monitor c) None (goto th (Asleep v timed))
    | Asleep _ _ => c
    | Awake v timed =>
      match lock c with
      | Some _ => c
      | None => put (value c) (monitor c) (Some t) (goto th (ToUnlock v timed))
      end
    | ToUnlock v timed => put (value c) (monitor c) None (goto th (Checking v timed))
    | Final v =>
      match monitor c with
      | Some _ => c
      | None => put (value c) (monitor c) (lock c) (finish th (if Z.eqb (value c) v then Reached v else WouldWait v))
      end
    end
  end.
(** the timeout is over: the loop ends (atomic.py:275), the wait returns without an exception (thread.py:123-125 raises WouldWaitMore,
    atomic.py:48-50 swallows it), or the lock was not taken in time (thread.py:116-117), which nobody catches *)
Definition aexpire (c : anumber) (t : nat) : anumber :=
  match nth_error (athreads c) t with
  | None => c
  | Some th =>
    let put th' := mk_anumber (value c) (monitor c) (lock c) (upd (athreads c) t th') in
    match at_ th with
    | Checking v true => put (goto th (Final v))
    | Asleep v true => put (goto th (Awake v true))
    | ToLock v true => match lock c with Some _ => put (finish th (CondLocked v)) | None => c end
    | _ => c
    end
  end.
Inductive aevent : Type := Turn (t : nat) | Expire (t : nat).
Definition astep (c : anumber) (e : aevent) : anumber := match e with Turn t => aturn c t | Expire t => aexpire c t end.
Fixpoint aexec (c : anumber) (es : list aevent) : anumber := match es with [] => c | e :: rest => aexec (astep c e) rest end.
