(** Model of DeferredValue (satella/coding/concurrent/value.py) used by any number of threads, and of Closeable
    (satella/coding/misc.py).

    Threads take turns between any two reads or writes of what they share. The value given to set_value is not _BLANK. *)
From Verif Require Import Prelude.
Set Implicit Arguments.

Section Deferred.
  Variable V : Type.
  (** value(timeout) with a timeout or without; result() is the same *)
  Inductive dop : Type := SetValue (v : V) | GetValue (timed : bool).
  Inductive dresult : Type := WasSet (v : V) | AlreadySet | Value (v : V) | WouldWait | Blank.
  Inductive place : Type :=
  | Outside
  | Writing (v : V)         (** set_value: nothing was there, to write *)
  | Signalling (v : V)      (** written, to set the event *)
  | Waiting (timed : bool)  (** value: nothing was there, waiting for the event *)
  | Reading.                (** the event was seen or the value was there, to read it *)
  Record dthread : Type := mk_dthread { todo : list dop; at_ : place; results : list dresult }.
  Record dstate : Type := mk_dstate { val : option V; event_set : bool; dthreads : list dthread }.
  (** value.py:27-29 __init__ *)
  Definition dstart (programs : list (list dop)) : dstate := mk_dstate None false (map (fun p => mk_dthread p Outside []) programs).

  Definition goto (th : dthread) (p : place) : dthread := mk_dthread (todo th) p (results th).
  Definition finish (th : dthread) (r : dresult) : dthread := mk_dthread (todo th) Outside (results th ++ [r]).
  (** value.py:31-41 set_value; value.py:47-60 value. Event.wait returns at once when the event is set. *)
  Definition dturn (c : dstate) (t : nat) : dstate :=
    match nth_error (dthreads c) t with
    | None => c
    | Some th =>
      let put v s th' := mk_dstate v s (upd (dthreads c) t th') in
      match at_ th with
      | Outside =>
        match todo th with
        | [] => c
        | SetValue v :: rest =>
          let th0 := mk_dthread rest Outside (results th) in
          match val c with
          | Some _ => put (val c) (event_set c) (finish th0 AlreadySet)
          | None => put (val c) (event_set c) (goto th0 (Writing v))
          end
        | GetValue timed :: rest =>
          let th0 := mk_dthread rest Outside (results th) in
          match val c with
          | Some _ => put (val c) (event_set c) (goto th0 Reading)
          | None => put (val c) (event_set c) (goto th0 (Waiting timed))
          end
        end
      | Writing v => put (Some v) (event_set c) (goto th (Signalling v))
      | Signalling v => put (val c) true (finish th (WasSet v))
      | Waiting _ => if event_set c then put (val c) (event_set c) (goto th Reading) else c
      | Reading => put (val c) (event_set c) (finish th (match val c with Some v => Value v | None => Blank end))
      end
    end.
  (** the time given to Event.wait is over: value.py:57-59 *)
  Definition dexpire (c : dstate) (t : nat) : dstate :=
    match nth_error (dthreads c) t with
    | Some th => match at_ th with
                 | Waiting true => if event_set c then c else mk_dstate (val c) (event_set c) (upd (dthreads c) t (finish th WouldWait))
                 | _ => c
                 end
    | None => c
    end.
  Inductive devent : Type := Turn (t : nat) | Expire (t : nat).
  Definition dstep (c : dstate) (e : devent) : dstate := match e with Turn t => dturn c t | Expire t => dexpire c t end.
  Fixpoint dexec (c : dstate) (es : list devent) : dstate := match es with [] => c | e :: rest => dexec (dstep c e) rest end.
End Deferred.
Arguments GetValue {V} timed.
Arguments AlreadySet {V}.
Arguments WouldWait {V}.
Arguments Blank {V}.
Arguments Outside {V}.
Arguments Waiting {V} timed.
Arguments Reading {V}.

(** ** Closeable *)
(** a call of close() of a class that extends it, which cleans up if super().close() is true; reading .closed. Both __exit__ and __del__
    call close(): coding/misc.py:121-129 *)
Inductive cop : Type := CloseIt | IsClosed.
(** what super().close() returned (None if not initialised), and what .closed was *)
Inductive cresult : Type := Closed (r : option bool) | Was (b : bool).
Inductive cplace : Type := COutside | CFinally (r : option bool).
Record cthread : Type := mk_cthread { ctodo : list cop; cat_ : cplace; cresults : list cresult }.
(** finalized: None before the constructor is called; cleanups: how many times the resources were cleaned up *)
Record cstate : Type := mk_cstate { finalized : option bool; cleanups : nat; cthreads : list cthread }.
(** coding/misc.py:85-86 __init__, called or not *)
Definition cstart (initialised : bool) (programs : list (list cop)) : cstate :=
  mk_cstate (if initialised then Some false else None) 0 (map (fun p => mk_cthread p COutside []) programs).
(** coding/misc.py:88-98 closed; coding/misc.py:100-119 close: reading, then writing in the finally clause; the cleanup that follows is
    counted with the write *)
Definition cturn (c : cstate) (t : nat) : cstate :=
  match nth_error (cthreads c) t with
  | None => c
  | Some th =>
    match cat_ th with
    | COutside =>
      match ctodo th with
      | [] => c
      | CloseIt :: rest =>
        let r := match finalized c with Some b => Some (negb b) | None => None end in
        mk_cstate (finalized c) (cleanups c) (upd (cthreads c) t (mk_cthread rest (CFinally r) (cresults th)))
      | IsClosed :: rest =>
        let b := match finalized c with Some b => b | None => true end in
        mk_cstate (finalized c) (cleanups c) (upd (cthreads c) t (mk_cthread rest COutside (cresults th ++ [Was b])))
      end
    | CFinally r =>
      mk_cstate (Some true) (match r with Some true => S (cleanups c) | _ => cleanups c end)
        (upd (cthreads c) t (mk_cthread (ctodo th) COutside (cresults th ++ [Closed r])))
    end
  end.
Fixpoint cexec (c : cstate) (turns : list nat) : cstate := match turns with [] => c | t :: rest => cexec (cturn c t) rest end.
