(** Model of ExponentialBackoff (satella/time/backoff.py).

    Amounts of time are integers of some unit. What time.monotonic() returns is given with each call. *)
From Verif Require Import Prelude.
Set Implicit Arguments.
Local Open Scope Z_scope.

(** backoff.py:42-53 __init__; the condition variable is in [wait_loop] only *)
Record backoff : Type := mk_backoff {
  start : Z; limit : Z; grace_amount : Z; grace_counter : Z; counter : Z; unavailable_until : option Z }.
Definition new_backoff (start limit grace_amount : Z) : backoff := mk_backoff start limit grace_amount 0 0 None.

(** backoff.py:61-72 *)
Definition failed (b : backoff) (now : Z) : backoff :=
  if grace_amount b =? grace_counter b
  then let counter' := if counter b =? 0 then start b else Z.min (limit b) (counter b * 2) in
       mk_backoff (start b) (limit b) (grace_amount b) (grace_counter b) counter' (Some (now + counter'))
  else mk_backoff (start b) (limit b) (grace_amount b) (grace_counter b + 1) (counter b) (unavailable_until b).

Definition set_until (b : backoff) (u : option Z) : backoff :=
  mk_backoff (start b) (limit b) (grace_amount b) (grace_counter b) (counter b) u.

(** backoff.py:90-100 *)
Definition time_until_next_check (b : backoff) (now : Z) : backoff * option Z :=
  match unavailable_until b with
  | None => (b, None)
  | Some u => if u <? now then (set_until b None, None) else (b, Some (u - now))
  end.
(** backoff.py:102-114 *)
Definition ready_for_next_check (b : backoff) (now : Z) : backoff * bool :=
  match unavailable_until b with
  | None => (b, true)
  | Some u => if u <? now then (set_until b None, true) else (b, false)
  end.
(** backoff.py:116-119 *)
Definition available (b : backoff) : bool := counter b =? 0.
(** backoff.py:121-128 *)
Definition success (b : backoff) : backoff := mk_backoff (start b) (limit b) (grace_amount b) 0 0 None.
(** backoff.py:55-59: what sleep_fun is called with *)
Definition sleep (b : backoff) : Z := counter b.

Inductive backoff_op : Type := BFailed (now : Z) | BSuccess | BSleep | BNextCheck (now : Z) | BReady (now : Z) | BAvailable.
Inductive backoff_out : Type := OUnit | OSleep (amount : Z) | ONextCheck (t : option Z) | OBool (b : bool).

Definition backoff_step (b : backoff) (o : backoff_op) : backoff * backoff_out :=
  match o with
  | BFailed now => (failed b now, OUnit)
  | BSuccess => (success b, OUnit)
  | BSleep => (b, OSleep (sleep b))
  | BNextCheck now => let (b', t) := time_until_next_check b now in (b', ONextCheck t)
  | BReady now => let (b', r) := ready_for_next_check b now in (b', OBool r)
  | BAvailable => (b, OBool (available b))
  end.
Fixpoint backoff_run (b : backoff) (ops : list backoff_op) : list backoff_out * backoff :=
  match ops with
  | [] => ([], b)
  | o :: t => let (b', out) := backoff_step b o in let (outs, b'') := backoff_run b' t in (out :: outs, b'')
  end.

(** backoff.py:74-88 wait_until_available. [began]: when the measurement started. Each turn reads the clock for m.timeouted,
    then for time_until_next_check; then condition.wait(timeout=tn) takes what it takes, and the service may
    have been reported healthy meanwhile. [None]: the turns given are not enough. *)
Record turn : Type := mk_turn { at_timeouted : Z; at_check : Z; notified : bool }.
Fixpoint wait_loop (b : backoff) (timeout : option Z) (began : Z) (turns : list turn) (waited : list Z)
  : option (res unit) * backoff * list Z :=
  match turns with
  | [] => (None, b, waited)
  | t :: rest =>
    if match timeout with None => false | Some limit => limit <=? at_timeouted t - began end
    then (Some (Err WouldWaitMore), b, waited)
    else match time_until_next_check b (at_check t) with
         | (b', None) => (Some (Ok tt), b', waited)
         | (b', Some tn) => wait_loop (if notified t then success b' else b') timeout began rest (waited ++ [tn])
         end
  end.

(** backoff.py:161-171 the function made by launch: what the calls of the function do is given, with the
    clock at each failure; an exception is one of exceptions_on_failed or not. Returns what it did with
    the function's answers, and the amounts slept. [None]: the answers given are not enough. *)
Inductive attempt (R : Type) : Type := Returned (r : R) | Failed (now : Z) | Raised (e : exn).
Arguments Returned {R} r.
Arguments Failed {R} now.
Arguments Raised {R} e.
Fixpoint launched {R} (b : backoff) (attempts : list (attempt R)) (slept : list Z) : option (res R) * backoff * list Z :=
  match attempts with
  | [] => (None, b, slept)
  | Returned r :: _ => (Some (Ok r), success b, slept)
  | Raised e :: _ => (Some (Err e), b, slept)
  | Failed now :: rest => let b' := failed b now in launched b' rest (slept ++ [sleep b'])
  end.
