(** Model of measure (satella/time/measure.py).

    Times are integers of some unit; what time_getter_callable returns is given with each call. Measuring a
    future is its callback calling stop() (measure.py:109-110), so it is a stop() like any other. *)
From Verif Require Import Prelude.
Set Implicit Arguments.
Local Open Scope Z_scope.

Record measure : Type := mk_measure {
  started_on : Z; elapsed : option Z; stopped_on : option Z;
  stop_on_stop : bool; create_stopped : bool; timeout : option Z }.

(** measure.py:94-110 *)
Definition new_measure (stop_on_stop : bool) (adjust : Z) (create_stopped : bool) (timeout : option Z) (now : Z) : measure :=
  let started := now + adjust in
  mk_measure started (if create_stopped then Some 0 else None) (if create_stopped then Some started else None)
             stop_on_stop create_stopped timeout.

Definition set_times (m : measure) (started : Z) (elapsed stopped : option Z) : measure :=
  mk_measure started elapsed stopped (stop_on_stop m) (create_stopped m) (timeout m).

(** measure.py:211-217 *)
Definition get_time_elapsed (m : measure) (now : Z) : Z :=
  match stop_on_stop m, elapsed m with
  | true, Some e => e
  | _, _ => now - started_on m
  end.
(** measure.py:112-121 *)
Definition time_remaining (m : measure) (now : Z) : option Z :=
  match timeout m with
  | None => None
  | Some l => let v := l - get_time_elapsed m now in Some (if v <? 0 then 0 else v)
  end.
(** measure.py:123-130 *)
Definition timeouted (m : measure) (now : Z) : bool :=
  match timeout m with None => false | Some l => l <=? get_time_elapsed m now end.
(** measure.py:132-141 *)
Definition assert_not_timeouted (m : measure) (now : Z) : res unit :=
  match timeout m with
  | None => Ok tt
  | Some _ => if timeouted m now then Err WouldWaitMore else Ok tt
  end.
(** measure.py:159-167 *)
Definition has_exceeded (m : measure) (value now : Z) : bool := value <? get_time_elapsed m now.
(** measure.py:182-188 *)
Definition reset (m : measure) (now : Z) : measure := set_times m now (Some 0) (Some now).
(** measure.py:190-201; the clock is read twice *)
Definition start (m : measure) (now1 now2 : Z) : measure * res unit :=
  if negb (stop_on_stop m) then (m, Err TypeError)
  else match stopped_on m with
       | None => (m, Err TypeError)
       | Some _ =>
         let m1 := set_times m (now1 - match elapsed m with Some e => e | None => 0 end) (elapsed m) None in
         (set_times m1 now2 None (stopped_on m1), Ok tt)
       end.
(** measure.py:207-209 *)
Definition adjust (m : measure) (interval : Z) : measure :=
  set_times m (started_on m + interval) (elapsed m) (stopped_on m).
(** measure.py:259-266 *)
Definition stopped (m : measure) : bool := match stopped_on m with Some _ => true | None => false end.
(** measure.py:268-280 *)
Definition stop (m : measure) (now : Z) : measure * res unit :=
  if negb (stop_on_stop m) then (m, Err TypeError)
  else match stopped_on m with
       | Some _ => (m, Err TypeError)
       | None => (set_times m (started_on m) (Some (now - started_on m)) (Some now), Ok tt)
       end.
(** measure.py:143-148 *)
Definition reset_and_start (m : measure) (now now1 now2 : Z) : measure * res unit := start (reset m now) now1 now2.
(** measure.py:150-157 *)
Definition reset_and_stop (m : measure) (now now1 : Z) : measure * res unit :=
  match stop m now with
  | (m', Ok _) => (reset m' now1, Ok tt)
  | (m', Err e) => (m', Err e)
  end.
(** measure.py:254-257 *)
Definition enter (m : measure) (now1 now2 : Z) : measure * res unit :=
  match elapsed m with
  | Some _ => if stop_on_stop m then start m now1 now2 else (m, Ok tt)
  | None => (m, Ok tt)
  end.
(** measure.py:282-285 *)
Definition exit (m : measure) (now : Z) : measure * res unit :=
  if stop_on_stop m then stop m now else (m, Ok tt).

(** measure.py:240-248: the copy that a decorated function is called with *)
Definition given_to_function (m : measure) (now now1 now2 : Z) : measure * res unit :=
  if create_stopped m then (m, Ok tt) else enter (reset m now) now1 now2.

Inductive measure_op : Type :=
| MStart (now1 now2 : Z) | MStop (now : Z) | MReset (now : Z) | MAdjust (interval : Z)
| MResetAndStart (now now1 now2 : Z) | MResetAndStop (now now1 : Z) | MEnter (now1 now2 : Z) | MExit (now : Z)
| MElapsed (now : Z) | MRemaining (now : Z) | MTimeouted (now : Z) | MAssert (now : Z) | MExceeded (value now : Z) | MStopped.
Inductive measure_out : Type := ODone (r : res unit) | OTime (t : Z) | ORemaining (t : option Z) | OFlag (b : bool).

Definition measure_step (m : measure) (o : measure_op) : measure * measure_out :=
  match o with
  | MStart t1 t2 => let (m', r) := start m t1 t2 in (m', ODone r)
  | MStop t => let (m', r) := stop m t in (m', ODone r)
  | MReset t => (reset m t, ODone (Ok tt))
  | MAdjust i => (adjust m i, ODone (Ok tt))
  | MResetAndStart t t1 t2 => let (m', r) := reset_and_start m t t1 t2 in (m', ODone r)
  | MResetAndStop t t1 => let (m', r) := reset_and_stop m t t1 in (m', ODone r)
  | MEnter t1 t2 => let (m', r) := enter m t1 t2 in (m', ODone r)
  | MExit t => let (m', r) := exit m t in (m', ODone r)
  | MElapsed t => (m, OTime (get_time_elapsed m t))
  | MRemaining t => (m, ORemaining (time_remaining m t))
  | MTimeouted t => (m, OFlag (timeouted m t))
  | MAssert t => (m, ODone (assert_not_timeouted m t))
  | MExceeded v t => (m, OFlag (has_exceeded m v t))
  | MStopped => (m, OFlag (stopped m))
  end.
Fixpoint measure_run (m : measure) (ops : list measure_op) : list measure_out * measure :=
  match ops with
  | [] => ([], m)
  | o :: t => let (m', out) := measure_step m o in let (outs, m'') := measure_run m' t in (out :: outs, m'')
  end.
