(** Model of sleep_cpu_aware (satella/instrumentation/cpu_time/collector.py) and of CPUTimeAwareIntervalTerminableThread
    (satella/instrumentation/cpu_time/concurrency.py).

    Times are whole milliseconds. The clock moves with time.sleep and with the user's loop() only. What calculate_occupancy_factor() answers and
    whether the thread is terminating are functions of the time, [occ] and [term]. *)
From Coq Require Import String.
From Verif Require Import Prelude.
Set Implicit Arguments.
Local Open Scope Z_scope.

Section Sleep.
  Variable occ : Z -> Z.

  (** a bound that is not None and is passed (collector.py:173-180) *)
  Definition over (of_above : option Z) (v : Z) : bool := match of_above with Some b => b <? v | None => false end.
  Definition under (of_below : option Z) (v : Z) : bool := match of_below with Some b => v <? b | None => false end.

  (** the loop of sleep_cpu_aware (collector.py:168-183); a rest that is not above 0 ends it at the next test as well as at the break.
      The result is the time at the end and whether it was awoken. *)
  Fixpoint sleep_loop (fuel : nat) (now seconds : Z) (of_below of_above : option Z) (check_each : Z) : res (Z * bool) :=
    match fuel with
    | O => Err Diverges
    | S fuel' =>
        if 0 <? seconds then
          let time_to_sleep := Z.min seconds check_each in
          if time_to_sleep <? 0 then Err ValueError
          else
            let now' := now + time_to_sleep in
            if (over of_above (occ now') || under of_below (occ now'))%bool then Ok (now', true)
            else sleep_loop fuel' now' (seconds - time_to_sleep) of_below of_above check_each
        else Ok (now, false)
    end.
  (** sleep_cpu_aware (collector.py:149-184); each turn but the last sleeps check_each, so that the fuel is enough if that is positive *)
  Definition sleep_cpu_aware (now seconds : Z) (of_below of_above : option Z) (check_each : Z) : res (Z * bool) :=
    match of_below, of_above with
    | None, None => if seconds <? 0 then Err ValueError else Ok (now + seconds, false)
    | _, _ => sleep_loop (S (Z.to_nat seconds)) now seconds of_below of_above check_each
    end.

  Variable term : Z -> bool.
  (** TerminableThread.safe_sleep (concurrent/thread.py:406-412), started at [now] with [t] of the interval slept *)
  Fixpoint safe_sleep (fuel : nat) (now left : Z) : res Z :=
    match fuel with
    | O => Err Diverges
    | S fuel' =>
        if term now then Err SystemExitExn
        else if 0 <? left then safe_sleep fuel' (now + Z.min left 2000) (left - Z.min left 2000)
        else Ok now
    end.

  Variables (max_sooner wakeup_interval : Z).
  (** __sleep_waiting_for_cpu (concurrency.py:50-59); [per_val] is what percentile() said *)
  Fixpoint cpu_wait (fuel : nat) (now how_long per_val : Z) : res Z :=
    match fuel with
    | O => Err Diverges
    | S fuel' =>
        if ((0 <? how_long) && negb (term now))%bool then
          let time_to_sleep := Z.min wakeup_interval how_long in
          match sleep_cpu_aware now time_to_sleep (Some per_val) None 1000 with
          | Err e => Err e
          | Ok (now', true) => Ok now'
          | Ok (now', false) => cpu_wait fuel' now' (how_long - time_to_sleep) per_val
          end
        else Ok now
    end.
  (** __sleep (concurrency.py:61-66): safe_sleep gives None, so that the return is never taken *)
  Definition cpu_sleep (now how_long per_val : Z) : res Z :=
    if max_sooner <? how_long then
      res_bind (safe_sleep (S (Z.to_nat (how_long - max_sooner))) now (how_long - max_sooner)) (fun now' =>
        cpu_wait (S (Z.to_nat max_sooner)) now' max_sooner per_val)
    else cpu_wait (S (Z.to_nat how_long)) now how_long per_val.

  Variable seconds : Z.
  Variable per : Z -> Z.      (* what percentile() says at a time *)
  (** what the thread does: calls loop(), calls on_overrun() *)
  Inductive deed : Type := LoopAt (t : Z) | OverrunAt (t measured : Z).
  (** the while of run() (concurrency.py:78-91), for loop()s that take these times and do not raise; on_overrun() takes none.
      The result: what was done, and how it ended: [None] still going when the list was over, otherwise the exception or the return of run *)
  Fixpoint run (now : Z) (durations : list Z) : list deed * option (res Z) :=
    match durations with
    | [] => ([], None)
    | d :: rest =>
        if term now then ([], Some (Ok now))
        else
          let now' := now + d in
          let wait := seconds - d in
          if 0 <? wait then
            match cpu_sleep now' wait (per now') with
            | Err e => ([LoopAt now], Some (Err e))
            | Ok now'' => let '(l, e) := run now'' rest in (LoopAt now :: l, e)
            end
          else if wait <? 0 then let '(l, e) := run now' rest in (LoopAt now :: OverrunAt now' d :: l, e)
          else let '(l, e) := run now' rest in (LoopAt now :: l, e)
    end.
End Sleep.

(** __init__ (concurrency.py:28-37): the max_sooner of the thread. seconds is a number or a time string; a string times 0.1 is a TypeError.
    Fractions of milliseconds are dropped. *)
Inductive seconds_arg : Type := Seconds (ms : Z) | TimeString (s : string).
Definition init_max_sooner (max_sooner : option Z) (seconds : seconds_arg) : res Z :=
  match max_sooner with
  | Some (Zpos p) => Ok (Zpos p)
  | Some (Zneg p) => Ok (Zneg p)
  | Some Z0 | None => match seconds with Seconds ms => Ok (ms / 10) | TimeString _ => Err TypeError end
  end.
