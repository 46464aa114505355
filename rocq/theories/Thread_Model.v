(** Model of TerminableThread and IntervalTerminableThread (satella/coding/concurrent/thread.py), with any number of other threads
    calling terminate(), and of the future returned by call_in_separate_thread.

    The thread and the others take turns between any two operations. What the user's prepare(), loop(), cleanup() and on_overrun() do is
    given by the events: how each call ends. They may call self.terminate() as well, which is the same event as when another thread
    does it. Times are whole milliseconds instead of floats. *)
From Verif Require Import Prelude.
Set Implicit Arguments.

(** how a call of the user's method ends: an exception derived from Exception, SystemExit, or another one (like KeyboardInterrupt) *)
Inductive raised : Type := Ordinary (n : nat) | SysExit | OtherBase (n : nat) | NotATuple.
(** NotATuple: the TypeError of isinstance(e, terminate_on) *)
Inductive outcome : Type := Returns | Raises (e : raised).
Inductive method : Type := Prepare | Loop | Cleanup | Overrun.

(** what happened, in order: the user's method was called and ended; terminate() was called; the thread looked at the flag; it measured how
    long loop() took; it slept *)
Inductive act : Type :=
| Enters (m : method) | Leaves (m : method) (o : outcome) | Terminated | Saw (b : bool) | Measured (ms : Z) | Slept (ms : Z).

Inductive place : Type :=
| NotStarted
| AtTop                           (** run() was called, the try block is not entered yet *)
| Inside (m : method)             (** in the user's prepare, loop or on_overrun *)
| Handling (e : raised)           (** in except Exception *)
| AtTerminate                     (** to call self.terminate() *)
| Checking                        (** at the while *)
| Entering                        (** to call loop() *)
| AfterLoop (ms : Z)              (** of the interval thread: loop() took that long *)
| Deciding (ms : Z)               (** to sleep or to call on_overrun() *)
| SleepTest (ms : Z)            (** safe_sleep: at the while *)
| SleepFor (ms : Z)             (** to sleep *)
| SleepLast                       (** past the while *)
| AtFinally (o : outcome)         (** to call cleanup() *)
| Cleaning (o : outcome)          (** in cleanup() *)
| Ended (o : outcome).
Record tstate : Type := mk_tstate { flag : bool; injected : bool; at_ : place; trace : list act }.
(** thread.py:264-279 TerminableThread.__init__ *)
Definition tnew : tstate := mk_tstate false false NotStarted [].

Section Thread.
  (** is it an IntervalTerminableThread; its seconds, in milliseconds *)
  Variable interval : option Z.
  (** is the exception in terminate_on? None: terminate_on is neither a class nor a tuple, so that isinstance raises TypeError.
      terminate_on=None is fun _ => Some false *)
  Variable terminate_on : nat -> option bool.
  (** thread.py:393 safe_sleep: wake_up_each=2 *)
  Definition wake_up_each : Z := 2000.

  (** where an exception raised in the outer try block leads: thread.py:337-340 and thread.py:521-524 *)
  Definition out_with (e : raised) : place := AtFinally (match e with SysExit => Returns | _ => Raises e end).
  (** One step of the thread itself. In a method of the user nothing
      happens until it ends. *)
  Definition tgo (c : tstate) : tstate :=
    let to p l := mk_tstate (flag c) (injected c) p (trace c ++ l) in
    match at_ c with
    (* thread.py:306-312 start *)
    | NotStarted => to AtTop []
    (* thread.py:318-320 and thread.py:494-496 run *)
    | AtTop => to (Inside Prepare) [Enters Prepare]
    | Inside _ | Cleaning _ | Ended _ => c
    (* thread.py:321-326, thread.py:331-336 and, for the interval thread, thread.py:497-502, thread.py:507-512 *)
    | Handling e => match e with
                    | Ordinary n => match terminate_on n with
                                    | Some true => to AtTerminate []
                                    | Some false => to (out_with e) []
                                    | None => to (out_with NotATuple) []
                                    end
                    | _ => to (out_with e) []
                    end
    | AtTerminate => mk_tstate true (injected c) (AtFinally Returns) (trace c ++ [Terminated])
    (* thread.py:328 and thread.py:503 *)
    | Checking => to (if flag c then AtFinally Returns else Entering) [Saw (flag c)]
    | Entering => to (Inside Loop) [Enters Loop]
    (* thread.py:513-515 *)
    | AfterLoop d => if flag c then to (AtFinally Returns) [Saw true] else to (Deciding d) [Saw false]
    (* thread.py:516-520; thread.py:406 *)
    | Deciding d => match interval with
                    | Some seconds => if (seconds - d <? 0)%Z then to (Inside Overrun) [Enters Overrun] else to (SleepTest (seconds - d)%Z) []
                    | None => c
                    end
    (* thread.py:407 safe_sleep: the flag is not read when the time is over *)
    | SleepTest d => if (0 <? d)%Z then to (if flag c then SleepLast else SleepFor d) [Saw (flag c)] else to SleepLast []
    (* thread.py:408-410 *)
    | SleepFor d => to (SleepTest (d - Z.min d wake_up_each)%Z) [Slept (Z.min d wake_up_each)]
    (* thread.py:411-412 *)
    | SleepLast => to (if flag c then out_with SysExit else Checking) [Saw (flag c)]
    (* thread.py:339-340 and thread.py:523-524 *)
    | AtFinally o => to (Cleaning o) [Enters Cleanup]
    end.
  (** The user's method that is running ends. [ms]: how long it took. An exception in prepare() or loop() is seen by except Exception
      unless it is SystemExit or the like; one raised in on_overrun() is not; one raised in cleanup() leaves run(). *)
  Definition tends (c : tstate) (o : outcome) (ms : Z) : tstate :=
    let to p l := mk_tstate (flag c) (injected c) p (trace c ++ l) in
    match at_ c with
    | Inside m =>
      match o with
      | Returns => match m, interval with
                   | Loop, Some _ => to (AfterLoop ms) [Leaves m o; Measured ms]
                   | _, _ => to Checking [Leaves m o]
                   end
      | Raises e => match m, e with
                    | Overrun, _ | _, SysExit | _, OtherBase _ => to (out_with e) [Leaves m o]
                    | _, _ => to (Handling e) [Leaves m o]
                    end
      end
    | Cleaning pending => to (Ended (match o with Returns => pending | _ => o end)) [Leaves Cleanup o]
    | _ => c
    end.
  (** thread.py:421-451 terminate: the flag is set; with force the exception is injected if the thread is running *)
  Definition alive (p : place) : bool := match p with NotStarted | Ended _ => false | _ => true end.
  Definition tterminate (c : tstate) (force : bool) : tstate :=
    mk_tstate true (injected c || (force && alive (at_ c))) (at_ c) (trace c ++ [Terminated]).
  (** SystemExit injected into the thread surfaces where it is: in a method of the user, which then ends as the user's code makes it end;
      in the outer try block, whose except SystemExit catches it; before the try block or in its finally clause, where nothing does *)
  Definition tsurface (c : tstate) : tstate :=
    let to p := mk_tstate (flag c) false p (trace c) in
    if injected c then
      match at_ c with
      | NotStarted | Ended _ => c
      | AtTop | AtFinally _ => to (Ended (Raises SysExit))
      | Inside _ | Cleaning _ => to (at_ c)
      | _ => to (out_with SysExit)
      end
    else c.

  Inductive event : Type := Go | Ends (o : outcome) (ms : Z) | Terminate (force : bool) | Surface.
  Definition tstep (c : tstate) (e : event) : tstate :=
    match e with Go => tgo c | Ends o ms => tends c o ms | Terminate force => tterminate c force | Surface => tsurface c end.
  Fixpoint texec (c : tstate) (es : list event) : tstate := match es with [] => c | e :: rest => texec (tstep c e) rest end.
End Thread.

(** ** safe_wait_condition and safe_sleep on their own *)
(** condition.wait: notified in time, not notified, or its lock could not be acquired *)
Inductive wait_end : Type := Notified | NotNotified | LockBusy.
Inductive wait_result : Type := WReturned | WWouldWaitMore | WSystemExit | WResourceLocked | StillWaiting.
(** thread.py:379-391. [looks]: for each pass of the loop what the flag was and how the wait ended; StillWaiting when it runs out. Returned
    with it: the times given to condition.wait *)
Fixpoint wait_loop (t timeout wake : Z) (dont_raise : bool) (looks : list (bool * wait_end)) : wait_result * list Z :=
  if (t <? timeout)%Z then
    match looks with
    | [] => (StillWaiting, [])
    | (terminating, w) :: rest =>
      if terminating then (WSystemExit, [])
      else
        let ttw := Z.min (timeout - t) wake in
        match w with
        | Notified => (WReturned, [ttw])
        | LockBusy => (WResourceLocked, [ttw])
        | NotNotified => let (r, l) := wait_loop (t + ttw) timeout wake dont_raise rest in (r, ttw :: l)
        end
    end
  else (if dont_raise then WReturned else WWouldWaitMore, []).
(** thread.py:358-391 safe_wait_condition *)
Definition safe_wait_condition (timeout wake : Z) (dont_raise : bool) (looks : list (bool * wait_end)) : wait_result * list Z :=
  wait_loop 0 timeout wake dont_raise looks.
Inductive sleep_result : Type := SReturned | SSystemExit | SValueError | StillSleeping.
(** thread.py:406-412. [looks]: the flag at each pass of the loop; [last]: the flag afterwards. time.sleep refuses a negative time. *)
Fixpoint sleep_loop (t timeout wake : Z) (looks : list bool) (last : bool) : sleep_result * list Z :=
  if (t <? timeout)%Z then
    match looks with
    | [] => (StillSleeping, [])
    | true :: _ => (if last then SSystemExit else SReturned, [])
    | false :: rest =>
      let d := Z.min (timeout - t) wake in
      if (d <? 0)%Z then (SValueError, []) else let (r, l) := sleep_loop (t + d) timeout wake rest last in (r, d :: l)
    end
  else (if last then SSystemExit else SReturned, []).
(** thread.py:393-412 safe_sleep *)
Definition safe_sleep (timeout wake : Z) (looks : list bool) (last : bool) : sleep_result * list Z := sleep_loop 0 timeout wake looks last.

(** ** call_in_separate_thread *)
Inductive fstate : Type := Pending | FCancelled | Running | FResult (v : nat) | FException (e : raised).
Inductive fplace : Type := FStart | FCalling | FDone.
(** calls: how many times the function was called *)
Record call : Type := mk_call { future : fstate; fat : fplace; calls : nat }.
(** thread.py:65-67: the thread is created and started *)
Definition call_start : call := mk_call Pending FStart 0.
(** the function returns a value or raises *)
Inductive fout : Type := FReturns (v : nat) | FRaises (e : raised).
Inductive fevent : Type := FTurn (o : fout) | Cancel.
(** thread.py:54-63 run; Future.cancel succeeds only while it is pending *)
Definition fstep (c : call) (e : fevent) : call :=
  match e with
  | Cancel => match future c with Pending => mk_call FCancelled (fat c) (calls c) | _ => c end
  | FTurn o =>
    match fat c with
    | FStart => match future c with
                | FCancelled => mk_call FCancelled FDone (calls c)
                | _ => mk_call Running FCalling (calls c)
                end
    | FCalling => match o with
                  | FReturns v => mk_call (FResult v) FDone (S (calls c))
                  | FRaises (Ordinary n) => mk_call (FException (Ordinary n)) FDone (S (calls c))
                  | FRaises NotATuple => mk_call (FException NotATuple) FDone (S (calls c))
                  | FRaises _ => mk_call (future c) FDone (S (calls c))
                  end
    | FDone => c
    end
  end.
Fixpoint fexec (c : call) (es : list fevent) : call := match es with [] => c | e :: rest => fexec (fstep c e) rest end.
