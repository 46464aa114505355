(** Model of Timer and TimerBackgroundThread (satella/coding/concurrent/timer.py), on the TimeBasedHeap (structures/heaps/time.py).

    Timers are numbers; [interval] gives the interval of each and [second] is one second. Any number of threads start and cancel timers,
    also the functions of the timers; each operation of the heap is one step (heapq runs under the interpreter lock). The function of a
    timer ends, or raises an exception that is logged (timer.py:88-90). spawn_separate makes no difference here: the function is called.
    The clock only moves forward. *)
From Verif Require Import Prelude HeapqC_Model.
Set Implicit Arguments.
Local Open Scope Z_scope.

(** an element of the heap: the time, the timer *)
Notation entry := (Z * nat)%type.

Section Timers.
  Variables (interval : nat -> Z) (second : Z).

  (** [<] of two tuples (time, timer): timers of the same time are compared if they are not the same object, which raises TypeError *)
  Definition entry_lt (a b : entry) : res bool :=
    if fst a =? fst b then (if (snd a =? snd b)%nat then Ok false else Err TypeError) else Ok (fst a <? fst b).

  (** where the background thread is in its loop (timer.py:75-90) *)
  Inductive place : Type :=
  | Peeking                                    (* about to look at the closest timer *)
  | Sleeping (until : Z)
  | Popping (less : Z)                         (* about to ask the generator of pop_less_than(less) for the next item *)
  | Holding (less ts : Z) (t : nat)            (* about to call _try_execute of this one *)
  | Dead.
  Inductive note : Type :=
  | Started (at_ : Z) (t : nat) | StartRaised (at_ : Z) (t : nat) (e : exn)
  | Ran (ts at_ : Z) (t : nat) | Skipped (ts at_ : Z) (t : nat) | Died (e : exn).
  Record state : Type := mk_state { now : Z; data : list entry; cancelled : list nat; bg : place; log : list note }.
  Definition begin (clock : Z) : state := mk_state clock [] [] Peeking [].
  Definition set_bg (s : state) (p : place) : state := mk_state (now s) (data s) (cancelled s) p (log s).
  Definition set_data (s : state) (d : list entry) : state := mk_state (now s) d (cancelled s) (bg s) (log s).
  Definition write (s : state) (n : note) : state := mk_state (now s) (data s) (cancelled s) (bg s) (log s ++ [n]).

  (** timer.py:44-51 start *)
  Definition start (s : state) (t : nat) : state :=
    match cheappush entry_lt (data s) (now s + interval t, t) with
    | (d, None) => write (set_data s d) (Started (now s) t)
    | (d, Some e) => write (set_data s d) (StartRaised (now s) t e)
    end.
  (** timer.py:53-55 cancel *)
  Definition cancel (s : state) (t : nat) : state := mk_state (now s) (data s) (t :: cancelled s) (bg s) (log s).
  (** timer.py:77-83; peek_closest is heaps/time.py:100-106 *)
  Definition delay (s : state) : Z :=
    match data s with
    | [] => second
    | (ts, _) :: _ => let d := Z.min (ts - now s) second in if d <? 0 then 0 else d
    end.
  Definition turn (s : state) : state :=
    match bg s with
    | Peeking => set_bg s (Sleeping (now s + delay s))
    | Sleeping until => if now s <? until then s else set_bg s (Popping (now s))          (* timer.py:84-86 *)
    | Popping less =>                                                                     (* heaps/time.py:124-127 *)
      match data s with
      | [] => set_bg s Peeking
      | (ts, _) :: _ =>
        if less <=? ts then set_bg s Peeking
        else match cheappop entry_lt (data s) with
             | (d, Ok (ts, t)) => set_bg (set_data s d) (Holding less ts t)
             | (d, Err e) => write (set_bg (set_data s d) Dead) (Died e)                  (* raised by the for, outside of log_exceptions *)
             end
      end
    | Holding less ts t =>                                                                (* timer.py:57-64 *)
      if memb Nat.eqb t (cancelled s) then set_bg (write s (Skipped ts (now s) t)) (Popping less)
      else set_bg (write s (Ran ts (now s) t)) (Popping less)
    | Dead => s
    end.

  Inductive event : Type := Pass (d : nat) | Start (t : nat) | Cancel (t : nat) | Turn.
  Definition step (s : state) (e : event) : state :=
    match e with
    | Pass d => mk_state (now s + Z.of_nat d) (data s) (cancelled s) (bg s) (log s)
    | Start t => start s t
    | Cancel t => cancel s t
    | Turn => turn s
    end.
  Definition exec (s : state) (es : list event) : state := fold_left step es s.
End Timers.
