(** What measure promises (satella/time/measure.py): a stopwatch. *)
From Verif Require Import Prelude Measure_Model.
Set Implicit Arguments.
Local Open Scope Z_scope.

(** Time measured before, and since when it runs, if it runs. *)
Record watch : Type := mk_watch { before : Z; since : option Z }.
Definition runs (w : watch) : bool := match since w with Some _ => true | None => false end.
Definition total (w : watch) (now : Z) : Z := before w + match since w with Some s => now - s | None => 0 end.

(** [can_stop]: stop_on_stop; if not, it always runs. *)
Definition new_watch (can_stop : bool) (adjust : Z) (created_stopped : bool) (now : Z) : watch :=
  if can_stop && created_stopped then mk_watch 0 None else mk_watch (- adjust) (Some now).

Section Watch.
  (** [resumes]: starting a stopped watch resumes it, as documented; otherwise it starts from zero. *)
  Variable resumes : bool.
  Variable can_stop : bool.
  Variable limit : option Z.

  Definition started (w : watch) (now : Z) : watch * measure_out :=
    if can_stop && negb (runs w) then (mk_watch (if resumes then before w else 0) (Some now), ODone (Ok tt))
    else (w, ODone (Err TypeError)).
  Definition stopped_at (w : watch) (now : Z) : watch * measure_out :=
    if can_stop && runs w then (mk_watch (total w now) None, ODone (Ok tt)) else (w, ODone (Err TypeError)).
  Definition zero (now : Z) : watch := mk_watch 0 (if can_stop then None else Some now).

  Definition watch_step (w : watch) (o : measure_op) : watch * measure_out :=
    match o with
    | MStart _ t => started w t
    | MStop t => stopped_at w t
    | MReset t => (zero t, ODone (Ok tt))
    | MAdjust i => (if runs w then mk_watch (before w - i) (since w) else w, ODone (Ok tt))
    | MResetAndStart t _ t2 => started (zero t) t2
    | MResetAndStop t t1 => if can_stop && runs w then (zero t1, ODone (Ok tt)) else (w, ODone (Err TypeError))
    | MEnter _ t => if runs w then (w, ODone (Ok tt)) else started w t
    | MExit t => if can_stop then stopped_at w t else (w, ODone (Ok tt))
    | MElapsed t => (w, OTime (total w t))
    | MRemaining t => (w, ORemaining (option_map (fun l => Z.max 0 (l - total w t)) limit))
    | MTimeouted t => (w, OFlag (match limit with Some l => l <=? total w t | None => false end))
    | MAssert t => (w, ODone (if match limit with Some l => l <=? total w t | None => false end then Err WouldWaitMore else Ok tt))
    | MExceeded v t => (w, OFlag (v <? total w t))
    | MStopped => (w, OFlag (negb (runs w)))
    end.
  Fixpoint watch_run (w : watch) (ops : list measure_op) : list measure_out :=
    match ops with [] => [] | o :: t => let (w', out) := watch_step w o in out :: watch_run w' t end.

  (** No watch is started that has already measured something. *)
  Fixpoint never_resumed (w : watch) (ops : list measure_op) : Prop :=
    match ops with
    | [] => True
    | o :: t => match o with MStart _ _ | MEnter _ _ => runs w = true \/ before w = 0 | _ => True end
                /\ never_resumed (fst (watch_step w o)) t
    end.
End Watch.

(** stopped is asked of watches that can be stopped only. *)
Definition asks_stopped_properly (can_stop : bool) (ops : list measure_op) : Prop := can_stop = true \/ ~ In MStopped ops.
