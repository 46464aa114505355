(** What Future and FutureCollection promise: a future is open, then completed once or cancelled; callbacks registered with
    add_pre_done_callback may still change what it completes with, then nothing does. *)
From Verif Require Import Prelude Futures_Model.
Set Implicit Arguments.

Section Spec.
  Variable V : Type.

  Inductive stage : Type := Open (running : bool) | Cancelled (notified : bool) | Completed (r : res V).
  Record promise : Type := mk_promise { stage_ : stage; before : list nat; after : list (kind * nat) }.
  Definition new_promise (running : bool) : promise := mk_promise (Open running) [] [].

  (** what a callback that runs before completion does with the outcome, and sees of it; it ends where it raises *)
  Fixpoint replay (r : res V) (s : script V) : res V * list (event V) :=
    match s with
    | [] => (r, [])
    | (_, a) :: t =>
      match a with
      | AResult => let (r', ev) := replay r t in (r', ESaw false r :: ev)
      | ASetResult v => replay (Ok v) t
      | ASetException e => replay (Err e) t
      | ACancel => replay r t
      | ARaise => (r, [])
      end
    end.
  Fixpoint replay_all (r : res V) (w : nat -> script V) (cbs : list nat) : res V * list (event V) :=
    match cbs with
    | [] => (r, [])
    | c :: t => let (r1, ev1) := replay r (w c) in let (r', ev) := replay_all r1 w t in (r', EPre c :: ev1 ++ ev)
    end.
  (** a callback called when it is over: it sees the outcome; trying to change it raises *)
  Fixpoint look (r : res V) (s : script V) : list (event V) :=
    match s with
    | [] => []
    | (_, AResult) :: t => ESaw false r :: look r t
    | (_, ACancel) :: t => look r t
    | (_, _) :: _ => []
    end.
  Definition tell (r : res V) (cb : kind * nat) : list (event V) :=
    match cb, r with
    | (DPlain, c), _ => [EDone c r]
    | (DSuccess, c), Ok _ => [EWith c r]
    | (DSuccess, _), Err _ => []
    | (DFailure, c), Err _ => [EWith c r]
    | (DFailure, _), Ok _ => []
    | (DChain, c), _ => [EWith c r]
    end.
  (** a cancelled future has neither succeeded nor failed *)
  Definition tell_cancelled (cb : kind * nat) : list (event V) :=
    match cb with (DPlain, c) => [EDone c (Err CancelledExn)] | _ => [] end.

  Definition spec_set (s : promise) (r : res V) (w : nat -> script V) : promise * future_out V :=
    match stage_ s with
    | Open _ => let (r', ev) := replay_all r w (before s) in
                (mk_promise (Completed r') (before s) (after s), (AUnit (Ok tt), ev ++ flat_map (tell r') (after s)))
    | _ => (s, (AUnit (Err InvalidStateExn), []))
    end.
  Definition spec_cancel (s : promise) : promise * future_out V :=
    match stage_ s with
    | Open false => (mk_promise (Cancelled false) (before s) (after s), (ABool (Ok true), flat_map tell_cancelled (after s)))
    | Open true | Completed _ => (s, (ABool (Ok false), []))
    | Cancelled _ => (s, (ABool (Ok true), []))
    end.
  Definition spec_step (s : promise) (o : future_op V) : promise * future_out V :=
    match o with
    | FAddPre c sc =>
      match stage_ s with
      | Open _ => (mk_promise (stage_ s) (before s ++ [c]) (after s), (ADone, []))
      | Cancelled _ => (s, (ADone, EPre c :: look (Err CancelledExn) sc))
      | Completed r => (s, (ADone, EPre c :: look r sc))
      end
    | FAddDone k c =>
      match stage_ s with
      | Open _ => (mk_promise (stage_ s) (before s) (after s ++ [(k, c)]), (ADone, []))
      | Cancelled _ => (s, (ADone, tell_cancelled (k, c)))
      | Completed r => (s, (ADone, tell r (k, c)))
      end
    | FSet r w | FSourceSet r w => spec_set s r w
    | FCancel | FSourceCancel => spec_cancel s
    | FSetRunning =>
      match stage_ s with
      | Open false => (mk_promise (Open true) (before s) (after s), (ABool (Ok true), []))
      | Cancelled false => (mk_promise (Cancelled true) (before s) (after s), (ABool (Ok false), []))
      | _ => (s, (ABool (Err RuntimeError), []))
      end
    | FResult => (s, (AValue (match stage_ s with Open _ => Err TimeoutExn | Cancelled _ => Err CancelledExn | Completed r => r end), []))
    | FException => (s, (AExn (match stage_ s with
                               | Open _ => Err TimeoutExn
                               | Cancelled _ => Err CancelledExn
                               | Completed (Ok _) => Ok None
                               | Completed (Err e) => Ok (Some e)
                               end), []))
    end.
  Fixpoint spec_run (s : promise) (ops : list (future_op V)) : list (future_out V) :=
    match ops with [] => [] | o :: t => let (s', out) := spec_step s o in out :: spec_run s' t end.

  (** Situations in which the code does as documented. Of callbacks: they do not cancel the future, do not replace
      an exception with a result, and no other thread touches the future meanwhile. *)
  Fixpoint alone (s : script V) : Prop := match s with [] => True | (other, _) :: t => other = false /\ alone t end.
  Fixpoint plain_script (r : res V) (s : script V) : Prop :=
    match s with
    | [] => True
    | (other, a) :: t =>
      other = false /\
      match a with
      | AResult => plain_script r t
      | ASetResult v => (exists v0, r = Ok v0) /\ plain_script (Ok v) t
      | ASetException e => plain_script (Err e) t
      | ACancel => False
      | ARaise => alone t
      end
    end.
  Fixpoint plain_scripts (r : res V) (w : nat -> script V) (cbs : list nat) : Prop :=
    match cbs with
    | [] => True
    | c :: t => plain_script r (w c) /\ plain_scripts (fst (replay r (w c))) w t
    end.
  Definition no_success (k : kind) : Prop := k = DPlain \/ k = DFailure.
  (** [wrapped]: of a WrappingFuture; it is completed through the future it wraps *)
  Definition proper_op (wrapped : bool) (s : promise) (o : future_op V) : Prop :=
    match o with
    | FAddPre _ sc => alone sc
    | FAddDone k _ => match stage_ s with Cancelled _ => no_success k | _ => True end
    | FSet r w => wrapped = false /\ match stage_ s with Open _ => plain_scripts r w (before s) | _ => True end
    | FSourceSet r w => wrapped = true /\ match stage_ s with Open _ => plain_scripts r w (before s) | _ => True end
    | FCancel => match stage_ s with
                 | Open false => before s = [] /\ Forall (fun cb => if wrapped then fst cb = DFailure else no_success (fst cb)) (after s)
                 | _ => True
                 end
    | FSourceCancel => wrapped = true /\
                       match stage_ s with Open false => before s = [] /\ Forall (fun cb => fst cb = DFailure) (after s) | _ => True end
    | FSetRunning | FResult | FException => True
    end.
  Fixpoint proper (wrapped : bool) (s : promise) (ops : list (future_op V)) : Prop :=
    match ops with [] => True | o :: t => proper_op wrapped s o /\ proper wrapped (fst (spec_step s o)) t end.
End Spec.
Arguments Open {V} running.
Arguments Cancelled {V} notified.
