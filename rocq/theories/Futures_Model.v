(** Model of Future, WrappingFuture (satella/coding/concurrent/futures/futures.py) and FutureCollection
    (satella/coding/concurrent/futures/collection.py), with the parts of CPython's concurrent.futures._base.Future
    that they inherit or wrap.

    What a pre-done callback does is given as a list of actions; among them may be what other threads manage to do
    meanwhile, which is what does not need the lock of the future. What needs it happens before or after
    set_result(). Done callbacks only look at the result. Callbacks that add callbacks are not modelled, nor the waiters of
    concurrent.futures.wait(). *)
From Verif Require Import Prelude.
Set Implicit Arguments.

Inductive fstate : Type := PENDING | RUNNING | CANCELLED | CANCELLED_AND_NOTIFIED | PRE_FINISHED | FINISHED.
Definition is_over (s : fstate) : bool := match s with CANCELLED | CANCELLED_AND_NOTIFIED | FINISHED => true | _ => false end.

Section Future.
  Variable V : Type.
  (** Python's None, what a future's result is before it is set *)
  Variable none : V.

  Inductive action : Type := AResult | ASetResult (v : V) | ASetException (e : exn) | ACancel | ARaise.
  (** what happens while a callback runs; [true]: done by another thread *)
  Definition script := list (bool * action).
  Inductive kind : Type := DPlain | DSuccess | DFailure | DChain.
  Inductive event : Type :=
  | EPre (c : nat)                             (* a pre-done callback is called *)
  | ESaw (other : bool) (r : res V)            (* result() called from it, or by another thread meanwhile *)
  | EDone (c : nat) (r : res V)                (* a done callback is called and calls result() *)
  | EWith (c : nat) (r : res V).               (* a function given to on_success, on_failure or chain is called with it *)

  (** [source]: of a WrappingFuture, the state of the wrapped one *)
  Record future : Type := mk_future {
    own : fstate; source : option fstate; result_ : V; exception_ : option exn; pre : list nat; done : list (kind * nat) }.
  (** futures.py:38-41 *)
  Definition new_future : future := mk_future PENDING None none None [] [].

  (** futures.py:191-200 the property _state of WrappingFuture *)
  Definition get_state (f : future) : fstate :=
    match source f with
    | None => own f
    | Some FINISHED => own f
    | Some s => s
    end.
  Definition set_state (f : future) (s : fstate) : future := mk_future s (source f) (result_ f) (exception_ f) (pre f) (done f).
  Definition set_source (f : future) (s : fstate) : future := mk_future (own f) (Some s) (result_ f) (exception_ f) (pre f) (done f).
  Definition put_result (f : future) (v : V) : future := mk_future (own f) (source f) v (exception_ f) (pre f) (done f).
  Definition put_exception (f : future) (e : exn) : future := mk_future (own f) (source f) (result_ f) (Some e) (pre f) (done f).
  (** __get_result of CPython *)
  Definition get_result (f : future) : res V := match exception_ f with Some e => Err e | None => Ok (result_ f) end.

  (** futures.py:122-126; TimeoutExn: it waits and nothing happens *)
  Definition result (f : future) : res V :=
    match get_state f with
    | PRE_FINISHED | FINISHED => get_result f
    | CANCELLED | CANCELLED_AND_NOTIFIED => Err CancelledExn
    | PENDING | RUNNING => Err TimeoutExn
    end.
  (** futures.py:128-132 *)
  Definition exception (f : future) : res (option exn) :=
    match get_state f with
    | PRE_FINISHED | FINISHED => Ok (exception_ f)
    | CANCELLED | CANCELLED_AND_NOTIFIED => Err CancelledExn
    | PENDING | RUNNING => Err TimeoutExn
    end.
  (** a done callback; futures.py:52-55, 68-71, 85-90 *)
  Definition invoke (f : future) (cb : kind * nat) : list event :=
    match cb with
    | (DPlain, c) => [EDone c (result f)]
    | (DSuccess, c) => match exception_ f with Some _ => [] | None => [EWith c (Ok (result_ f))] end
    | (DFailure, c) => match exception_ f with None => [] | Some e => [EWith c (Err e)] end
    | (DChain, c) => [EWith c (match exception_ f with Some e => Err e | None => Ok (result_ f) end)]
    end.
  (** _invoke_callbacks of CPython *)
  Definition invoke_callbacks (f : future) : list event := flat_map (invoke f) (done f).
  (** cancel() of CPython *)
  Definition cancel_own (f : future) : future * bool * list event :=
    match get_state f with
    | RUNNING | FINISHED => (f, false, [])
    | CANCELLED | CANCELLED_AND_NOTIFIED => (f, true, [])
    | PENDING | PRE_FINISHED => let f' := set_state f CANCELLED in (f', true, invoke_callbacks f')
    end.
  (** cancel() of the wrapped future; _on_future_completed (futures.py:205-209) is then called and its set_result raises,
      which is logged *)
  Definition cancel_source (f : future) (s : fstate) : future * bool :=
    match s with
    | RUNNING | FINISHED | PRE_FINISHED => (f, false)
    | CANCELLED | CANCELLED_AND_NOTIFIED => (f, true)
    | PENDING => (set_source f CANCELLED, true)
    end.
  (** futures.py:211-213 *)
  Definition cancel (f : future) : future * bool * list event :=
    match source f with
    | None => cancel_own f
    | Some _ => match cancel_own f with
                | (f', _, events) => match source f' with
                                     | Some s => let (f'', b) := cancel_source f' s in (f'', b, events)
                                     | None => (f', true, events)
                                     end
                end
    end.
  (** futures.py:134-152 and futures.py:154-173 when the state is PRE_FINISHED; otherwise, called from a callback, they find the
      future over and raise *)
  Definition set_inside (f : future) (r : res V) : option future :=
    match get_state f with
    | PRE_FINISHED => Some (match r with Ok v => put_result f v | Err e => put_exception (put_result f none) e end)
    | _ => None
    end.
  (** what happens while a callback runs; an exception in it ends what the callback does, not what others do *)
  Fixpoint play (f : future) (raised : bool) (s : script) : future * list event :=
    match s with
    | [] => (f, [])
    | (other, a) :: t =>
      if negb other && raised then play f raised t
      else match a with
           | AResult => let (f', ev) := play f raised t in (f', ESaw other (result f) :: ev)
           | ASetResult v => match set_inside f (Ok v) with
                             | Some f1 => play f1 raised t
                             | None => play f (if other then raised else true) t
                             end
           | ASetException e => match set_inside f (Err e) with
                                | Some f1 => play f1 raised t
                                | None => play f (if other then raised else true) t
                                end
           | ACancel => if other then play f raised t     (* waits for the lock *)
                        else match cancel f with
                             | (f1, _, ev1) => let (f', ev) := play f1 raised t in (f', ev1 ++ ev)
                             end
           | ARaise => play f (if other then raised else true) t
           end
    end.
  (** futures.py:114-120 *)
  Fixpoint invoke_pre_callbacks (f : future) (w : nat -> script) (cbs : list nat) : future * list event :=
    match cbs with
    | [] => (f, [])
    | c :: t => let (f1, ev1) := play f false (w c) in
                let (f', ev) := invoke_pre_callbacks f1 w t in (f', EPre c :: ev1 ++ ev)
    end.
  (** futures.py:142-152 and futures.py:163-173 *)
  Definition complete (f : future) (r : res V) (w : nat -> script) : future * res unit * list event :=
    if is_over (get_state f) then (f, Err InvalidStateExn, [])
    else let f1 := match r with Ok v => put_result f v | Err e => put_exception f e end in
         let (f2, ev) := invoke_pre_callbacks (set_state f1 PRE_FINISHED) w (pre f) in
         let f3 := set_state f2 FINISHED in
         (f3, Ok tt, ev ++ invoke_callbacks f3).
  (** futures.py:95-112; [s]: what it does if called at once *)
  Definition add_pre_done_callback (f : future) (c : nat) (s : script) : future * list event :=
    if is_over (get_state f) then let (f', ev) := play f false s in (f', EPre c :: ev)
    else (mk_future (own f) (source f) (result_ f) (exception_ f) (pre f ++ [c]) (done f), []).
  (** add_done_callback of CPython; futures.py:43-93 *)
  Definition add_done_callback (f : future) (k : kind) (c : nat) : future * list event :=
    if is_over (get_state f) then (f, invoke f (k, c))
    else (mk_future (own f) (source f) (result_ f) (exception_ f) (pre f) (done f ++ [(k, c)]), []).
  (** set_running_or_notify_cancel of CPython *)
  Definition next_running (s : fstate) : option (fstate * bool) :=
    match s with
    | CANCELLED => Some (CANCELLED_AND_NOTIFIED, false)
    | PENDING => Some (RUNNING, true)
    | _ => None
    end.
  (** and futures.py:202-203 *)
  Definition set_running_or_notify_cancel (f : future) : future * res bool :=
    match next_running (match source f with Some s => s | None => own f end) with
    | Some (s, b) => (match source f with Some _ => set_source f s | None => set_state f s end, Ok b)
    | None => (f, Err RuntimeError)
    end.
  (** futures.py:185-189: wrapping a future which is not over yet *)
  Definition wrapping_future (running : bool) : future :=
    let s := if running then RUNNING else PENDING in mk_future s (Some s) none None [] [].
  (** set_result or set_exception of the wrapped future, and futures.py:205-209 *)
  Definition source_completed (f : future) (r : res V) (w : nat -> script) : future * res unit * list event :=
    match source f with
    | Some PENDING | Some RUNNING => match complete (set_source f FINISHED) r w with (f', _, ev) => (f', Ok tt, ev) end
    | _ => (f, Err InvalidStateExn, [])
    end.
  (** cancel() of the wrapped future by its owner *)
  Definition source_cancelled (f : future) : future * bool :=
    match source f with Some s => cancel_source f s | None => (f, false) end.

  Inductive future_op : Type :=
  | FAddPre (c : nat) (s : script) | FAddDone (k : kind) (c : nat) | FSet (r : res V) (w : nat -> script) | FCancel
  | FSetRunning | FResult | FException | FSourceSet (r : res V) (w : nat -> script) | FSourceCancel.
  Inductive answer : Type := ADone | AUnit (r : res unit) | ABool (r : res bool) | AValue (r : res V) | AExn (r : res (option exn)).
  Definition future_out := (answer * list event)%type.

  Definition future_step (f : future) (o : future_op) : future * future_out :=
    match o with
    | FAddPre c s => let (f', ev) := add_pre_done_callback f c s in (f', (ADone, ev))
    | FAddDone k c => let (f', ev) := add_done_callback f k c in (f', (ADone, ev))
    | FSet r w => match complete f r w with (f', a, ev) => (f', (AUnit a, ev)) end
    | FCancel => match cancel f with (f', b, ev) => (f', (ABool (Ok b), ev)) end
    | FSetRunning => let (f', r) := set_running_or_notify_cancel f in (f', (ABool r, []))
    | FResult => (f, (AValue (result f), []))
    | FException => (f, (AExn (exception f), []))
    | FSourceSet r w => match source_completed f r w with (f', a, ev) => (f', (AUnit a, ev)) end
    | FSourceCancel => let (f', b) := source_cancelled f in (f', (ABool (Ok b), []))
    end.
  Fixpoint future_run (f : future) (ops : list future_op) : list future_out * future :=
    match ops with
    | [] => ([], f)
    | o :: t => let (f', out) := future_step f o in let (outs, f'') := future_run f' t in (out :: outs, f'')
    end.

  (** collection.py:57-66 *)
  Fixpoint coll_set_running (starting : bool) (fs : list future) : list future * res bool :=
    match fs with
    | [] => ([], Ok starting)
    | f :: t => if starting then let (t', r) := coll_set_running true t in (f :: t', r)
                else match set_running_or_notify_cancel f with
                     | (f', Ok b) => let (t', r) := coll_set_running b t in (f' :: t', r)
                     | (f', Err e) => (f' :: t, Err e)
                     end
    end.
  (** collection.py:89-105, over futures without pre-done callbacks that do anything *)
  Fixpoint coll_set (r : res V) (fs : list future) : list future * res unit :=
    match fs with
    | [] => ([], Ok tt)
    | f :: t => match complete f r (fun _ => []) with
                | (f', Ok _, _) => let (t', a) := coll_set r t in (f' :: t', a)
                | (f', Err e, _) => (f' :: t, Err e)
                end
    end.
  (** collection.py:107-121 *)
  Fixpoint coll_results (fs : list future) : res (list V) :=
    match fs with
    | [] => Ok []
    | f :: t => match result f with
                | Ok v => match coll_results t with Ok vs => Ok (v :: vs) | Err e => Err e end
                | Err e => Err e
                end
    end.
  Definition coll_result (fs : list future) : res (list V) :=
    match coll_results fs with Err TimeoutExn => Err WouldWaitMore | r => r end.
  (** collection.py:123-143 *)
  Fixpoint coll_exceptions (fs : list future) : res (option exn) :=
    match fs with
    | [] => Ok None
    | f :: t => match exception f with
                | Ok None => coll_exceptions t
                | r => r
                end
    end.
  Definition coll_exception (fs : list future) : res (option exn) :=
    match coll_exceptions fs with Err TimeoutExn => Err WouldWaitMore | r => r end.
  (** collection.py:145-154 *)
  Fixpoint coll_cancel (all_cancelled : bool) (fs : list future) : list future * bool :=
    match fs with
    | [] => ([], all_cancelled)
    | f :: t => if all_cancelled
                then match cancel f with (f', b, _) => let (t', r) := coll_cancel b t in (f' :: t', r) end
                else let (t', r) := coll_cancel false t in (f :: t', r)
    end.
  (** collection.py:41-55 *)
  Definition coll_add_done (fs : list future) (k : kind) (c : nat) (only_one : bool) : res (list future) :=
    if only_one then match fs with [] => Err IndexError | f :: t => Ok (fst (add_done_callback f k c) :: t) end
    else Ok (map (fun f => fst (add_done_callback f k c)) fs).
End Future.
Arguments AResult {V}.
Arguments ACancel {V}.
Arguments ARaise {V}.
Arguments ASetException {V} e.
Arguments EPre {V} c.
Arguments FAddDone {V} k c.
Arguments FCancel {V}.
Arguments FSetRunning {V}.
Arguments FResult {V}.
Arguments FException {V}.
Arguments FSourceCancel {V}.
Arguments ADone {V}.
Arguments AUnit {V} r.
Arguments ABool {V} r.
Arguments AExn {V} r.
