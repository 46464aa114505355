(** Model of satella/instrumentation/metrics/metric_types/measurable_mixin.py: MeasurableMixin.measure() as a decorator of functions and of
    generators, as a context manager, and measure_future().

    Time (or whatever value_getter measures) is carried by the events. Everything happens in one system: calls of decorated functions, which may be
    recursive or in many threads, uses of context managers, and futures; events of different ones interleave freely. handle() of the metric is
    assumed not to raise, and value_getter neither. *)
From Coq Require Import ZArith.
From Verif Require Import Prelude.
Set Implicit Arguments.

(** How something ends: it returns, raises an Exception, or raises something else (SystemExit, GeneratorExit when a generator is closed, ...) *)
Inductive ending (V : Type) : Type := Returned (v : V) | Failed (e : exn) | Aborted (e : exn).
Arguments Failed {V} e.
Arguments Aborted {V} e.

Section Measure.
  Variable V : Type.
  Variable none : V.                          (* None *)
  Variable include_exceptions : bool.

  (** inner_normal (measurable_mixin.py:80-96), from the end of the function on: what the metric gets and what the caller sees *)
  Definition inner_normal (start : Z) (o : ending V) (now : Z) : option Z * ending V :=
    match o with
    | Returned v => (Some (now - start)%Z, Returned v)
    | Failed e => if include_exceptions then (Some (now - start)%Z, Failed e) else (None, Failed e)
    | Aborted e => (Some (now - start)%Z, Aborted e)                            (* excepted is None in the finally block *)
    end.
  (** inner_generator (measurable_mixin.py:98-114), from the end of the generator on; the value of yield from is not returned *)
  Definition inner_generator (start : Z) (o : ending V) (now : Z) : option Z * ending V :=
    match o with
    | Returned _ => (Some (now - start)%Z, Returned none)
    | Failed e => if include_exceptions then (Some (now - start)%Z, Failed e) else (None, Failed e)
    | Aborted e => (Some (now - start)%Z, Aborted e)
    end.

  Inductive call_state : Type := Not_yet | Begun (start : Z) | Over.
  (** A Future: its attribute old_value, the done callbacks (metrics) in order, and whether it is done *)
  Record fut : Type := mk_fut { old_value : Z; callbacks : list nat; fut_done : bool }.
  (** Who caused a call of handle(): a call, a with block, or a future *)
  Inductive source : Type := By_call (a : nat) | By_with (obj : nat) | By_future (f metric : nat).
  Record state : Type := mk_state {
    calls : nat -> call_state;
    values : nat -> Z;                        (* self.value of each context manager *)
    futs : nat -> fut;
    handled : list (source * Z);              (* calls of handle() *)
    seen : list (nat * ending V)              (* what the callers got *)
  }.
  (** measurable_mixin.py:70-77: nothing measured yet *)
  Definition new_state : state := mk_state (fun _ => Not_yet) (fun _ => 0%Z) (fun _ => mk_fut 0%Z [] false) [] [].

  Inductive event : Type :=
  | Begin (a : nat) (now : Z)                               (* a call of a decorated function; the first next() of a decorated generator *)
  | End (a : nat) (o : ending V) (now : Z)
  | Enter (obj : nat) (now : Z)
  | Exit (obj : nat) (raised : bool) (now : Z)
  | Measure (f metric : nat) (now later : Z)                (* later: the clock if the callback is run at once *)
  | Complete (f : nat) (nows : nat -> Z).                   (* a clock reading for every callback *)

  Definition set {X} (f : nat -> X) (k : nat) (x : X) : nat -> X := fun j => if j =? k then x else f j.
  Variable is_generator : nat -> bool.
  (** __call__ (measurable_mixin.py:79-119) *)
  Definition end_call (s : state) (a : nat) (o : ending V) (now : Z) : state :=
    match calls s a with
    | Begun t =>
        let (h, r) := if is_generator a then inner_generator t o now else inner_normal t o now in
        mk_state (set (calls s) a Over) (values s) (futs s)
                 (match h with Some d => handled s ++ [(By_call a, d)] | None => handled s end) (seen s ++ [(a, r)])
    | _ => s
    end.
  (** the start_value of a call (measurable_mixin.py:82, 100) *)
  Definition begin_call (s : state) (a : nat) (now : Z) : state :=
    match calls s a with
    | Not_yet => mk_state (set (calls s) a (Begun now)) (values s) (futs s) (handled s) (seen s)
    | _ => s
    end.
  (** __enter__ (measurable_mixin.py:121-123) *)
  Definition enter (s : state) (obj : nat) (now : Z) : state :=
    mk_state (calls s) (set (values s) obj now) (futs s) (handled s) (seen s).
  (** __exit__ (measurable_mixin.py:125-132) *)
  Definition exit (s : state) (obj : nat) (raised : bool) (now : Z) : state :=
    if (negb include_exceptions && raised)%bool then s
    else mk_state (calls s) (values s) (futs s) (handled s ++ [(By_with obj, now - values s obj)%Z]) (seen s).
  (** measure_future (measurable_mixin.py:31-36); add_done_callback of a future that is done runs the callback at once *)
  Definition measure_future (s : state) (f metric : nat) (now later : Z) : state :=
    let x := futs s f in
    if fut_done x then
      mk_state (calls s) (values s) (set (futs s) f (mk_fut now (callbacks x) true)) (handled s ++ [(By_future f metric, later - now)%Z]) (seen s)
    else mk_state (calls s) (values s) (set (futs s) f (mk_fut now (callbacks x ++ [metric]) false)) (handled s) (seen s).
  (** the completion of a future: its callbacks in order, on_future_done (measurable_mixin.py:33-34) *)
  Definition complete (s : state) (f : nat) (nows : nat -> Z) : state :=
    let x := futs s f in
    if fut_done x then s
    else mk_state (calls s) (values s) (set (futs s) f (mk_fut (old_value x) (callbacks x) true))
                  (handled s ++ map (fun m => (By_future f m, nows m - old_value x)%Z) (callbacks x)) (seen s).
  Definition step (s : state) (e : event) : state :=
    match e with
    | Begin a now => begin_call s a now
    | End a o now => end_call s a o now
    | Enter obj now => enter s obj now
    | Exit obj raised now => exit s obj raised now
    | Measure f m now later => measure_future s f m now later
    | Complete f nows => complete s f nows
    end.
  Definition exec (l : list event) : state := fold_left step l new_state.
End Measure.
Arguments Begin {V} a now.
Arguments Enter {V} obj now.
Arguments Exit {V} obj raised now.
Arguments Measure {V} f metric now later.
Arguments Complete {V} f nows.
