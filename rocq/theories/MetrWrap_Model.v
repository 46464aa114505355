(** Metrics that hold the last value (satella/instrumentation/metrics/metric_types/simple.py), callable and uptime metrics
    (metric_types/callable.py, uptime.py), metrics that pass on what they get (metrics/labeled.py, aggregate.py), and
    Multirun (satella/coding/sequences/sequences.py:237-352; lines as Python counts them).

    A set of labels is an element of [Lab]; timestamps and the internal flag are not modelled. *)
From Verif Require Import Prelude.
Set Implicit Arguments.

Section Simple.
  Variables Lab Raw V : Type.
  Variable leqb : Lab -> Lab -> bool.
  Variable constructor : Raw -> res V.        (* CONSTRUCTOR: str, int or float *)
  Variable default : V.                       (* DEFAULT_VALUE *)
  Record simple := { s_data : V; s_enabled : bool; s_kids : dict Lab V }.
  (** metric_types/simple.py:16-18 *)
  Definition simple_new : simple := {| s_data := default; s_enabled := false; s_kids := [] |}.
  (** metric_types/simple.py:20-23, with metric_types/base.py:199-217: a child is made before its _handle is called; an
      exception leaves it there *)
  Definition simple_handle (s : simple) (o : Raw * option Lab) : simple * res unit :=
    let (value, labels) := o in
    match labels with
    | None => if s_enabled s then (s, Ok tt)
              else match constructor value with
                   | Ok v => ({| s_data := v; s_enabled := false; s_kids := s_kids s |}, Ok tt)
                   | Err e => (s, Err e)
                   end
    | Some l =>
      let kid := match dget leqb (s_kids s) l with Some d => d | None => default end in
      match constructor value with
      | Ok v => ({| s_data := s_data s; s_enabled := true; s_kids := dset leqb (s_kids s) l v |}, Ok tt)
      | Err e => ({| s_data := s_data s; s_enabled := true; s_kids := dset leqb (s_kids s) l kid |}, Err e)
      end
    end.
  (** the calls so far; an exception does not end the program *)
  Definition simple_run (h : list (Raw * option Lab)) : simple := fold_left (fun s o => fst (simple_handle s o)) h simple_new.
  (** metric_types/simple.py:25-30, with metric_types/base.py:219-225; [own] are the labels of the metric itself *)
  Definition simple_export (own : Lab) (s : simple) : list (Lab * V) := if s_enabled s then s_kids s else [(own, s_data s)].
End Simple.

Section Callable.
  Variables K W V : Type.
  Variable keqb : K -> K -> bool.
  Variable weqb : W -> W -> bool.
  (** the same labels, whatever the order *)
  Definition same_labels (a b : dict K W) : bool :=
    let sub a b := forallb (fun e => match dget keqb b (fst e) with Some w => weqb w (snd e) | None => false end) a in
    sub a b && sub b a.
  (** labels.update(other) *)
  Definition update (a b : dict K W) : dict K W := fold_left (fun d e => dset keqb d (fst e) (snd e)) b a.
  (** mdc += MetricData(...), data.py:166-170: it replaces what has the same labels *)
  Definition add_datum (c : list (dict K W * V)) (l : dict K W) (v : V) : list (dict K W * V) :=
    filter (fun e => negb (same_labels (fst e) l)) c ++ [(l, v)].
  (** metric_types/callable.py:37-48; [labelled] are the LabeledMetrics registered, with what their callables give now *)
  Definition callable_export (own : dict K W) (labelled : list (dict K W * V)) (value : option V) : list (dict K W * V) :=
    let mdc := fold_left (fun c e => add_datum c (update own (fst e)) (snd e)) labelled [] in
    match value with Some v => add_datum mdc own v | None => mdc end.
End Callable.

(** metric_types/uptime.py:22-36: what is exported at a reading of the clock *)
Definition uptime_export (basic_time now : Z) : Z := (now - basic_time)%Z.

Section Wrap.
  Variables K W A S : Type.
  Variable keqb : K -> K -> bool.
  (** metrics: proper ones by number, and the two wrappers. *)
  Inductive metric := Proper (i : nat) | Labeled (m : metric) (labels : dict K W) | Aggregate (ms : list metric).
  Variable proper : S -> nat -> A -> dict K W -> S * option exn.      (* handle() of a proper metric: arguments, labels *)
  (** metrics/labeled.py:36-38; metrics/aggregate.py:30-31, with Multirun.__getattr__ (sequences.py:292-311): the first
      exception ends it *)
  Fixpoint handle (m : metric) (s : S) (args : A) (kwargs : dict K W) {struct m} : S * option exn :=
    match m with
    | Proper i => proper s i args kwargs
    | Labeled m labels => handle m s args (update keqb kwargs labels)
    | Aggregate ms => (fix each (ms : list metric) (s : S) : S * option exn :=
                         match ms with
                         | [] => (s, None)
                         | m :: t => match handle m s args kwargs with
                                     | (s', None) => each t s'
                                     | (s', Some e) => (s', Some e)
                                     end
                         end) ms s
    end.
End Wrap.

Section Multirun.
  Variable S : Type.                                    (* objects, by number *)
  Variable op : nat -> S -> S * option exn.             (* the method, or the operator, on an object *)
  Variable has : nat -> bool.                           (* the object has that attribute *)
  (** what a Multirun is made of: something that can be gone through again, or an iterator with these elements left *)
  Inductive source := Again (l : list nat) | Once (l : list nat).
  (** sequences.py:297-304 and 313-352: for element in self *)
  Fixpoint each (l : list nat) (s : S) (results : list nat) : S * res (list nat) :=
    match l with
    | [] => (s, Ok results)
    | x :: t => if negb (has x) then (s, Err AttributeError) else
                match op x s with
                | (s', None) => each t s' (results ++ [x])
                | (s', Some e) => (s', Err e)
                end
    end.
  (** sequences.py:292-311, called: first n_th(self) is taken, to copy its name; the iterator has lost it *)
  Definition multirun_call (src : source) (s : S) : S * res (list nat) :=
    match src with
    | Again l => match l with x :: _ => if has x then each l s [] else (s, Err AttributeError) | [] => each l s [] end
    | Once l => match l with x :: t => if has x then each t s [] else (s, Err AttributeError) | [] => each l s [] end
    end.
  (** sequences.py:313-352: an operator *)
  Definition multirun_operator (src : source) (s : S) : S * res (list nat) :=
    match src with Again l => each l s [] | Once l => each l s [] end.
End Multirun.
