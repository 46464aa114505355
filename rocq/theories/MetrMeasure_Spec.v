(** C86: what is to be measured, for one call, one context manager and one future, from the events that concern it alone. *)
From Coq Require Import ZArith.
From Verif Require Import Prelude MetrMeasure_Model.
Set Implicit Arguments.

Section Spec.
  Variable V : Type.
  Notation event := (event V).
  (** The events of one call, of one context manager, of one future *)
  Definition of_call (a : nat) (e : event) : bool := match e with Begin b _ | End b _ _ => b =? a | _ => false end.
  Definition of_with (x : nat) (e : event) : bool := match e with Enter y _ | Exit y _ _ => y =? x | _ => false end.
  Definition of_future (f : nat) (e : event) : bool := match e with Measure g _ _ _ | Complete g _ => g =? f | _ => false end.

  Definition raised (o : ending V) : bool := match o with Returned _ => false | _ => true end.
  Definition an_exception (o : ending V) : bool := match o with Failed _ => true | _ => false end.

  Variable include_exceptions : bool.
  (** What the metric is to get for a call that began at t0 and ended at t1: the difference, unless it raised and exceptions are not included *)
  Inductive call_measured : list event -> list Z -> Prop :=
  | never : call_measured [] []
  | under_way : forall a t0, call_measured [Begin a t0] []
  | over : forall a t0 o t1, (raised o && negb include_exceptions)%bool = false -> call_measured [Begin a t0; End a o t1] [(t1 - t0)%Z]
  | over_excluded : forall a t0 o t1, (raised o && negb include_exceptions)%bool = true -> call_measured [Begin a t0; End a o t1] [].
  (** What it is to get for a context manager whose uses follow one another *)
  Inductive with_measured : list event -> list Z -> Prop :=
  | w_none : with_measured [] []
  | w_inside : forall x t0, with_measured [Enter x t0] []
  | w_use : forall x t0 (r : bool) t1 l m, with_measured l m ->
      with_measured (Enter x t0 :: Exit x r t1 :: l) (if (r && negb include_exceptions)%bool then m else (t1 - t0)%Z :: m).
  (** What the metric is to get for a future measured once *)
  Inductive future_measured : list event -> list (nat * Z) -> Prop :=
  | f_none : future_measured [] []
  | f_pending : forall f m t0 later, future_measured [Measure f m t0 later] []
  | f_completed : forall f m t0 later nows, future_measured [Measure f m t0 later; Complete f nows] [(m, nows m - t0)%Z]
  | f_unmeasured : forall f nows, future_measured [Complete f nows] []
  | f_was_done : forall f m t0 later nows, future_measured [Complete f nows; Measure f m t0 later] [(m, later - t0)%Z].

  (** The calls of handle() because of a call, a context manager, a future *)
  Definition for_call (a : nat) (h : list (source * Z)) : list Z := flat_map (fun e => match e with (By_call b, d) => if b =? a then [d] else [] | _ => [] end) h.
  Definition for_with (x : nat) (h : list (source * Z)) : list Z := flat_map (fun e => match e with (By_with y, d) => if y =? x then [d] else [] | _ => [] end) h.
  Definition for_future (f : nat) (h : list (source * Z)) : list (nat * Z) :=
    flat_map (fun e => match e with (By_future g m, d) => if g =? f then [(m, d)] else [] | _ => [] end) h.
  (** What the callers of a decorated function got *)
  Definition seen_by (a : nat) (s : list (nat * ending V)) : list (ending V) := flat_map (fun x => if fst x =? a then [snd x] else []) s.
End Spec.
