From Verif Require Import Prelude MetrWrap_Model.
Set Implicit Arguments.

Section Simple.
  Variables Lab Raw V : Type.
  Variable constructor : Raw -> res V.
  (** [v] is the last value that could be converted among those with the labels [l] ([None]: without), [default] if none *)
  Inductive last_value (default : V) (l : option Lab) : list (Raw * option Lab) -> V -> Prop :=
  | lv_none : last_value default l [] default
  | lv_here h r v : constructor r = Ok v -> last_value default l (h ++ [(r, l)]) v
  | lv_bad h r e v : constructor r = Err e -> last_value default l h v -> last_value default l (h ++ [(r, l)]) v
  | lv_other h r l' v : l' <> l -> last_value default l h v -> last_value default l (h ++ [(r, l')]) v.
End Simple.

Section Wrap.
  Variables K W A S : Type.
  Variable keqb : K -> K -> bool.
  (** the proper metrics that a metric stands for, in order, each with the wrappers' labels, innermost first *)
  Fixpoint targets (m : metric K W) (outer : list (dict K W)) : list (nat * list (dict K W)) :=
    match m with
    | Proper _ _ i => [(i, outer)]
    | Labeled m labels => targets m (labels :: outer)
    | Aggregate ms => flat_map (fun m => targets m outer) ms
    end.
  (** labels are dictionaries: no name twice *)
  Fixpoint proper_labels (m : metric K W) : Prop :=
    match m with
    | Proper _ _ _ => True
    | Labeled m l => NoDup (dkeys l) /\ proper_labels m
    | Aggregate ms => (fix go ms := match ms with [] => True | m :: t => proper_labels m /\ go t end) ms
    end.
  (** the label [k] of such a call *)
  Fixpoint label_of (sets : list (dict K W)) (kwargs : dict K W) (k : K) : option W :=
    match sets with
    | [] => dget keqb kwargs k
    | d :: t => match dget keqb d k with Some w => Some w | None => label_of t kwargs k end
    end.
  (** calls one after another, until the first exception *)
  Inductive in_turn (proper : S -> nat -> A -> dict K W -> S * option exn) (args : A) (kwargs : dict K W)
    : list (nat * list (dict K W)) -> S -> S * option exn -> Prop :=
  | it_nil s : in_turn proper args kwargs [] s (s, None)
  | it_fail i sets t s labels s' e :
      (forall k, dget keqb labels k = label_of sets kwargs k) -> proper s i args labels = (s', Some e) ->
      in_turn proper args kwargs ((i, sets) :: t) s (s', Some e)
  | it_next i sets t s labels s' r :
      (forall k, dget keqb labels k = label_of sets kwargs k) -> proper s i args labels = (s', None) ->
      in_turn proper args kwargs t s' r -> in_turn proper args kwargs ((i, sets) :: t) s r.
End Wrap.

(** a for loop over the elements *)
Inductive loop (S : Type) (op : nat -> S -> S * option exn) : list nat -> S -> S -> option exn -> Prop :=
| loop_nil s : loop op [] s s None
| loop_fail x t s s' e : op x s = (s', Some e) -> loop op (x :: t) s s' (Some e)
| loop_next x t s s' s'' r : op x s = (s', None) -> loop op t s' s'' r -> loop op (x :: t) s s'' r.
Definition elements (src : source) : list nat := match src with Again l => l | Once l => l end.
