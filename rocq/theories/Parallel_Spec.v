(** C83: what parallel executions and thread collections are to do. *)
From Verif Require Import Prelude Parallel_Model.
Set Implicit Arguments.

Section Spec.
  Variable U : Type.
  (** one after another: the values that are not None, or the first exception *)
  Fixpoint one_by_one (outs : list (outcome (option U))) : res (list U) :=
    match outs with
    | [] => Ok []
    | Value None :: t => one_by_one t
    | Value (Some v) :: t => res_map (cons v) (one_by_one t)
    | Raised e :: _ | RaisedBase e :: _ => Err e
    end.
  (** the value or the exception of each call, in order, up to one that is not an Exception *)
  Fixpoint in_order (outs : list (outcome U)) : list (yielded U) * res unit :=
    match outs with
    | [] => ([], Ok tt)
    | Value v :: t => let '(l, r) := in_order t in (Gave v :: l, r)
    | Raised e :: t => let '(l, r) := in_order t in (GaveException U e :: l, r)
    | RaisedBase e :: _ => ([], Err e)
    end.
  Definition prefix (A : Type) (l m : list A) : Prop := exists r, m = l ++ r.
  (** how often the consumer was let go *)
  Fixpoint goes (l : list pevent) : nat := match l with [] => 0 | Go :: t => S (goes t) | Done _ :: t => goes t end.
  (** everything was done, and after that the consumer was let go often enough *)
  Definition served (n : nat) (l : list pevent) : Prop := exists a b, l = a ++ b /\ (forall i, i < n -> In (Done i) a) /\ n < goes b.
End Spec.
