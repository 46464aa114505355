(** C72: what a stack of contexts shows. *)
From Coq Require Import String.
From Verif Require Import Prelude Context_Model.
Set Implicit Arguments.

Section Spec.
  Variable V : Type.
  Notation state := (state V).

  (** context [a] is [c], its parent, the parent of its parent... *)
  Inductive above (s : state) : nat -> nat -> Prop :=
  | above_self : forall c k, nth_error (cards s) c = Some k -> above s c c
  | above_up : forall c k p a, nth_error (cards s) c = Some k -> parent k = Some p -> above s p a -> above s c a.

  (** the nearest of these that mentions the name has this value for it *)
  Inductive visible (s : state) : nat -> string -> V -> Prop :=
  | visible_here : forall c k n v, nth_error (cards s) c = Some k -> dget String.eqb (variables k) n = Some (Some v) -> visible s c n v
  | visible_up : forall c k p n v, nth_error (cards s) c = Some k -> dget String.eqb (variables k) n = None -> parent k = Some p ->
      visible s p n v -> visible s c n v.

  Definition reachable (s : state) : Prop := exists ops, s = fst (run (begin V) ops).
  Definition exists_ (s : state) (c : nat) : Prop := c < length (cards s).

  (** an operation that is not thread [t]'s asking for, entering or leaving a context *)
  Definition foreign (t : nat) (o : op V) : Prop :=
    match o with Get _ u | Enter _ u _ | Exit _ u _ => u <> t | _ => True end.
End Spec.
