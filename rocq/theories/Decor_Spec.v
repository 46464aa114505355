(* C71: what the argument decorators promise. *)
From Coq Require Import List Bool Arith ZArith String.
From Verif Require Import Prelude Args_Model Args_Spec Decor_Model.
Import ListNotations.
Set Implicit Arguments.

Definition some_default (s : sig) : Prop := exists p, In p s /\ p_default p <> None.

(* What is attached to the i-th parameter p by position or by name. *)
Definition attached (A : Type) (byp : list A) (byn : list (string * A)) (i : nat) (p : param)
  : option A :=
  match nth_error byp i with
  | Some o => match p_kind p with PosOnly | PosOrKw => Some o | _ => None end
  | None => match p_kind p with
            | PosOrKw | KwOnly => dget String.eqb byn (p_name p)
            | _ => None
            end
  end.

(* Everything is attached to an ordinary parameter: there are no more positional
   ones than positional parameters, and the named ones are names of parameters
   that can be passed by name and have nothing attached by position. *)
Record attachable (A : Type) (s : sig) (byp : list A) (byn : list (string * A)) : Prop := {
  at_pos : List.length byp <= slots s;
  at_nam : forall n, In n (map fst byn) -> exists i p, nth_error s i = Some p /\ p_name p = n /\
     by_name p /\ nth_error byp i = None
}.

(* The arguments are passed the way things are attached to their parameters:
   those with something attached by position are passed by position, and those
   with something attached by name are not. *)
Record passed_alike (A : Type) (s : sig) (byp : list A) (byn : list (string * A))
    (args : list val) : Prop := {
  pa_pos : List.length byp <= List.length args;
  pa_nam : forall i p, nth_error s i = Some p -> In (p_name p) (map fst byn) ->
     nth_error args i = None \/ p_kind p = KwOnly
}.

(* The operation attached to a parameter applied to its value. *)
Definition processed (callable : val -> option (val -> res val)) (o : option val) (v w : val) : Prop :=
  match o with
  | None => w = v
  | Some f => exists g, callable f = Some g /\ g v = Ok w
  end.

(* w are the local variables b with each parameter processed by the operation
   attached to it *)
Definition all_processed (callable : val -> option (val -> res val)) (s : sig)
    (ops : list val) (kwops : vars) (b w : vars) : Prop :=
  dkeys w = map p_name s /\
  forall i p v, nth_error s i = Some p -> get b (p_name p) = Some v ->
    exists u, get w (p_name p) = Some u /\ processed callable (attached ops kwops i p) v u.

(* The condition holds for v. *)
Definition holds (c : cond) (v : val) : Prop := c v = IsTrue \/ c v = Truthy.

(* never answers 0, None or another false value but False, and raises nothing but
   TypeError *)
Definition strict (c : cond) : Prop :=
  forall v, holds c v \/ c v = IsFalse \/ c v = Raises TypeError.

(* never raises *)
Definition total (c : cond) : Prop := forall v e, c v <> Raises e.

(* the conditions attached to the parameters hold for the local variables b *)
Definition all_hold (s : sig) (conds : list cond) (kwconds : list (string * cond)) (b : vars) : Prop :=
  forall i p v c, nth_error s i = Some p -> get b (p_name p) = Some v ->
    attached conds kwconds i p = Some c -> holds c v.
