From Coq Require Import String.
From Verif Require Import Prelude Tracing_Model.
Set Implicit Arguments.
Open Scope list_scope.

Section Spec.
  Variables A V R : Type.
  (** the tags of a call: for each name, what the last factory of that name makes of the arguments, else the tag given *)
  Definition tag_of (fs : list (string * factory A V)) (given : list (string * V)) (args : A) (name : string) : option V :=
    match find (fun p => String.eqb (fst p) name) (rev fs) with
    | Some (_, f) => match spread f args with Ok v => Some v | Err _ => None end
    | None => dget String.eqb given name
    end.
  (** a call traced with tags [t] *)
  Definition traced (t : option (list (string * V))) (args : A) (r : res R) (c : list (event A V) * res R) : Prop :=
    c = ([Start A t; Run V args; Finish A V], r).
End Spec.
