(** What the exception translators promise. *)
From Verif Require Import Prelude Recast_Model.
Set Implicit Arguments.

Section RecastSpec.
  Variables E C V : Type.
  Variable isa : E -> C -> bool.
  Definition listed (l : list C) (e : E) : Prop := exists c, In c l /\ isa e c = true.

  (** reraise_as, silence_excs: a listed exception is replaced, all else stays *)
  Definition replaced (l : list C) (instead : outcome E V) (before after : outcome E V) : Prop :=
    match before with
    | Value v => after = Value v
    | Raised e => (listed l e -> after = instead) /\ (~ listed l e -> after = Raised e)
    end.
  (** rethrow_as: by the first pair that lists it *)
  Inductive first_pair (pairs : list (list C * option (E -> E))) (silenced : outcome E V) : outcome E V -> outcome E V -> Prop :=
  | FP_value v : first_pair pairs silenced (Value v) (Value v)
  | FP_other e : (forall l to, In (l, to) pairs -> ~ listed l e) -> first_pair pairs silenced (Raised e) (Raised e)
  | FP_first e before l to after : pairs = before ++ (l, to) :: after -> (forall l' to', In (l', to') before -> ~ listed l' e) -> listed l e ->
      first_pair pairs silenced (Raised e) (match to with None => silenced | Some build => Raised (build e) end).

  (** how a body ends if each call of the decorated function does what it should *)
  Inductive ends (pairs : list (list C * option (E -> E))) (silenced : outcome E V) : body E V -> outcome E V -> Prop :=
  | En_end o : ends pairs silenced (End o) o
  | En_call inner go_on o o' r : ends pairs silenced inner o -> first_pair pairs silenced o o' -> ends pairs silenced (go_on o') r ->
      ends pairs silenced (CallSelf inner go_on) r.
  (** no call that the body makes to the decorated function meets a listed exception *)
  Inductive undisturbed (pairs : list (list C * option (E -> E))) (silenced : outcome E V) : body E V -> Prop :=
  | U_end o : undisturbed pairs silenced (End o)
  | U_call inner go_on o : ends pairs silenced inner o -> undisturbed pairs silenced inner ->
      (forall e, o = Raised e -> forall l to, In (l, to) pairs -> ~ listed l e) ->
      undisturbed pairs silenced (go_on o) -> undisturbed pairs silenced (CallSelf inner go_on).
  (** what a silenced call returns *)
  Definition silenced_value (returns : option V) (factory : option (outcome E V)) : outcome E V :=
    match returns with
    | Some r => Value (Some r)
    | None => match factory with Some o => o | None => Value None end
    end.
End RecastSpec.
