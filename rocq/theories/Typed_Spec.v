(** C79: what a typednamedtuple is to be built of. *)
From Verif Require Import Prelude.
Set Implicit Arguments.

Section Spec.
  Variables (N T V : Type).
  Variable isinst : V -> T -> res bool.
  Variable conv : T -> V -> res V.

  (** the value of a field of a type, given a value *)
  Definition coerced (ty : option T) (given v : V) : Prop :=
    match ty with
    | None => v = given
    | Some t => isinst given t = Ok true /\ v = given \/ isinst given t = Ok false /\ conv t given = Ok v
    end.
  (** what was given for the i-th field: the i-th positional argument, or else the keyword argument of its name *)
  Definition given (args : list V) (kwargs : list (N * V)) (i : nat) (n : N) (g : V) : Prop :=
    nth_error args i = Some g \/ length args <= i /\ In (n, g) kwargs.
  (** a keyword is allowed for fields that were not given by position *)
  Definition allowed (fields : list (N * option T)) (args : list V) (n : N) : Prop :=
    exists i t, length args <= i /\ nth_error fields i = Some (n, t).
  (** the tuple: a value for each field and no parameters left *)
  Definition built (fields : list (N * option T)) (args : list V) (kwargs : list (N * V)) (r : list V) : Prop :=
    length r = length fields /\
    (forall i n t v, nth_error fields i = Some (n, t) -> nth_error r i = Some v -> exists g, given args kwargs i n g /\ coerced t g v) /\
    (forall n g, In (n, g) kwargs -> allowed fields args n).
  (** every value given can be converted *)
  Definition convertible (fields : list (N * option T)) (args : list V) (kwargs : list (N * V)) : Prop :=
    forall i n t g, nth_error fields i = Some (n, t) -> given args kwargs i n g -> exists v, coerced t g v.
End Spec.
