(* C70: what choosing an overload should do. *)
From Coq Require Import List Bool Arith ZArith String.
From Verif Require Import Prelude Args_Model Args_Spec Overload_Model.
Import ListNotations.
Set Implicit Arguments.

Section Spec.
  Variable ty : Type.
  Variable inst : val -> ty -> bool.

  (* A call f( *args, **kw) suits a function: Python accepts it and every
     annotated parameter gets an instance of its annotation. *)
  Definition suits (o : tsig ty) (args : list val) (kw : vars) : Prop :=
    python_accepts (t_sig o) args kw /\
    forall i p t v, nth_error (t_sig o) i = Some p -> t_ann o (p_name p) = Some t ->
      value_of (t_sig o) args kw i p = Some v -> inst v t = true.

  (* a is more specific than b: whatever suits a suits b, but not conversely. *)
  Definition more_specific (a b : tsig ty) : Prop :=
    (forall args kw, suits a args kw -> suits b args kw) /\
    exists args kw, suits b args kw /\ ~ suits a args kw.

  Definition annotated (o : tsig ty) : Prop :=
    forall p, In p (t_sig o) -> t_ann o (p_name p) <> None.

  (* (o, f) is the first element of t that suits the call *)
  Definition first_suiting (t : list (tsig ty * nat)) (args : list val) (kw : vars)
      (o : tsig ty) (f : nat) : Prop :=
    exists l r, t = l ++ (o, f) :: r /\ suits o args kw /\
      forall e, In e l -> ~ suits (fst e) args kw.
End Spec.
