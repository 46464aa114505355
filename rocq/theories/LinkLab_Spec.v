(** C41, link failures handled with labels *)
From Verif Require Import Prelude Metrics_Model Metrics_Spec.
From Coq Require Import ZArith.
Set Implicit Arguments.
Open Scope Z_scope.
Section S.
  Variable Lab : Type.
  Variable leqb : Lab -> Lab -> bool.
  (** what was observed with the labels [l], newest first *)
  Fixpoint outcomes_with (l : Lab) (newest_first : list (bool * Lab)) : list bool :=
    match newest_first with
    | [] => []
    | (b, l') :: older => if leqb l' l then b :: outcomes_with l older else outcomes_with l older
    end.
  (** the calls of the callbacks, oldest first: one for every change of the state of a set of labels; the address they are told is 0 *)
  Fixpoint label_transitions (to_offline to_online : Z) (newest_first : list (bool * Lab)) : list (callback Lab) :=
    match newest_first with
    | [] => []
    | (b, l) :: older =>
      let before := online to_offline to_online (outcomes_with l older) in
      let after := online to_offline to_online (outcomes_with l newest_first) in
      label_transitions to_offline to_online older ++ (if Bool.eqb before after then [] else [(after, 0, l)])
    end.
  (** an observation with the labels it counts for: those given, and the address among them *)
  Definition counted_for (with_address : Lab -> Z -> Lab) (empty : Lab) (o : (bool * Z) * option Lab) : bool * Lab :=
    (fst (fst o), with_address (match snd o with Some l => l | None => empty end) (snd (fst o))).
End S.
