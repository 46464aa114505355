(** What a caller expects of a process that prints [output] and exits. *)
From Verif Require Import Prelude Procs_Model.
Set Implicit Arguments.

Section Spec.
  Variables byte char : Type.
  (** everything that was printed, decoded as a whole if an encoding was given *)
  Definition whole (encoding : option (list byte -> res (list char))) (output : list byte) : res (answer byte char) :=
    match encoding with
    | None => Ok (Bytes output)
    | Some dec => match dec output with Ok s => Ok (Chars s) | Err e => Err e end
    end.
  Definition expected_outcome encoding (expected : option Z) (output : list byte) (c : Z) : outcome byte char :=
    match whole encoding output with
    | Err e => Raised e
    | Ok a => match expected with None => Returned a | Some x => if Z.eqb c x then Returned a else Failed c a end
    end.
  (** an encoding that can be applied to parts of a text, and gives the parts *)
  Definition splits (dec : list byte -> res (list char)) : Prop :=
    dec [] = Ok [] /\
    forall a b, dec (a ++ b) = match dec a with
                               | Ok x => match dec b with Ok y => Ok (x ++ y) | Err e => Err e end
                               | Err e => Err e
                               end.
  (** if the process exits in this schedule, it is with code [c] *)
  Definition exits_with (c : Z) (ms : list move) : Prop := forall c', In (Exit c') ms -> c' = c.
End Spec.
