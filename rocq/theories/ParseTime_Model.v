(** Model of parse_time_string (satella/time/parse.py). *)
From Coq Require Export String Ascii QArith.
From Verif Require Import Prelude.
Set Implicit Arguments.
Local Open Scope string_scope.

(** parse.py:3-9 *)
Definition TIME_MODIFIERS : list (ascii * Z) :=
  [("s"%char, 1%Z); ("m"%char, 60%Z); ("h"%char, (60 * 60)%Z); ("d"%char, (24 * 60 * 60)%Z); ("w"%char, (7 * 24 * 60 * 60)%Z)].

(** s[:s.index(modifier)], if it is in s *)
Fixpoint before (modifier : ascii) (s : string) : option string :=
  match s with
  | EmptyString => None
  | String c t => if Ascii.eqb c modifier then Some EmptyString else option_map (String c) (before modifier t)
  end.

Section Parse.
  (** float() of a string *)
  Variable to_float : string -> res Q.
  (** parse.py:32-36 *)
  Fixpoint modifiers_loop (l : list (ascii * Z)) (s : string) : res Q :=
    match l with
    | [] => to_float s
    | (modifier, multiple) :: t =>
      match before modifier s with
      | Some number => match to_float number with Ok q => Ok (q * inject_Z multiple)%Q | Err e => Err e end
      | None => modifiers_loop t s
      end
    end.
  (** parse.py:12-36: a number (int or float) or a string *)
  Definition parse_time_string (s : Q + string) : res Q :=
    match s with
    | inl q => Ok q
    | inr s => modifiers_loop TIME_MODIFIERS s
    end.
End Parse.

(** A float() of whole numbers only, for the examples: digits, spaces around them. *)
Fixpoint digits (s : string) (acc : Z) (some : bool) : option Z :=
  match s with
  | EmptyString => if some then Some acc else None
  | String c t =>
    let n := nat_of_ascii c in
    if (n =? 32)%nat then (if some then (fix spaces s := match s with EmptyString => Some acc | String " " t => spaces t | _ => None end) t
                           else digits t acc some)
    else if ((48 <=? n) && (n <=? 57))%nat then digits t (acc * 10 + Z.of_nat (n - 48))%Z true else None
  end.
Definition whole_float (s : string) : res Q := match digits s 0 false with Some z => Ok (inject_Z z) | None => Err ValueError end.
