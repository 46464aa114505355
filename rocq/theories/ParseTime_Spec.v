(** What parse_time_string promises: a number and a unit. *)
From Verif Require Import Prelude ParseTime_Model.
Set Implicit Arguments.
Local Open Scope string_scope.

Fixpoint has (c : ascii) (s : string) : bool := match s with EmptyString => false | String d t => Ascii.eqb d c || has c t end.

(** Seconds in the unit that a letter stands for. *)
Definition seconds_in (c : ascii) : option Z :=
  match c with
  | "s" => Some 1 | "m" => Some 60 | "h" => Some 3600 | "d" => Some 86400 | "w" => Some 604800 | _ => None
  end%char%Z.
(** Written without letters that stand for units. *)
Definition plain (s : string) : Prop := forall c, has c s = true -> seconds_in c = None.

(** The words for the units, as they are spelled in the documentation. *)
Definition documented_units : list (string * Z) :=
  [("s", 1); ("m", 60); ("min", 60); ("h", 3600); ("d", 86400); ("w", 604800);
   ("seconds", 1); ("minutes", 60); ("hours", 3600); ("days", 86400); ("weeks", 604800)]%Z.
(** Those without an s after another letter, and the singulars. *)
Definition understood_units : list (string * Z) :=
  [("s", 1); ("sec", 1); ("second", 1); ("seconds", 1); ("m", 60); ("min", 60); ("minute", 60); ("h", 3600); ("hour", 3600);
   ("d", 86400); ("day", 86400); ("w", 604800); ("week", 604800)]%Z.

(** A word whose first letter is a unit, without letters of smaller units. *)
Definition unit_word (u : string) (seconds : Z) : Prop :=
  exists c rest, u = String c rest /\ seconds_in c = Some seconds /\
    forall c' n, has c' rest = true -> seconds_in c' = Some n -> (seconds <= n)%Z.
