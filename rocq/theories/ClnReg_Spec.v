(** What is expected of the thread that cleans up dictionaries. *)
From Verif Require Import Prelude ClnReg_Model.
Set Implicit Arguments.

(** the monitor of this dictionary comes after the one that is held, if any *)
Definition after (held : option nat) (d : nat) : Prop := match held with Some h => h < d | None => True end.
(** with blocks are nested in the order of the numbers, in particular nothing is done with a dictionary inside of its own block, and no
    dictionary is made inside of a block *)
Fixpoint in_order (held : option nat) (a : act) : Prop :=
  match a with
  | Make _ => held = None
  | Use d | Len d => after held d
  | With d body => after held d /\ fold_right (fun b p => in_order (Some d) b /\ p) True body
  | Drop _ => True
  end.
Definition orderly (c : call) : Prop := match c with User a => in_order None a | Background _ => True end.
