(** Executables, and shuffling. *)
From Coq Require Import String Ascii.
From Verif Require Import Prelude OsMisc_Model.
Set Implicit Arguments.
Local Open Scope string_scope.
Open Scope list_scope.

(** a file somebody may execute *)
Definition executable (m : mode) : bool := negb (directory m) && (user_x m || group_x m || other_x m).
Definition ordinary (m : mode) : Prop := directory m = false /\ set_uid m = false /\ set_gid m = false /\ sticky m = false.
(** the parts of PATH: joined with colons they are PATH, and there are no colons in them *)
Fixpoint joined (l : list string) : string :=
  match l with [] => "" | [p] => p | p :: r => p ++ ":" ++ joined r end%string.
Fixpoint has_colon (s : string) : bool := match s with EmptyString => false | String c r => Ascii.eqb c ":" || has_colon r end.

(** the files of this name in the directories, in order *)
Definition executables (listdir : string -> answer (list string)) (stat : string -> answer mode) (name : string) (ds : list string) : list string :=
  flat_map (fun d => match listdir d with
                     | Is files => if existsb (String.eqb name) files
                                   then match stat (path_join d name) with Is m => if executable m then [path_join d name] else [] | _ => [] end
                                   else []
                     | Fails _ => []
                     end) ds.
