(** What import_from makes of a package. *)
From Coq Require Import String.
From Verif Require Import Prelude Imports_Model.
Set Implicit Arguments.
Local Open Scope string_scope.
Open Scope list_scope.

(** The values exported, in order, came into the scope: the last one of a name counts; the names new to [all_] came
    after those that were there, once each. *)
Definition merged (s : scope) (exported : list (string * value)) (s' : scope) : Prop :=
  (forall x, dget String.eqb (fst s') x =
             match dget String.eqb (rev exported) x with Some v => Some v | None => dget String.eqb (fst s) x end) /\
  (exists new, snd s' = snd s ++ new /\ NoDup new /\ forall x, In x new <-> In x (map fst exported) /\ ~ In x (snd s)).

Section Spec.
  Variables recursive create_all skip_single_underscores skip_not_having_all : bool.
  (** it starts with an underscore, and such names are skipped; or not *)
  Definition public (x : string) : bool := negb (String.prefix "_" x && skip_single_underscores).
  (** the packages that are gone into *)
  Definition taken (n : string) (a : option (list string)) : bool :=
    recursive && public n && negb (match a with None => skip_not_having_all | Some _ => false end).
  (** what names a module offers *)
  Definition names (a : option (list string)) (d : attrs) : list string := match a with Some l => l | None => map fst d end.
  (** what a member of the package at [path] gives it *)
  Definition exports (path : list string) (c : string * tree) : list (string * value) :=
    match c with
    | (n, Mod a d) => flat_map (fun x => match dget String.eqb d x with Some v => [(x, v)] | None => [] end) (filter public (names a d))
    | (n, Pkg a _ _) => if taken n a then [(n, ModuleObj (path ++ [n]))] else []
    end.
  (** as documented: private modules give nothing, either *)
  Definition documented (path : list string) (c : string * tree) : list (string * value) :=
    if public (fst c) then exports path c else [].
  (** a name in __all__ that is not there *)
  Inductive lacks : string -> tree -> Prop :=
  | lacks_name n a d x : In x (names a d) -> public x = true -> dget String.eqb d x = None -> lacks n (Mod a d)
  | lacks_inside n a d inside n' m : taken n a = true -> In (n', m) inside -> lacks n' m -> lacks n (Pkg a d inside).
  (** the packages inside were equipped likewise, with an __all__, too *)
  Inductive equipped (path : list string) : string * tree -> string * tree -> Prop :=
  | eq_module n a d : equipped path (n, Mod a d) (n, Mod a d)
  | eq_not_taken n a d inside : taken n a = false -> equipped path (n, Pkg a d inside) (n, Pkg a d inside)
  | eq_taken n a d inside d' all' inside' :
      taken n a = true ->
      Forall2 (equipped (path ++ [n])) inside inside' ->
      merged (d, match a with Some l => l | None => [] end) (flat_map (exports (path ++ [n])) inside) (d', all') ->
      equipped path (n, Pkg a d inside) (n, Pkg (match a with None => if create_all then Some all' else None | Some _ => Some all' end) d' inside').
End Spec.
