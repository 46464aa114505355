(** Importing by name and importing everything from a package (satella/imports.py). *)
From Coq Require Import String Ascii.
From Verif Require Import Prelude.
Set Implicit Arguments.
Local Open Scope string_scope.
Open Scope list_scope.

(** Objects; a module is told by its name below the package in question. *)
Inductive value := Val (n : nat) | ModuleObj (path : list string).
Notation attrs := (list (string * value)).
(** Modules, loaded already: [all_] is __all__, if there is one; [dict_] the attributes, in the order in which dir()
    has them. A package has modules in it, too, in the order of pkgutil.iter_modules. *)
Inductive tree :=
| Mod (all_ : option (list string)) (dict_ : attrs)
| Pkg (all_ : option (list string)) (dict_ : attrs) (inside : list (string * tree)).
Definition all_of (t : tree) : option (list string) := match t with Mod a _ => a | Pkg a _ _ => a end.
Definition dict_of (t : tree) : attrs := match t with Mod _ d => d | Pkg _ d _ => d end.
Definition inside_of (t : tree) : list (string * tree) := match t with Mod _ _ => [] | Pkg _ _ c => c end.

Definition import_error : exn := UserExn 1.     (* ImportError and ModuleNotFoundError *)

(** satella/imports.py:10-22; [import_module] is importlib's, for the path before the last name; it refuses the empty
    path with a ValueError *)
Definition import_class (import_module : list string -> res attrs) (path : list string) (classname : string) : res value :=
  match (match path with [] => Err ValueError | _ => import_module path end) with
  | Ok d => match dget String.eqb d classname with Some v => Ok v | None => Err import_error end
  | Err AttributeError => Err import_error
  | Err e => Err e
  end.

(** item.startswith('_') *)
Definition private (s : string) : bool := match s with String "_"%char _ => true | _ => false end.
(** 70-71 and 90-91: if item not in all_: all_.append(item) *)
Definition note (x : string) (l : list string) : list string := if memb String.eqb x l then l else l ++ [x].
(** locals_ and all_ *)
Notation scope := (attrs * list string)%type.

Section ImportFrom.
  Variables recursive fail_on_attributerror create_all skip_single_underscores skip_not_having_all : bool.
  (** pkgutil.walk_packages, 51, goes on into a top-level package that has the name of a package yielded, if there is
      one: the modules in it (packages below it are left out here) *)
  Variable toplevel : string -> list string.

  (** 81-91 *)
  Fixpoint take (d : attrs) (package_ref : list string) (s : scope) : scope * option exn :=
    match package_ref with
    | [] => (s, None)
    | item :: t =>
      if private item && skip_single_underscores then take d t s else
      match dget String.eqb d item with
      | Some v => take d t (dset String.eqb (fst s) item v, note item (snd s))
      | None => if fail_on_attributerror then (s, Some AttributeError) else take d t s
      end
    end.
  (** 73-91: a module *)
  Definition from_module (m : tree) (s : scope) : scope * option exn :=
    take (dict_of m) (match all_of m with Some l => l | None => map fst (dict_of m) end) s.
  (** the modules of a top-level package of the same name: 73-91 again, for names with a dot *)
  Fixpoint from_toplevel (below : list (string * tree)) (names : list string) (s : scope) : scope * option exn :=
    match names with
    | [] => (s, None)
    | n :: t => match dget String.eqb below n with
                | None => (s, Some import_error)
                | Some m => match from_module m s with
                            | (s', None) => from_toplevel below t s'
                            | (s', Some e) => (s', Some e)
                            end
                end
    end.

  (** satella/imports.py:25-91 for a package, into a scope; the modules below are changed, too (62-63 and by the
      recursion). [path] is package_prefix. *)
  Fixpoint import_from (path : list string) (t : tree) (s : scope) {struct t} : list (string * tree) * scope * option exn :=
    match t with
    | Mod _ _ => ([], s, None)
    | Pkg _ _ inside =>
      (fix each (inside : list (string * tree)) (s : scope) : list (string * tree) * scope * option exn :=
         match inside with
         | [] => ([], s, None)
         | (modname, m) :: rest =>
           let go_on (m' : tree) (r : scope * option exn) :=
             match r with
             | (s', None) => let '(rest', s'', e) := each rest s' in ((modname, m') :: rest', s'', e)
             | (s', Some e) => ((modname, m') :: rest, s', Some e)
             end in
           match m with
           | Mod _ _ => go_on m (from_module m s)                       (* 73-91 *)
           | Pkg a d below =>
             if negb recursive then go_on m (from_toplevel below (toplevel modname) s) else
             if private modname && skip_single_underscores then go_on m (from_toplevel below (toplevel modname) s) else
             match a, skip_not_having_all with
             | None, true => go_on m (from_toplevel below (toplevel modname) s)     (* 58-61 *)
             | _, _ =>
               let mod_all := match a with Some l => l | None => [] end in
               let '(below', (d', all'), e) := import_from (path ++ [modname]) m (d, mod_all) in
               let m' := Pkg (match a with None => if create_all then Some all' else None | Some _ => Some all' end) d' below' in
               match e with
               | Some e => ((modname, m') :: rest, s, Some e)
               | None =>                                                 (* 69-71 *)
                 let s1 := (dset String.eqb (fst s) modname (ModuleObj (path ++ [modname])), note modname (snd s)) in
                 go_on m' (from_toplevel below' (toplevel modname) s1)
               end
             end
           end
         end) inside s
    end.
End ImportFrom.
