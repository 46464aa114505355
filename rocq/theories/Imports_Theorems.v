(** C112: import_from fills a package with what is inside it; import_class finds a class. *)
From Coq Require Import String.
From Verif Require Import Prelude Imports_Model Imports_Spec Imports_Proofs.
Set Implicit Arguments.
Local Open Scope string_scope.
Open Scope list_scope.

(** Whatever is inside: everything the members export comes into the scope, the packages inside are equipped likewise,
    and it fails only if an __all__ has a public name that is not there. *)
Definition C112_full_statement : Prop := forall recursive fail create skip_s skip_a toplevel path a d inside s,
  (fail = true -> forall n m, In (n, m) inside -> ~ lacks recursive skip_s skip_a n m) ->
  exists inside' s', import_from recursive fail create skip_s skip_a toplevel path (Pkg a d inside) s = (inside', s', None) /\
    Forall2 (equipped recursive create skip_s skip_a path) inside inside' /\
    merged s (flat_map (documented recursive skip_s skip_a path) inside) s'.
(** So it is when no package inside has the name of a top-level one; except that private modules (not packages) are
    not skipped. *)
Theorem C112_partial : forall recursive fail create skip_s skip_a path a d inside s,
  (fail = true -> forall n m, In (n, m) inside -> ~ lacks recursive skip_s skip_a n m) ->
  exists inside' s', import_from recursive fail create skip_s skip_a (fun _ => []) path (Pkg a d inside) s = (inside', s', None) /\
    Forall2 (equipped recursive create skip_s skip_a path) inside inside' /\
    merged s (flat_map (exports recursive skip_s skip_a path) inside) s'.
Proof. intros. eapply imp_ok; eauto. Qed.
Print Assumptions C112_partial.
(** A public name that is not there: an AttributeError, wherever it is below. *)
Theorem C112_missing : forall recursive create skip_s skip_a path a d inside s n m,
  In (n, m) inside -> lacks recursive skip_s skip_a n m ->
  snd (import_from recursive true create skip_s skip_a (fun _ => []) path (Pkg a d inside) s) = Some AttributeError.
Proof. intros. eapply imp_error; eauto. Qed.
Print Assumptions C112_missing.

(** a package with two modules, one without __all__, and a package inside *)
Definition inside1 : list (string * tree) :=
  [("alpha", Mod (Some ["f"; "_g"]) [("_g", Val 1); ("f", Val 2); ("h", Val 3)]);
   ("beta", Pkg None [] [("gamma", Mod None [("f", Val 4); ("x", Val 5)])]);
   ("delta", Mod (Some ["f"; "k"]) [("f", Val 6); ("k", Val 7)])].
Example C112_case :
  import_from true true true true false (fun _ => []) ["pkg"] (Pkg None [] inside1) ([("f", Val 0)], ["f"]) =
  ([("alpha", Mod (Some ["f"; "_g"]) [("_g", Val 1); ("f", Val 2); ("h", Val 3)]);
    ("beta", Pkg (Some ["f"; "x"]) [("f", Val 4); ("x", Val 5)] [("gamma", Mod None [("f", Val 4); ("x", Val 5)])]);
    ("delta", Mod (Some ["f"; "k"]) [("f", Val 6); ("k", Val 7)])],
   ([("f", Val 6); ("beta", ModuleObj ["pkg"; "beta"]); ("k", Val 7)], ["f"; "beta"; "k"]), None) /\
  (forall n m, In (n, m) inside1 -> ~ lacks true true false n m).
Proof.
  split; [reflexivity|]. intros n m H L.
  destruct H as [E|[E|[E|[]]]]; injection E as <- <-; inversion L as [? ? ? x Hx Hp Hd|? ? ? ? n' m' T Hi L']; subst.
  - destruct Hx as [<-|[<-|[]]]; discriminate.
  - destruct Hi as [Hi|[]]. injection Hi as <- <-. inversion L' as [? ? ? x Hx Hp Hd|]; subst. destruct Hx as [<-|[<-|[]]]; discriminate.
  - destruct Hx as [<-|[<-|[]]]; discriminate.
Qed.
(** Private modules are imported from in spite of skip_single_underscores. *)
Theorem C112_full_statement_refuted : ~ C112_full_statement.
Proof.
  intros H. destruct (H true true true true false (fun _ => []) ["pkg"] None [] [("_hidden", Mod (Some ["f"]) [("f", Val 1)])] ([], [])) as (i & s & E & _ & M & _).
  - intros _ n m [Hi|[]] L. injection Hi as <- <-. inversion L as [? ? ? x Hx Hp Hd|]; subst. destruct Hx as [<-|[]]; discriminate.
  - injection E as _ <-. specialize (M "f"). discriminate M.
Qed.
Print Assumptions C112_full_statement_refuted.
(** A package inside that has the name of a top-level package (say, json): its modules that have the names of modules
    of that one come into the scope outside of it, and a module of that one that it has not is an ImportError. *)
Definition json_inside : list (string * tree) := [("json", Pkg (Some []) [] [("decoder", Mod (Some ["f"]) [("f", Val 1)])])].
Definition some_toplevel (l : list string) (n : string) : list string := if String.eqb n "json" then l else [].
Theorem C112_toplevel_refuted :
  (exists i s, import_from true true true true false (some_toplevel ["decoder"]) ["pkg"] (Pkg None [] json_inside) ([], []) = (i, s, None) /\
     dget String.eqb (fst s) "f" = Some (Val 1) /\ snd s = ["json"; "f"]) /\
  snd (import_from true true true true false (some_toplevel ["decoder"; "encoder"]) ["pkg"] (Pkg None [] json_inside) ([], [])) = Some import_error.
Proof. split; [eexists _, _; split; [reflexivity|split; reflexivity]|reflexivity]. Qed.
Print Assumptions C112_toplevel_refuted.

(** import_class: exactly the attribute of the module; an ImportError if it is not there; what the import raises goes
    through but for an AttributeError. *)
Theorem C112_class : forall import_module p path classname v,
  import_class import_module (p :: path) classname = Ok v <->
  exists d, import_module (p :: path) = Ok d /\ dget String.eqb d classname = Some v.
Proof.
  intros im p path c v. unfold import_class. split.
  - destruct (im (p :: path)) as [d|e] eqn:E; [|destruct e; discriminate]. destruct (dget String.eqb d c) eqn:D; [|discriminate]. intros [= <-]. eauto.
  - intros (d & -> & ->). reflexivity.
Qed.
Print Assumptions C112_class.
Theorem C112_class_errors : forall import_module path classname e,
  import_class import_module path classname = Err e ->
  (path = [] /\ e = ValueError) \/ (exists d, import_module path = Ok d /\ dget String.eqb d classname = None /\ e = import_error) \/
  import_module path = Err e \/ (import_module path = Err AttributeError /\ e = import_error).
Proof.
  intros im [|p path] c e; [intros [= <-]; auto|]. unfold import_class.
  destruct (im (p :: path)) as [d|e'] eqn:E.
  - destruct (dget String.eqb d c) eqn:D; [discriminate|]. intros [= <-]. right. left. eauto.
  - destruct e'; intros [= <-]; auto 10.
Qed.
Print Assumptions C112_class_errors.
Example C112_class_case : import_class (fun _ => Ok [("Popen", Val 3)]) ["subprocess"] "Popen" = Ok (Val 3) /\
  import_class (fun _ => Ok [("Popen", Val 3)]) ["subprocess"] "Pop" = Err import_error.
Proof. split; reflexivity. Qed.
