(** Configuration from files, directories, environment variables and descriptions: satella/configuration/sources/file.py (FileSource, DirectorySource),
    sources/format.py, sources/envvars.py and sources/from_dict.py. What MergingSource does is in Sources_Model. *)
From Coq Require Import List Bool Arith ZArith.
From Verif Require Import Prelude Sources_Model.
Import ListNotations.
Open Scope nat_scope.

(** ** Formats *)

Definition bytes := list nat.

(** isinstance(e, tuple(BASE_EXCEPTIONS)), format.py 31-33: UnicodeDecodeError, binascii.Error and the ConfigurationErrors (satella/exceptions.py:177) are ValueErrors, IndexError and KeyError LookupErrors. *)
Definition base_exception (e : exn) : bool := match e with TypeError | ValueError | IndexError | KeyError | ConfigurationError | ConfigurationValidationError => true | _ => false end.

Definition tree_is_dict (t : tree) : bool := match t with TDict _ => true | _ => false end.

(** A format: TRANSFORM, what it is given being already decoded, and EXTRA_EXCEPTIONS. *)
Record format := { transform : bytes -> res tree; extra_exception : exn -> bool }.

(** FormatSource.provide, format.py 45-60, of a source made of bytes; decode: lines 50-53. *)
Definition format_provide (decode : bytes -> res bytes) (f : format) (root : bytes) : res tree :=
  match res_bind (decode root) (transform f) with
  | Err e => if base_exception e || extra_exception f e then Err ConfigurationError else Err e
  | Ok ret_val => if negb (tree_is_dict ret_val) then Err ConfigurationError else Ok ret_val
  end.

(** ** Files *)

(** What is at a path: a file (its content, or the error of reading it), a directory, a directory that cannot be listed, or something else. *)
Inductive fs := FFile (data : res bytes) | FDir (entries : list (nat * fs)) | FLocked | FOther.

(** A path: whether it's absolute, and its parts. *)
Record path := { absolute : bool; parts : list nat }.
(** os.path.join *)
Definition join_path (a b : path) : path := if absolute b then b else {| absolute := absolute a; parts := parts a ++ parts b |}.

Fixpoint walk_fs (t : fs) (names : list nat) : option fs :=
  match names with
  | [] => Some t
  | n :: rest => match t with FDir es => match dget Nat.eqb es n with Some t' => walk_fs t' rest | None => None end | _ => None end
  end.

Section World.
  (** The file system, the working directory, and how the bytes are decoded. *)
  Variables (root : fs) (cwd : list nat) (decode : bytes -> res bytes).
  Definition lookup (p : path) : option fs := walk_fs root ((if absolute p then [] else cwd) ++ parts p).

  (** open(path, 'rb') and read(), file.py 45-46 *)
  Definition read_file (p : path) : res bytes :=
    match lookup p with Some (FFile d) => d | Some _ => Err OSErrorExn | None => Err FileNotFound end.

  (** satella's WouldWaitMore is an OSError, too (satella/exceptions.py:163) *)
  Definition is_oserror (e : exn) : bool := match e with OSErrorExn | FileNotFound | WouldWaitMore => true | _ => false end.
  Definition rethrow_oserror {A} (r : res A) : res A := match r with Err e => if is_oserror e then Err ConfigurationError else Err e | _ => r end.

  (** The loop of FileSource.provide, file.py 48-58 *)
  Fixpoint file_loop (data : bytes) (formats : list format) : res tree :=
    match formats with
    | [] => Err ConfigurationError
    | f :: t => match format_provide decode f data with
                | Ok s => if negb (tree_is_dict s) then file_loop data t else Ok s
                | Err ConfigurationError => file_loop data t
                | Err e => Err e
                end
    end.

  (** FileSource.provide, file.py 42-58 *)
  Definition file_provide (formats : list format) (p : path) : res tree := rethrow_oserror (res_bind (read_file p) (fun data => file_loop data formats)).

  (** fname_filter, scan_subdirectories, on_fail (RAISE 0, SILENT 1) of a DirectorySource, file.py 74-84 *)
  Variables (fname_filter : path -> bool) (scan_subdirectories : bool) (on_fail : Z).

  (** The loop of get_sources_from_directory, file.py 104-113; sub is the method itself. *)
  Fixpoint dir_loop (sub : path -> res (list path)) (directory : path) (files : list path) : res (list path) :=
    match files with
    | [] => Ok []
    | file_name :: t =>
      let fullname := join_path directory file_name in
      res_bind (match lookup fullname with
                | Some (FFile _) => Ok [fullname]
                | Some (FDir _) | Some FLocked => if scan_subdirectories then sub fullname else Ok []
                | _ => Ok []
                end)
               (fun here => res_bind (dir_loop sub directory t) (fun rest => Ok (here ++ rest)))
    end.

  (** DirectorySource.get_sources_from_directory, file.py 89-115: the paths of the FileSources. *)
  Fixpoint get_sources (fuel : nat) (directory : path) : res (list path) :=
    match fuel with
    | 0 => Err Diverges
    | S f =>
      match lookup directory with
      | Some (FDir es) => dir_loop (get_sources f) directory (filter fname_filter (map (fun x => join_path directory {| absolute := false; parts := [x] |}) (dkeys es)))
      | _ => if Z.eqb on_fail 1 then Ok [] else Err ConfigurationError
      end
    end.

  (** DirectorySource.provide, file.py 117-120: the MergingSource it makes; fail_if_no_sources_are_correct is True by default. *)
  Definition directory_source (formats : list format) (fuel : nat) (directory : path) : res (source val) :=
    res_bind (get_sources fuel directory) (fun ps => Ok (SMerging (map (fun p => SLoad (file_provide formats p)) ps) on_fail true)).
End World.

(** EnvironmentSource.provide, envvars.py 40-44: environ gives the variable's value or nothing. Names of configuration keys are numbers. *)
Definition environment_provide (environ : nat -> option bytes) (cast_to : bytes -> res tree) (env_name : nat) (config_name : option Z) (own_name : nat -> Z) : res tree :=
  match match environ env_name with None => Err KeyError | Some s => cast_to s end with
  | Ok v => Ok (TDict [(match config_name with Some n => n | None => own_name env_name end, v)])
  | Err ValueError | Err TypeError | Err KeyError | Err ConfigurationValidationError => Err ConfigurationError
  | Err e => Err e
  end.
(** EnvVarsSource.provide, envvars.py 58-61: the variable's value (a string, so it is not decoded) as JSON. *)
Definition env_vars_provide (environ : nat -> option bytes) (json : format) (env_name : nat) : res tree :=
  match environ env_name with
  | None => Err ConfigurationError
  | Some s => match format_provide (fun b => Ok b) json s with Err KeyError => Err ConfigurationError | r => r end
  end.

(** ** load_source_from_dict, from_dict.py *)

(** JSON: strings (and all that is not a list or a dictionary) are numbers. Keys: "type", "arg", "args", "optional" are 0, 1, 2 and 3. *)
Inductive jv := JAtom (n : nat) | JList (l : list jv) | JDict (d : list (nat * jv)).

(** A source as it is made: a class and the arguments its constructor got; OptionalSource around one. An argument: a value as it was, the result of EXTRA_TYPES, a source. *)
Inductive src := Built (type_ : nat) (args : list arg) (kwargs : list (nat * arg)) | OptionalOf (s : src)
with arg := ALit (v : jv) | AExtra (type_ : nat) (v : jv) | ASource (s : src).

Section Load.
  (** The names in the sources module; EXTRA_TYPES and what evaluating one raises; what a constructor raises, given its arguments; truth. *)
  Variables (is_source is_extra : nat -> bool) (extra_raises : jv -> option exn) (ctor_raises : nat -> list arg -> list (nat * arg) -> option exn) (truth : jv -> bool).
  (** the letters of an atom that is a string *)
  Variable letters : nat -> option (list nat).

  (** to_arg, from_dict.py 56-69. The warning (lines 64-67) mentions a variable e that is not assigned: NameError. *)
  Definition to_arg (load : jv -> res src) (v : jv) : res arg :=
    match v with
    | JDict d =>
      match dget Nat.eqb d 0 with
      | None => Ok (ALit v)
      | Some (JAtom a_type) =>
        if is_extra a_type then match extra_raises v with Some e => Err e | None => Ok (AExtra a_type v) end
        else if is_source a_type then res_map ASource (load v)
        else Err NameErrorExn
      | Some _ => Err TypeError                                             (* unhashable *)
      end
    | _ => Ok (ALit v)
    end.

  Fixpoint map_res {A B} (f : A -> res B) (l : list A) : res (list B) :=
    match l with [] => Ok [] | x :: t => res_bind (f x) (fun y => res_bind (map_res f t) (fun ys => Ok (y :: ys))) end.

  (** The positional arguments, from_dict.py 49-52; iterating over a dictionary gives its keys, over a string its letters. *)
  Definition iter_args (v : jv) : res (list jv) := match v with JList l => Ok l | JDict d => Ok (map (fun kv => JAtom (fst kv)) d) | JAtom a => match letters a with Some l => Ok (map JAtom l) | None => Err TypeError end end.

  Definition pop (d : list (nat * jv)) (k : nat) : list (nat * jv) := ddel Nat.eqb d k.

  (** rethrow_as(Exception, ConfigurationError), from_dict.py 34: every exception becomes a ConfigurationError (running out of fuel is no exception). *)
  Definition rethrow_configuration {A} (r : res A) : res A := match r with Err Diverges => r | Err _ => Err ConfigurationError | Ok _ => r end.

  (** load_source_from_dict, from_dict.py 34-81 *)
  Fixpoint load (fuel : nat) (dct : jv) : res src :=
    match fuel with
    | 0 => Err Diverges
    | S f =>
      rethrow_configuration
        match dct with
        | JDict d0 =>
          match dget Nat.eqb d0 0 with
          | None => Err KeyError
          | Some type_ =>
            let d1 := pop d0 0 in
            let '(args, d2) := match dget Nat.eqb d1 1 with
                               | Some a => (JList [a], pop d1 1)
                               | None => match dget Nat.eqb d1 2 with Some a => (a, pop d1 2) | None => (JList [], d1) end
                               end in
            let '(optional, d3) := match dget Nat.eqb d2 3 with Some o => (truth o, pop d2 3) | None => (false, d2) end in
            res_bind (iter_args args) (fun args1 =>
            res_bind (map_res (fun kv : nat * jv => res_map (pair (fst kv)) (to_arg (load f) (snd kv))) d3) (fun kwargs =>
            match type_ with
            | JAtom t =>
              if negb (is_source t) then Err ConfigurationError
              else res_bind (map_res (to_arg (load f)) args1) (fun args2 =>
                   match ctor_raises t args2 kwargs with
                   | Some e => Err e
                   | None => Ok (if optional then OptionalOf (Built t args2 kwargs) else Built t args2 kwargs)
                   end)
            | _ => Err TypeError
            end))
          end
        | _ => Err AttributeError                                          (* for a list TypeError *)
        end
    end.

  (** load_source_from_list, from_dict.py 84-88: the sources of the MergingSource. *)
  Definition load_list (fuel : nat) (obj : list jv) : res (list src) := map_res (load fuel) obj.
End Load.
