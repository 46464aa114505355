(** Descriptors out of a description: satella/configuration/schema/from_json.py and registry.py, over the
    descriptors of Schema_Model.

    A description is a configuration value; [CObj n] is any other Python object, a class perhaps.
    ConfigurationSchemaError is written [ConfigurationError]. Registering under a name that is a class of its own
    (metaclasses, changes of BASE_LOOKUP_TABLE by hand) is not modelled. *)
From Coq Require Import String.
From Verif Require Import Prelude Schema_Model.
Set Implicit Arguments.
Local Open Scope string_scope.
Open Scope list_scope.

(** what is passed to the class of a descriptor: a descriptor, or None where one should be; a value; a function *)
Inductive arg := ADesc (d : option desc) | AVal (v : cv) | AFun (f : cv -> res cv).
(** a class of descriptors, by its constructor *)
Definition cls := list arg -> res desc.

(** registry.py:1-2 BASE_LOOKUP_TABLE and PLAIN_ENTRIES *)
Record registry := { lookup : dict string cls; plain_entries : list string }.
(** registry.py:5-27 register_custom_descriptor, applied to a class *)
Definition register (name : string) (is_plain : bool) (c : cls) (r : registry) : registry :=
  {| lookup := dset String.eqb (lookup r) name c;
     plain_entries := if is_plain then name :: plain_entries r else plain_entries r |}.

(** a class whose __init__ takes nothing *)
Definition plain_class (d : desc) : cls := fun args => match args with [] => Ok d | _ => Err TypeError end.
(** structs.py:20-22 List.__init__ *)
Definition list_class : cls := fun args =>
  match args with
  | [] | [ADesc None] => Ok (new_list any)
  | [ADesc (Some d)] => Ok (new_list d)
  | _ => Err TypeError
  end.
(** structs.py:57-58 Caster.__init__ *)
Definition caster_class : cls := fun args => match args with [AFun f] => Ok (DCaster f) | _ => Err TypeError end.
(** structs.py:88-93 Dict.__init__: it wants the keys *)
Definition dict_class : cls := fun _ => Err TypeError.
(** structs.py:138-140 Union.__init__. None in place of a descriptor is called like one (145): TypeError. *)
Definition union_class : cls := fun args =>
  Ok (DUnion (map (fun a => match a with ADesc (Some d) => d | _ => DCaster (fun _ => Err TypeError) end) args)).
(** basic.py:160-163 FileContents.__init__; [contents] is BASIC_MAKER (165-175) *)
Definition file_contents_class (contents : cv -> cv -> cv -> res cv) : cls := fun args =>
  match args with
  | [] => Ok (DBasic [] [] (contents CNone (CBool false)))
  | [AVal e; AVal s] => Ok (DBasic [] [] (contents e s))
  | _ => Err TypeError
  end.

(** what the interpreter does: int(), float(), str(), the files, re *)
Record makers := { to_int : cv -> res cv; to_float : cv -> res cv; to_str : cv -> res cv;
                   to_file : cv -> res cv; to_dir : cv -> res cv;
                   file_contents : cv -> cv -> cv -> res cv; ipv4_matches : cv -> option cv }.
(** base.py:42, basic.py:25-50, 143-154, 186-193, 229-234, structs.py:10, 45, 65, 127: what is registered *)
Definition builtin (k : makers) : registry :=
  register "union" false union_class (register "dict" false dict_class (register "caster" false caster_class
  (register "list" false list_class (register "ipv4" true (plain_class (DRegexp [] [] (to_str k) (ipv4_matches k) true))
  (register "dir" true (plain_class (DBasic [] [] (to_dir k)))
  (register "file_contents" true (file_contents_class (file_contents k))
  (register "file" true (plain_class (DBasic [] [] (to_file k)))
  (register "str" true (plain_class (DBasic [] [] (to_str k))) (register "float" true (plain_class (DBasic [] [] (to_float k)))
  (register "int" true (plain_class (DBasic [] [] (to_int k))) (register "bool" true (plain_class boolean)
  (register "any" true (plain_class any) {| lookup := []; plain_entries := [] |})))))))))))).

(** structs.py:36-42 a descriptor with what create_key (or Descriptor.__init__, base.py:57-59) wrote on it *)
Record field := { name : option string; optional : cv; default : cv; what : desc }.

(** bool(v) *)
Definition truthy (v : cv) : bool :=
  match v with
  | CNone => false | CBool b => b | CInt z => negb (Z.eqb z 0) | CStr s => negb (String.eqb s "") | CObj _ => true
  | CList l | CTuple l => match l with [] => false | _ => true end
  | CDict d => match d with [] => false | _ => true end
  end.

(** structs.py:92 {item.name: item for item in keys}. A descriptor without a name ends up under None, which no
    configuration has: it is written as a key that refuses whatever is there. *)
Definition never : string * (bool * cv * desc) :=
  ("", (false, CNone, DBasic [] [] (fun _ => Err ConfigurationValidationError))).
Definition entry_of (f : field) : string * (bool * cv * desc) :=
  match name f with
  | Some k => (k, (truthy (optional f), default f, what f))
  | None => never
  end.
Fixpoint keys_of (fields : list (option field)) : res (list (string * (bool * cv * desc))) :=
  match fields with
  | [] => Ok []
  | None :: _ => Err AttributeError        (* None has no attribute 'name' *)
  | Some f :: t => res_bind (keys_of t) (fun ks => Ok (entry_of f :: ks))
  end.

(** structs.py:88-93 Dict(fields) *)
Definition make_dict (fields : list (option field)) : res desc :=
  res_bind (keys_of fields) (fun ks => Ok (new_dict ks (fun _ v => Ok v))).

Section Build.
  Variable reg : registry.
  Variable qualname : nat -> option string.                      (* of the object, if it is a class *)
  (* from_json.py:30-48: what the entry says to cast with, or the exception of looking for it *)
  Variable resolve : dict string cv -> res (cv -> res cv).

  (** from_json.py:10-16 *)
  Definition descriptor_for_str (key : string) (value : string) : res (option field) :=
    if memb String.eqb value (plain_entries reg)
    then match dget String.eqb (lookup reg) value with
         | None => Err ConfigurationError
         | Some c => res_bind (c []) (fun d =>
                       Ok (Some {| name := Some key; optional := CBool false; default := CNone; what := d |}))
         end
    else Ok None.

  (** [descriptor_for key value], from_json.py:62-72, for those that are nested *)
  Section Nested.
    Variable descriptor_for : string -> cv -> res (option field).
    (** from_json.py:52, over the descriptions of a union; structs.py:138 *)
    Fixpoint each (l : list cv) : res (list arg) :=
      match l with
      | [] => Ok []
      | x :: t => res_bind (descriptor_for "" x) (fun f => res_bind (each t) (fun r =>
                    Ok (ADesc (option_map what f) :: r)))
      end.
    (** from_json.py:97-105 the loop and the Dict of descriptor_from_dict *)
    Fixpoint fields_of (d : list (string * cv)) : res (list (option field)) :=
      match d with
      | [] => Ok []
      | (k, v) :: t => res_bind (descriptor_for k v) (fun f => res_bind (fields_of t) (fun r => Ok (f :: r)))
      end.
    (** from_json.py:24-52 args *)
    Definition args_of (type_ : cv) (value : dict string cv) : res (list arg) :=
      match type_ with
      | CStr s =>
        if String.eqb s "list" then
          res_bind (descriptor_for "" (match dget String.eqb value "of" with Some o => o | None => CStr "" end))
                   (fun f => Ok [ADesc (option_map what f)])
        else if String.eqb s "caster" then res_bind (resolve value) (fun f => Ok [AFun f])
        else if String.eqb s "file_contents" then
          Ok [AVal (match dget String.eqb value "encoding" with Some e => e | None => CNone end);
              AVal (match dget String.eqb value "strip_afterwards" with Some s => s | None => CBool false end)]
        else if String.eqb s "union" then
          res_bind (to_list (match dget String.eqb value "of" with Some o => o | None => CList [] end))
                   (fun l => match l with CList l => each l | _ => Err TypeError end)
        else Ok []
      | _ => Ok []
      end.
    (** from_json.py:58 BASE_LOOKUP_TABLE[type_] *)
    Definition class_of (type_ : cv) : res cls :=
      match type_ with
      | CStr s => match dget String.eqb (lookup reg) s with Some c => Ok c | None => Err KeyError end
      | CList _ | CDict _ => Err TypeError                       (* unhashable *)
      | _ => Err KeyError
      end.
    (** from_json.py:19-59 *)
    Definition descriptor_for_dict (key : string) (value : dict string cv) : res (option field) :=
      match dget String.eqb value "type" with
      | None => res_bind (fields_of value) (fun fs => res_bind (make_dict fs) (fun d =>
                  Ok (Some {| name := Some key; optional := CBool false; default := CNone; what := d |})))
      | Some type_ =>
        res_bind (args_of type_ value) (fun args =>
          let (opt, dflt) := match dget String.eqb value "default" with
                             | Some x => (CBool true, x)
                             | None => (CBool false, CNone)
                             end in
          let opt := match dget String.eqb value "optional" with Some o => o | None => opt end in
          res_bind (class_of type_) (fun c => res_bind (c args) (fun d =>
            Ok (Some {| name := Some key; optional := opt; default := dflt; what := d |}))))
      end.
  End Nested.

  (** base.py:54-64 Descriptor() *)
  Definition bare : field := {| name := None; optional := CNone; default := CNone; what := any |}.

  (** from_json.py:62-72; the fuel only has to exceed how deeply the description is nested *)
  Fixpoint descriptor_for (fuel : nat) (key : string) (value : cv) : res (option field) :=
    match fuel with
    | O => Err Diverges
    | S n =>
      match value with
      | CStr s => if String.eqb s "" then Ok (Some bare) else descriptor_for_str key s
      | CDict d => descriptor_for_dict (descriptor_for n) key d
      | CObj o => match qualname o with
                  | Some q => if String.eqb q "" then Ok (Some bare) else descriptor_for_str key q
                  | None => Err ConfigurationError
                  end
      | _ => Err ConfigurationError
      end
    end.

  (** from_json.py:75-105 *)
  Definition descriptor_from_dict (fuel : nat) (dct : dict string cv) : res desc :=
    res_bind (fields_of (descriptor_for fuel) dct) make_dict.
End Build.

(** ** basic.py:57-193 what File and Directory give *)
Inductive pathlike := AFile (path : string) | ADirectory (path : string) | AString (s : string).
(** 71-72, 118-119 *)
Definition path_str (o : pathlike) : string := match o with AFile p | ADirectory p | AString p => p end.
(** 74-75, 121-122; between a string and one of the two, the method of the latter is asked *)
Definition path_eq (a b : pathlike) : bool :=
  let file_eq p o := String.eqb p (path_str o) && match o with AFile _ => true | _ => false end in
  let dir_eq p o := String.eqb p (path_str o) && match o with ADirectory _ => true | _ => false end in
  match a, b with
  | AFile p, o => file_eq p o
  | ADirectory p, o => dir_eq p o
  | AString s, AString s' => String.eqb s s'
  | o, AFile p => file_eq p o
  | o, ADirectory p => dir_eq p o
  end.
(** 77-78, 124-125 *)
Definition path_hash (hash : string -> Z) (o : pathlike) : Z := hash (path_str o).
(** 135-140 and 178-183, of a string *)
Definition make_file (isfile : string -> bool) (v : string) : res pathlike :=
  if isfile v then Ok (AFile v) else Err ConfigurationValidationError.
Definition make_directory (isdir : string -> bool) (v : string) : res pathlike :=
  if isdir v then Ok (ADirectory v) else Err ConfigurationValidationError.
