(** Model of satella/configuration/schema: base.py, basic.py and structs.py.

    A descriptor is an object with state: its checkers are in CallableGroups, and a
    call of a CallableGroup takes its callables out and puts back those that did not
    raise. So a call gives the descriptor as it is afterwards. Descriptors are trees:
    one object used at two places is not modelled. Configuration values are not
    mutable here, so that the input stays as it was is not expressed. *)
From Coq Require Import String Ascii.
From Verif Require Import Prelude.
Set Implicit Arguments.
Local Open Scope string_scope.

(** What JSON and its like can say. *)
Inductive cv : Type :=
| CNone | CBool (b : bool) | CInt (z : Z) | CStr (s : string) | CObj (n : nat)
| CList (l : list cv) | CTuple (l : list cv) | CDict (d : list (string * cv)).

Definition checker := cv -> bool.

Inductive desc : Type :=
(* schema/base.py:42-88 Descriptor, and its heirs that differ in BASIC_MAKER only *)
| DBasic (pre post : list checker) (maker : cv -> res cv)
(* basic.py:196-223 Regexp: [matches] is match.group(0); [REGEXP_is_str]: it is a string, not a compiled pattern *)
| DRegexp (pre post : list checker) (maker : cv -> res cv) (matches : cv -> option cv) (REGEXP_is_str : bool)
(* structs.py:10-27 List *)
| DList (pre post : list checker) (type_descriptor : desc)
(* structs.py:45-62 Caster *)
| DCaster (to_cast : cv -> res cv)
(* structs.py:65-124 Dict: keys with their optional, default and descriptor *)
| DDict (pre post : list checker) (keys : list (string * (bool * cv * desc))) (unknown_key_mapper : string -> cv -> res cv)
(* structs.py:127-148 Union *)
| DUnion (descriptors : list desc).

(** callablegroup.py:168-191 the loop of CallableGroup.__call__, without swallow_exceptions: callables
    that returned are added again; the one that raised and those after it are not. *)
Fixpoint check_loop (callables : list checker) (v : cv) (added : list checker) : bool * list checker :=
  match callables with
  | [] => (true, added)
  | c :: t => if c v then check_loop t v (added ++ [c]) else (false, added)
  end.
Definition check (callables : list checker) (v : cv) : bool * list checker := check_loop callables v [].

(** schema/base.py:69-82 Descriptor.__call__: the value, and both groups afterwards *)
Definition descriptor_call (pre post : list checker) (maker : cv -> res cv) (v : cv)
  : res cv * list checker * list checker :=
  let (ok, pre') := check pre v in
  if ok then match maker v with
             | Ok w => let (ok', post') := check post w in
                       (if ok' then Ok w else Err ConfigurationValidationError, pre', post')
             | Err TypeError | Err ValueError | Err ConfigurationError | Err ConfigurationValidationError =>
               (Err ConfigurationValidationError, pre', post)
             | Err e => (Err e, pre', post)
             end
  else (Err ConfigurationValidationError, pre', post).

(** structs.py:18 BASIC_MAKER = list *)
Definition to_list (v : cv) : res cv :=
  match v with
  | CList l | CTuple l => Ok (CList l)
  | CStr s => Ok (CList (map (fun c => CStr (String c "")) (list_ascii_of_string s)))
  | CDict d => Ok (CList (map (fun p => CStr (fst p)) d))
  | _ => Err TypeError
  end.
(** structs.py:17 must_be_type(list, tuple) and structs.py:84 must_be_type(dict) *)
Definition is_list_or_tuple : checker := fun v => match v with CList _ | CTuple _ => true | _ => false end.
Definition is_dict : checker := fun v => match v with CDict _ => true | _ => false end.

Section Call.
  Variable call : desc -> cv -> res cv * desc.
  (** structs.py:27, the list made by List.__call__ *)
  Fixpoint list_loop (d : desc) (l : list cv) (acc : list cv) : res (list cv) * desc :=
    match l with
    | [] => (Ok acc, d)
    | p :: t => match call d p with
                | (Ok w, d') => list_loop d' t (acc ++ [w])
                | (Err e, d') => (Err e, d')
                end
    end.
  (** structs.py:110-119, over the keys; [value] loses those that are taken *)
  Fixpoint keys_loop (keys : list (string * (bool * cv * desc))) (value output : dict string cv)
    : res (dict string cv * dict string cv) * list (string * (bool * cv * desc)) :=
    match keys with
    | [] => (Ok (value, output), [])
    | (key, (optional, default, kd)) :: t =>
      match dget String.eqb value key with
      | None => if optional
                then let (r, t') := keys_loop t value (dset String.eqb output key default) in (r, (key, (optional, default, kd)) :: t')
                else (Err ConfigurationValidationError, (key, (optional, default, kd)) :: t)
      | Some v =>
        match call kd v with
        | (Ok w, kd') =>
          let (r, t') := keys_loop t (ddel String.eqb value key) (dset String.eqb output key w) in
          (r, (key, (optional, default, kd')) :: t')
        | (Err e, kd') => (Err e, (key, (optional, default, kd')) :: t)
        end
      end
    end.
  (** structs.py:121-122 *)
  Fixpoint unknown_loop (mapper : string -> cv -> res cv) (value output : dict string cv) : res (dict string cv) :=
    match value with
    | [] => Ok output
    | (k, v) :: t => match mapper k v with
                     | Ok w => unknown_loop mapper t (dset String.eqb output k w)
                     | Err e => Err e
                     end
    end.
  (** structs.py:143-148 *)
  Fixpoint union_loop (descriptors : list desc) (v : cv) : res cv * list desc :=
    match descriptors with
    | [] => (Err ConfigurationValidationError, [])
    | d :: t => match call d v with
                | (Err ConfigurationValidationError, d') => let (r, t') := union_loop t v in (r, d' :: t')
                | (r, d') => (r, d' :: t)
                end
    end.
End Call.

(** A nested descriptor is called with less fuel; the depth of the descriptor suffices. *)
Fixpoint call (fuel : nat) (d : desc) (v : cv) : res cv * desc :=
  match fuel with
  | O => (Err Diverges, d)
  | S fuel' =>
    match d with
    | DBasic pre post maker =>
      match descriptor_call pre post maker v with (r, pre', post') => (r, DBasic pre' post' maker) end
    | DRegexp pre post maker matches is_str =>
      match descriptor_call pre post maker v with
      | (Ok w, pre', post') =>
        (match matches w with
         | Some g => Ok g
         | None => if is_str then Err AttributeError else Err ConfigurationValidationError
         end, DRegexp pre' post' maker matches is_str)
      | (Err e, pre', post') => (Err e, DRegexp pre' post' maker matches is_str)
      end
    | DList pre post td =>
      match descriptor_call pre post to_list v with
      | (Ok (CList l), pre', post') =>
        let (r, td') := list_loop (call fuel') td l [] in
        (match r with Ok ws => Ok (CList ws) | Err e => Err e end, DList pre' post' td')
      | (Ok _, pre', post') => (Err TypeError, DList pre' post' td)
      | (Err e, pre', post') => (Err e, DList pre' post' td)
      end
    | DCaster f =>
      (match f v with
       | Err ValueError | Err ConfigurationError | Err ConfigurationValidationError => Err ConfigurationValidationError
       | r => r
       end, d)
    | DDict pre post keys mapper =>
      match v with
      | CDict _ =>
        match descriptor_call pre post Ok v with
        | (Ok (CDict value), pre', post') =>
          let (r, keys') := keys_loop (call fuel') keys value [] in
          (match r with
           | Ok (value', output) => match unknown_loop mapper value' output with Ok o => Ok (CDict o) | Err e => Err e end
           | Err e => Err e
           end, DDict pre' post' keys' mapper)
        | (Ok _, pre', post') => (Err ConfigurationValidationError, DDict pre' post' keys mapper)
        | (Err e, pre', post') => (Err e, DDict pre' post' keys mapper)
        end
      | _ => (Err ConfigurationValidationError, d)
      end
    | DUnion ds => let (r, ds') := union_loop (call fuel') ds v in (r, DUnion ds')
    end
  end.

(** validating one value after the other *)
Fixpoint call_run (fuel : nat) (d : desc) (vs : list cv) : list (res cv) * desc :=
  match vs with
  | [] => ([], d)
  | v :: t => let (r, d') := call fuel d v in let (rs, d'') := call_run fuel d' t in (r :: rs, d'')
  end.

(** a new List (structs.py:17-22), a new Dict (structs.py:83-93), a new Descriptor (schema/base.py:50-64) *)
Definition new_list (td : desc) : desc := DList [is_list_or_tuple] [] td.
Definition new_dict (keys : list (string * (bool * cv * desc))) (mapper : string -> cv -> res cv) : desc := DDict [is_dict] [] keys mapper.
Definition any : desc := DBasic [] [] Ok.
(** basic.py:11-30 Boolean *)
Definition upper (s : string) : string :=
  let fix go s := match s with
                  | EmptyString => EmptyString
                  | String c t => let n := nat_of_ascii c in
                                  String (if andb (Nat.leb 97 n) (Nat.leb n 122) then ascii_of_nat (n - 32) else c) (go t)
                  end in go s.
Definition make_boolean (v : cv) : res cv :=
  match v with
  | CStr s => if String.eqb (upper s) "TRUE" then Ok (CBool true)
              else if String.eqb (upper s) "FALSE" then Ok (CBool false) else Err ConfigurationValidationError
  | CNone => Ok (CBool false)
  | CBool b => Ok (CBool b)
  | CInt z => Ok (CBool (negb (Z.eqb z 0)))
  | CObj _ => Ok (CBool true)
  | CList l | CTuple l => Ok (CBool (match l with [] => false | _ => true end))
  | CDict d => Ok (CBool (match d with [] => false | _ => true end))
  end.
Definition boolean : desc := DBasic [] [] make_boolean.
