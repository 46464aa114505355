(** What a description of a schema says, told without descriptors. *)
From Coq Require Import String.
From Verif Require Import Prelude Schema_Model Schema_Spec SchemaJson_Model.
Set Implicit Arguments.
Local Open Scope string_scope.
Open Scope list_scope.

(** The types a configuration value can be asked to have. *)
Inductive ty : Type :=
| TAny
| TPlain (n : string)                                    (* by the name of its descriptor *)
| TContents (encoding strip : cv)                        (* the contents of a file *)
| TCast (f : cv -> res cv)
| TList (t : ty)
| TUnion (ts : list ty)
| TDict (fields : list (string * (option cv * ty))).     (* with the default of those that may be absent *)

(** Each in turn; the first exception ends it. *)
Definition in_turn {A B} (f : A -> res B) : list A -> res (list B) :=
  fix go l := match l with
              | [] => Ok []
              | x :: t => match f x with
                          | Err e => Err e
                          | Ok y => match go t with Err e => Err e | Ok ys => Ok (y :: ys) end
                          end
              end.
(** The first that does not refuse. *)
Definition first_of {A} (f : A -> res cv) : list A -> res cv :=
  fix go l := match l with
              | [] => Err ConfigurationValidationError
              | x :: t => match f x with Err ConfigurationValidationError => go t | r => r end
              end.
Definition every {A} (P : A -> Prop) : list A -> Prop :=
  fix go l := match l with [] => True | x :: t => P x /\ go t end.
Definition pairwise {A B} (P : A -> B -> Prop) : list A -> list B -> Prop :=
  fix go l m := match l, m with
                | [], [] => True
                | x :: t, y :: u => P x y /\ go t u
                | _, _ => False
                end.
(** What is not a value of the type is refused; other exceptions pass. *)
Definition converted (r : res cv) : res cv :=
  match r with
  | Err TypeError | Err ValueError | Err ConfigurationError | Err ConfigurationValidationError => Err ConfigurationValidationError
  | r => r
  end.

(** ** What a type makes of a value *)
Section Meaning.
  Variable prim : string -> cv -> res cv.
  Variable contents : cv -> cv -> cv -> res cv.
  Fixpoint ask (t : ty) (v : cv) : res cv :=
    match t with
    | TAny => Ok v
    | TPlain n => prim n v
    | TContents e s => converted (contents e s v)
    | TCast f => match f v with Err TypeError => Err TypeError | r => converted r end
    | TList t =>
      match v with
      | CList l | CTuple l => match in_turn (ask t) l with Ok ws => Ok (CList ws) | Err e => Err e end
      | _ => Err ConfigurationValidationError
      end
    | TUnion ts => first_of (fun t => ask t v) ts
    | TDict fields =>
      match v with
      | CDict kvs =>
        match in_turn (fun f : string * (option cv * ty) =>
                         let (k, pt) := f in let (p, t) := pt in
                         match dget String.eqb kvs k, p with
                         | Some x, _ => match ask t x with Ok w => Ok (k, w) | Err e => Err e end
                         | None, Some dflt => Ok (k, dflt)
                         | None, None => Err ConfigurationValidationError
                         end) fields with
        | Ok out => Ok (CDict (out ++ filter (fun e => negb (existsb (String.eqb (fst e)) (map fst fields))) kvs))
        | Err e => Err e
        end
      | _ => Err ConfigurationValidationError
      end
    end.
End Meaning.

(** No dictionary in it has a key twice. *)
Fixpoint distinct (v : cv) : Prop :=
  match v with
  | CList l | CTuple l => every distinct l
  | CDict d => NoDup (map fst d) /\ every (fun e : string * cv => distinct (snd e)) d
  | _ => True
  end.

Fixpoint no_lists (t : ty) : Prop :=
  match t with
  | TList _ => False
  | TUnion ts => every no_lists ts
  | TDict fs => every (fun f : string * (option cv * ty) => no_lists (snd (snd f))) fs
  | _ => True
  end.
Fixpoint no_unions (t : ty) : Prop :=
  match t with
  | TList t => no_unions t
  | TUnion ts => False
  | TDict fs => every (fun f : string * (option cv * ty) => no_unions (snd (snd f))) fs
  | _ => True
  end.
(** Whatever lists hold is free of lists or free of unions. *)
Fixpoint plain_lists (t : ty) : Prop :=
  match t with
  | TList t => plain_lists t /\ (no_lists t \/ no_unions t)
  | TUnion ts => every plain_lists ts
  | TDict fs => every (fun f : string * (option cv * ty) => plain_lists (snd (snd f))) fs
  | _ => True
  end.
Fixpoint nesting (t : ty) : nat :=
  match t with
  | TList t => S (nesting t)
  | TUnion ts => S (fold_right Nat.max 0 (map nesting ts))
  | TDict fs => S (fold_right Nat.max 0 (map (fun f : string * (option cv * ty) => nesting (snd (snd f))) fs))
  | _ => 1
  end.

(** ** How types are written *)
Definition entry (d : dict string cv) (k : string) (otherwise : cv) : cv :=
  match dget String.eqb d k with Some x => x | None => otherwise end.
(** Names that take more than a name. *)
Definition special (n : string) : Prop := In n ["list"; "caster"; "file_contents"; "union"].

(** The default of a key that may be absent, as its description says. *)
Definition presence (v : cv) : option cv :=
  match v with
  | CDict d => match dget String.eqb d "type" with
               | Some _ => if truthy (entry d "optional" (CBool (existsb (fun e => String.eqb (fst e) "default") d)))
                           then Some (entry d "default" CNone) else None
               | None => None
               end
  | _ => None
  end.

Section Writing.
  Variable reg : registry.
  Variable qualname : nat -> option string.
  Variable resolve : dict string cv -> res (cv -> res cv).

  (** the short way: the name itself, or a class of that name *)
  Definition short (n : string) (v : cv) : Prop :=
    n <> "" /\ (v = CStr n \/ exists o, v = CObj o /\ qualname o = Some n).
  Fixpoint written (t : ty) (v : cv) : Prop :=
    match t with
    | TAny => v = CStr ""
    | TPlain n => In n (plain_entries reg) /\ ~ special n /\
                  (short n v \/ exists d, v = CDict d /\ dget String.eqb d "type" = Some (CStr n))
    | TContents e s => In "file_contents" (plain_entries reg) /\ e = CNone /\ s = CBool false /\ short "file_contents" v \/
                       exists d, v = CDict d /\ dget String.eqb d "type" = Some (CStr "file_contents") /\
                                 e = entry d "encoding" CNone /\ s = entry d "strip_afterwards" (CBool false)
    | TCast f => exists d, v = CDict d /\ dget String.eqb d "type" = Some (CStr "caster") /\ resolve d = Ok f
    | TList t => exists d, v = CDict d /\ dget String.eqb d "type" = Some (CStr "list") /\ written t (entry d "of" (CStr ""))
    | TUnion ts => exists d l, v = CDict d /\ dget String.eqb d "type" = Some (CStr "union") /\
                               (entry d "of" (CList []) = CList l \/ entry d "of" (CList []) = CTuple l) /\ pairwise written ts l
    | TDict fs => exists d, v = CDict d /\ dget String.eqb d "type" = None /\ NoDup (map fst d) /\
                            pairwise (fun (f : string * (option cv * ty)) (e : string * cv) =>
                                        let (k, pt) := f in let (p, t) := pt in
                                        k = fst e /\ snd e <> CStr "" /\ p = presence (snd e) /\ written t (snd e)) fs d
    end.
  (** the description as a whole; a key may be called type here *)
  Definition written_dict (fs : list (string * (option cv * ty))) (d : dict string cv) : Prop :=
    NoDup (map fst d) /\
    pairwise (fun (f : string * (option cv * ty)) (e : string * cv) =>
                let (k, pt) := f in let (p, t) := pt in
                k = fst e /\ snd e <> CStr "" /\ p = presence (snd e) /\ written t (snd e)) fs d.

  (** Descriptions that make no sense: somewhere, after things that do make sense, there is something that is
      no name, dictionary or class. *)
  Inductive senseless : nat -> cv -> Prop :=
  | SValue : forall n v, match v with
                         | CNone | CBool _ | CInt _ | CList _ | CTuple _ => True
                         | CObj o => qualname o = None
                         | _ => False
                         end -> senseless (S n) v
  | SList : forall n d, dget String.eqb d "type" = Some (CStr "list") -> senseless n (entry d "of" (CStr "")) -> senseless (S n) (CDict d)
  | SUnion : forall n d l ts x l', dget String.eqb d "type" = Some (CStr "union") ->
      entry d "of" (CList []) = CList (l ++ x :: l') \/ entry d "of" (CList []) = CTuple (l ++ x :: l') ->
      every (fun t => nesting t <= n) ts -> pairwise written ts l -> senseless n x -> senseless (S n) (CDict d)
  | SDict : forall n d, dget String.eqb d "type" = None -> senseless_dict n d -> senseless (S n) (CDict d)
  with senseless_dict : nat -> dict string cv -> Prop :=
  | SFields : forall n fs d k x d', nesting (TDict fs) <= S n -> NoDup (map fst d) -> written_dict fs d ->
      senseless n x -> senseless_dict n (d ++ (k, x) :: d').
End Writing.

(** ** The registry *)
(** descriptors without checkers that hold no others *)
Definition simple (d : desc) : Prop :=
  (exists m, d = DBasic [] [] m) \/ (exists m mt b, d = DRegexp [] [] m mt b).
(** the plain names are registered with descriptors that do what [prim] says, *)
Definition knows (reg : registry) (prim : string -> cv -> res cv) : Prop :=
  forall n, In n (plain_entries reg) -> ~ special n ->
  exists d, dget String.eqb (lookup reg) n = Some (plain_class d) /\ simple d /\ forall v, fst (call 1 d v) = prim n v.
(** and the special ones with the classes that come with satella *)
Definition standard (reg : registry) (contents : cv -> cv -> cv -> res cv) : Prop :=
  dget String.eqb (lookup reg) "list" = Some list_class /\
  dget String.eqb (lookup reg) "caster" = Some caster_class /\
  dget String.eqb (lookup reg) "union" = Some union_class /\
  dget String.eqb (lookup reg) "file_contents" = Some (file_contents_class contents).

(** what the names that come with satella mean *)
Definition as_bool (v : cv) : res cv :=
  match v with
  | CStr s => if String.eqb (upper s) "TRUE" then Ok (CBool true)
              else if String.eqb (upper s) "FALSE" then Ok (CBool false) else Err ConfigurationValidationError
  | _ => Ok (CBool (truthy v))
  end.
Definition builtin_meaning (k : makers) (n : string) (v : cv) : res cv :=
  if String.eqb n "any" then Ok v
  else if String.eqb n "bool" then as_bool v
  else if String.eqb n "int" then converted (to_int k v)
  else if String.eqb n "float" then converted (to_float k v)
  else if String.eqb n "str" then converted (to_str k v)
  else if String.eqb n "file" then converted (to_file k v)
  else if String.eqb n "dir" then converted (to_dir k v)
  else match converted (to_str k v) with                 (* ipv4 *)
       | Ok w => match ipv4_matches k w with Some g => Ok g | None => Err AttributeError end
       | Err e => Err e
       end.
