(** What configuration read from files, directories, environment variables and descriptions should be. *)
From Coq Require Import List Bool Arith ZArith.
From Verif Require Import Prelude Sources_Model FileSrc_Model.
Import ListNotations.
Open Scope nat_scope.

(** ** One file and the formats *)

(** Errors that mean "this is not written in this format": type, value and lookup errors (a ConfigurationValidationError is a value error), and those the format's parser is known for. *)
Definition complaint (f : format) (e : exn) : Prop := e = TypeError \/ e = ValueError \/ e = IndexError \/ e = KeyError \/ e = ConfigurationValidationError \/ extra_exception f e = true.

Definition text_of (decode : bytes -> res bytes) (f : format) (data : bytes) : res tree :=
  match decode data with Ok text => transform f text | Err e => Err e end.

Definition understands decode (data : bytes) (f : format) (d : list (Z * tree)) : Prop := text_of decode f data = Ok (TDict d).
Definition rejects decode (data : bytes) (f : format) : Prop :=
  match text_of decode f data with Ok (TDict _) => False | Ok _ => True | Err e => e = ConfigurationError \/ complaint f e end.
Definition breaks decode (data : bytes) (f : format) (e : exn) : Prop := text_of decode f data = Err e /\ e <> ConfigurationError /\ ~ complaint f e.

(** What is at the end of a path of names. *)
Fixpoint at_names (t : fs) (names : list nat) : option fs :=
  match names, t with
  | [], _ => Some t
  | n :: rest, FDir es => match find (fun e => fst e =? n) es with Some (_, t') => at_names t' rest | None => None end
  | _, _ => None
  end.
(** An absolute path starts at the root, another one at the working directory. *)
Definition whole (cwd : list nat) (p : path) : list nat := if absolute p then parts p else cwd ++ parts p.

(** ** Directories *)

(** No two entries of a directory have the same name. *)
Fixpoint names_distinct (t : fs) : Prop :=
  match t with
  | FDir es => NoDup (map fst es) /\ (fix all (es : list (nat * fs)) := match es with [] => True | (_, t') :: r => names_distinct t' /\ all r end) es
  | _ => True
  end.
Fixpoint height (t : fs) : nat :=
  match t with FDir es => S ((fix m (es : list (nat * fs)) := match es with [] => 0 | (_, t') :: r => Nat.max (height t') (m r) end) es) | _ => 1 end.

Definition absolute_path (names : list nat) : path := {| absolute := true; parts := names |}.

(** The files to be read under a directory called dir: those that, along with every directory on the way, the filter accepts; those in subdirectories only if these are to be scanned. *)
Definition wanted (keep : path -> bool) (sub : bool) (dir : list nat) (t : fs) (names : list nat) : Prop :=
  (exists data, at_names t names = Some (FFile data)) /\ names <> [] /\ (sub = true \/ length names = 1) /\
  forall before rest, names = before ++ rest -> before <> [] -> keep (absolute_path (dir ++ before)) = true.
(** A directory to be read that cannot be. *)
Definition unreadable (keep : path -> bool) (sub : bool) (dir : list nat) (t : fs) (names : list nat) : Prop :=
  at_names t names = Some FLocked /\ sub = true /\ forall before rest, names = before ++ rest -> before <> [] -> keep (absolute_path (dir ++ before)) = true.

(** a path comes before another one in the order of listing *)
Fixpoint position (n : nat) (es : list (nat * fs)) : nat := match es with [] => 0 | (k, _) :: r => if k =? n then 0 else S (position n r) end.
Fixpoint listed_before (t : fs) (p q : list nat) : Prop :=
  match p, q, t with
  | a :: p', b :: q', FDir es => position a es < position b es \/ a = b /\ match find (fun e => fst e =? a) es with Some (_, t') => listed_before t' p' q' | None => False end
  | _, _, _ => False
  end.
Definition in_order (t : fs) (l : list (list nat)) : Prop := forall i j p q, nth_error l i = Some p -> nth_error l j = Some q -> i < j -> listed_before t p q.

(** ** Descriptions *)
Section Describes.
  Variables (is_source is_extra : nat -> bool).
  (** constructors and extra values that raise nothing *)
  Variables (works : nat -> list arg -> list (nat * arg) -> Prop) (evaluates : jv -> Prop).

  Definition reserved (k : nat) : bool := k <? 4.

  (** writing a source down, with "args" and "optional", or "arg" when it has one argument *)
  Fixpoint write (opt : bool) (s : src) : jv :=
    match s with
    | OptionalOf s' => write true s'
    | Built t args kwargs =>
      JDict ((0, JAtom t)
             :: match args with
                | [] => []
                | [a] => [(1, write_arg a)]
                | _ => [(2, JList ((fix all (l : list arg) := match l with [] => [] | a :: r => write_arg a :: all r end) args))]
                end
             ++ (if opt then [(3, JAtom 1)] else [])
             ++ (fix all (l : list (nat * arg)) := match l with [] => [] | (k, a) :: r => (k, write_arg a) :: all r end) kwargs)
    end
  with write_arg (a : arg) : jv :=
    match a with ALit v => v | AExtra _ v => v | ASource s => write false s end.

  (** Literals must not be dictionaries with a "type"; extra values have one of the extra types; keyword arguments have other names than the four words. *)
  Fixpoint writable (s : src) : Prop :=
    match s with
    | OptionalOf (OptionalOf _) => False
    | OptionalOf s' => writable s'
    | Built t args kwargs =>
      is_source t = true /\ works t args kwargs /\ NoDup (map fst kwargs) /\ Forall (fun kv => reserved (fst kv) = false) kwargs /\
      (fix all (l : list arg) := match l with [] => True | a :: r => writable_arg a /\ all r end) args /\
      (fix all (l : list (nat * arg)) := match l with [] => True | (_, a) :: r => writable_arg a /\ all r end) kwargs
    end
  with writable_arg (a : arg) : Prop :=
    match a with
    | ALit (JDict d) => dget Nat.eqb d 0 = None
    | ALit _ => True
    | AExtra t (JDict d) => is_extra t = true /\ dget Nat.eqb d 0 = Some (JAtom t) /\ evaluates (JDict d)
    | AExtra _ _ => False
    | ASource s => match s with Built t _ _ | OptionalOf (Built t _ _) => is_extra t = false | _ => False end /\ writable s
    end.
End Describes.

Fixpoint jv_height (v : jv) : nat :=
  match v with
  | JAtom _ => 1
  | JList l => S ((fix m (l : list jv) := match l with [] => 0 | x :: r => Nat.max (jv_height x) (m r) end) l)
  | JDict d => S ((fix m (d : list (nat * jv)) := match d with [] => 0 | (_, x) :: r => Nat.max (jv_height x) (m r) end) d)
  end.
