(** Looking for executables (satella/os/misc.py:10-57, on a POSIX system) and choosing at random (satella/random.py).
    What the file system and the random generator answer are parameters. *)
From Coq Require Import String Ascii.
From Verif Require Import Prelude.
Set Implicit Arguments.
Local Open Scope string_scope.
Open Scope list_scope.

Inductive os_error := Missing (* FileNotFoundError *) | NotADir (* NotADirectoryError *) | OtherOSError.
Inductive answer (A : Type) := Is (a : A) | Fails (e : os_error).
Arguments Is {A}. Arguments Fails {A}.
(** st_mode, without the bits for reading and writing *)
Record mode := { directory : bool; user_x : bool; group_x : bool; other_x : bool; set_uid : bool; set_gid : bool; sticky : bool }.
(** the letters of stat.filemode (of the Python library), with a dash for each r and w *)
Definition filemode (m : mode) : list ascii :=
  let letter (special x : bool) (with_x without : ascii) := if special then (if x then with_x else without) else (if x then "x" else "-")%char in
  [if directory m then "d" else "-"; "-"; "-"; letter (set_uid m) (user_x m) "s" "S"; "-"; "-"; letter (set_gid m) (group_x m) "s" "S";
   "-"; "-"; letter (sticky m) (other_x m) "t" "T"]%char.

(** str.split(':'): the parts, at least one *)
Fixpoint split_colon (s : string) : list string :=
  match s with
  | EmptyString => [""]
  | String c r => if Ascii.eqb c ":" then "" :: split_colon r
                  else match split_colon r with p :: t => String c p :: t | [] => [String c ""] end
  end.
(** os.path.join(directory, file), for a file name without slashes *)
Definition path_join (d f : string) : string :=
  match d with
  | EmptyString => f
  | _ => if String.eqb (substring (String.length d - 1) 1 d) "/" then d ++ f else d ++ "/" ++ f
  end%string.

Section Whereis.
  Variable path_variable : option string.          (* os.environ.get('PATH') *)
  Variable listdir : string -> answer (list string).
  Variable stat : string -> answer mode.
  (** what a generator yields, and the error it ends with, if any *)
  Definition found := (list string * option os_error)%type.
  (** misc.py:41-44 *)
  Definition safe_listdir (d : string) : list string * option os_error :=
    match listdir d with
    | Is l => (l, None)
    | Fails Missing | Fails NotADir => ([], None)
    | Fails OtherOSError => ([], Some OtherOSError)
    end.
  (** misc.py:49-57; the only extension is the empty one *)
  Fixpoint look (d name : string) (files : list string) (ends : option os_error) : found :=
    match files with
    | [] => ([], ends)
    | f :: r =>
      match stat (path_join d f) with
      | Fails Missing => look d name r ends
      | Fails e => ([], Some e)
      | Is m => let (l, e) := look d name r ends in
                if existsb (Ascii.eqb "x") (filemode m) && String.eqb f name then (path_join d f :: l, e) else (l, e)
      end
    end.
  (** misc.py:47-57 *)
  Definition whereis_in (d name : string) : found := let (files, e) := safe_listdir d in look d name files e.
  Fixpoint whereis_all (ds : list string) (name : string) : found :=
    match ds with
    | [] => ([], None)
    | d :: r => match whereis_in d name with
                | (l, Some e) => (l, Some e)
                | (l, None) => let (l', e) := whereis_all r name in (l ++ l', e)
                end
    end.
  (** misc.py:10-30 *)
  Definition whereis (name : string) : found :=
    whereis_all (split_colon (match path_variable with Some p => p | None => "" end)) name.
End Whereis.

(** ** random.py *)
Section Random.
  Variable T : Type.
  (** arg[i] for each index *)
  Fixpoint picks (a : list T) (is_ : list nat) : res (list T) :=
    match is_ with
    | [] => Ok []
    | i :: r => match nth_error a i with
                | Some x => match picks a r with Ok l => Ok (x :: l) | Err e => Err e end
                | None => Err IndexError
                end
    end.
  Fixpoint picks_all (args : list (list T)) (is_ : list nat) : res (list (list T)) :=
    match args with
    | [] => Ok []
    | a :: r => match picks a is_ with
                | Ok x => match picks_all r is_ with Ok l => Ok (x :: l) | Err e => Err e end
                | Err e => Err e
                end
    end.
  (** random.py:65-71; [shuffle] is what random.shuffle makes of the indices *)
  Definition shuffle_together (shuffle : list nat -> list nat) (args : list (list T)) : res (list (list T)) :=
    match args with
    | [] => Ok []
    | a :: _ => picks_all args (shuffle (seq 0 (length a)))
    end.
  (** random.py:31; [chosen]: the indices random.choice picks, each below the length of [choice]; of an empty choice
      it raises IndexError *)
  Definition random_word {R} (choice : list T) (join : list T -> R) (count : Z) (chosen : nat -> nat) : res R :=
    match picks choice (map (fun k => Nat.modulo (chosen k) (length choice)) (seq 0 (Z.to_nat count))) with
    | Ok l => Ok (join l)
    | Err e => Err e
    end.
End Random.
