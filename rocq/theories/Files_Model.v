(** Model of make_noncolliding_name, split, find_files, read_in_file, write_to_file, write_out_file_if_different and AutoflushFile
    (satella/files.py), on a POSIX system. A path is a list of characters. *)
From Coq Require Import Ascii String DecimalString.
From Verif Require Import Prelude.
Import ListNotations.
Open Scope list_scope.
Set Implicit Arguments.

Definition path := list ascii.
Definition sl : ascii := "/"%char.
Definition bs : ascii := Ascii.ascii_of_nat 92.
Definition dot : ascii := "."%char.
Definition colon : ascii := ":"%char.
Definition is (c d : ascii) : bool := Ascii.eqb c d.
Definition has (c : ascii) (p : path) : bool := existsb (fun d => is d c) p.

(** ** os.path (posixpath) of the standard library, which files.py relies on *)
(** p[:i], p[i:] with i = p.rfind('/') + 1 *)
Fixpoint cut_last (p : path) : path * path :=
  match p with
  | [] => ([], [])
  | c :: r => match cut_last r with
              | ([], t) => if is c sl then ([c], t) else ([], c :: t)
              | (h, t) => (c :: h, t)
              end
  end.
(** rstrip('/') *)
Fixpoint rstrip (p : path) : path :=
  match p with
  | [] => []
  | c :: r => match rstrip r with [] => if is c sl then [] else [c] | s => c :: s end
  end.
(** os.path.split *)
Definition os_split (p : path) : path * path :=
  let (h, t) := cut_last p in if forallb (fun c => is c sl) h then (h, t) else (rstrip h, t).
Definition ends_with_sl (p : path) : bool := match rev p with c :: _ => is c sl | [] => false end.
(** os.path.join of two *)
Definition join2 (a b : path) : path :=
  match b with
  | c :: _ => if is c sl then b else match a with [] => b | _ => if ends_with_sl a then a ++ b else a ++ sl :: b end
  | [] => match a with [] => [] | _ => if ends_with_sl a then a else a ++ [sl] end
  end.
(** os.path.join of many *)
Definition join (l : list path) : path := match l with [] => [] | a :: more => fold_left join2 more a end.
(** str.split(sep) with one character *)
Fixpoint split_on (sep : ascii) (p : path) : list path :=
  match p with
  | [] => [[]]
  | c :: r => if is c sep then [] :: split_on sep r
              else match split_on sep r with w :: ws => (c :: w) :: ws | [] => [[c]] end
  end.
(** sep.join(list) *)
Fixpoint join_on (sep : ascii) (l : list path) : path :=
  match l with [] => [] | [w] => w | w :: ws => w ++ sep :: join_on sep ws end.
(** str(n) *)
Definition str_of (n : nat) : path := list_ascii_of_string (NilEmpty.string_of_uint (Nat.to_uint n)).

(** ** make_noncolliding_name *)
Section Noncolliding.
  Variable exists_checker : path -> bool.
  (** files.py:202-205: the loop; None: [fuel] was not enough *)
  Fixpoint nc_loop (fuel : nat) (dir filename addition extension : path) (counter : nat) : option path :=
    match fuel with
    | O => None
    | S n => if exists_checker (join2 dir (filename ++ addition ++ extension))
             then nc_loop n dir filename (dot :: str_of (counter + 1)) extension (counter + 1)
             else Some (join2 dir (filename ++ addition ++ extension))
    end.
  (** files.py:193-205 *)
  Definition make_noncolliding_name (fuel : nat) (p : path) : option path :=
    let (dir, filename) := os_split p in
    if has dot filename then
      let parts := split_on dot filename in
      nc_loop fuel dir (join_on dot (removelast parts)) [] (dot :: last parts []) 0
    else nc_loop fuel dir filename [] [] 0.
End Noncolliding.

(** ** split *)
(** files.py:155-160 _has_separator *)
Definition has_separator (p : path) : bool :=
  match p with
  | [_; c; d] => if is c colon && (is d sl || is d bs) then false else has sl p || has bs p
  | _ => has sl p || has bs p
  end.
(** files.py:217-219; None: [fuel] was not enough *)
Fixpoint split_loop (fuel : nat) (data : list path) : option (list path) :=
  match fuel with
  | O => None
  | S n => match data with
           | h :: r => if has_separator h then let (a, b) := os_split h in split_loop n (a :: b :: r) else Some data
           | [] => Some []
           end
  end.
(** files.py:216-219 split *)
Definition split (fuel : nat) (p : path) : option (list path) := let (a, b) := os_split p in split_loop fuel [a; b].

(** ** find_files *)
(** what is in a directory, in the order of os.listdir *)
Inductive entry : Type := EFile (name : path) | EDir (name : path) (inside : list entry).
(** files.py:327-332 _cond_join *)
Definition cond_join (prefix : option path) (filename : path) : path :=
  match prefix with None => filename | Some p => join2 p filename end.
Section Find.
  (** re.match(wildcard, ...) *)
  Variable matches : path -> bool.
  (** files.py:372-377 *)
  Definition find_leaf (prefix : option path) (whole : bool) (filename : path) : list path :=
    if matches (if whole then cond_join prefix filename else filename) then [cond_join prefix filename] else [].
  (** files.py:365-377: one iteration of the loop. The call for a subdirectory passes neither scan_subdirectories nor
      apply_wildcard_to_entire_path. *)
  Fixpoint find_in (scan whole : bool) (prefix : option path) (e : entry) : list path :=
    match e with
    | EDir filename inside =>
      if scan then flat_map (find_in true false (Some (cond_join prefix filename))) inside else find_leaf prefix whole filename
    | EFile filename => find_leaf prefix whole filename
    end.
  (** files.py:362-377 find_files *)
  Definition find_files (p : path) (inside : list entry) (prefix_with : option path) (scan whole prefix_with_path : bool) : list path :=
    let prefix := if prefix_with_path then Some (cond_join prefix_with p) else prefix_with in
    flat_map (find_in scan whole prefix) inside.
End Find.

(** ** Reading and writing files *)
(** what is under a path: nothing, nothing and no directory to put it in, a directory, a file *)
Inductive node (B : Type) : Type := Absent | Nowhere | Directory | File (content : list B) (readable writable : bool).
Arguments Absent {B}.
Arguments Nowhere {B}.
Arguments Directory {B}.
Inductive ferr : Type := FileNotFound | IsADirectory | PermissionDenied | DecodeError | EncodeError.
Inductive fres (A : Type) : Type := FOk (x : A) | FErr (e : ferr).
Arguments FErr {A} e.
Section ReadWrite.
  Variables P B D : Type.
  Variable peqb : P -> P -> bool.
  Variable deqb : D -> D -> bool.
  (** the encoding; without one, D is bytes and both are the identity *)
  Variable encode : D -> option (list B).
  Variable decode : list B -> option D.
  Definition fs := P -> node B.
  Definition put (f : fs) (p : P) (x : node B) : fs := fun q => if peqb p q then x else f q.
  (** files.py:259-277 read_in_file without a default *)
  Definition read_in_file (f : fs) (p : P) : fres D :=
    match f p with
    | Directory => FErr FileNotFound
    | Absent | Nowhere => FErr FileNotFound
    | File c r _ => if r then match decode c with Some d => FOk d | None => FErr DecodeError end else FErr PermissionDenied
    end.
  (** files.py:231-239 write_to_file: what it raises, and the states that the file system goes through, the last one being final. Opening
      truncates; [cuts]: how much of the data gets written at a time. *)
  Definition write_to_file (cuts : list nat) (f : fs) (p : P) (d : D) : fres unit * list fs :=
    let over r := match encode d with
                  | Some bytes => (FOk tt, put f p (File [] r true) :: map (fun k => put f p (File (firstn k bytes) r true)) cuts
                                             ++ [put f p (File bytes r true)])
                  | None => (FErr EncodeError, [put f p (File [] r true)])
                  end in
    match f p with
    | Absent => over true
    | File _ r true => over r
    | File _ _ false => (FErr PermissionDenied, [])
    | Directory => (FErr IsADirectory, [])
    | Nowhere => (FErr FileNotFound, [])
    end.
  Definition and_true (r : fres unit * list fs) : fres bool * list fs :=
    match r with (FOk _, l) => (FOk true, l) | (FErr e, l) => (FErr e, l) end.
  (** files.py:400-408 write_out_file_if_different. A FileNotFoundError of the first write would be met by a second one, but the file
      was there to be read. *)
  Definition write_out_file_if_different (cuts : list nat) (f : fs) (p : P) (d : D) : fres bool * list fs :=
    match read_in_file f p with
    | FOk d' => if deqb d' d then (FOk false, []) else and_true (write_to_file cuts f p d)
    | FErr FileNotFound => and_true (write_to_file cuts f p d)
    | FErr e => (FErr e, [])
    end.
End ReadWrite.

(** ** AutoflushFile *)
Section Autoflush.
  Variable B : Type.
  Variable zero : B.
  Inductive amode : Type := MW | MWB | MWPlus | MWBPlus | MA | MAB | MAPlus | MABPlus | MOther.
  (** the open file: where in it we are *)
  Record auto : Type := mk_auto { disk : list B; handle : option nat; closed : bool; can_read : bool }.
  (** [AElse c]: somebody else replaces the content of the file *)
  Inductive aop : Type := AWrite (d : list B) | ARead | ASeek (k : nat) | ATruncate (size : option nat) | AClose | AElse (c : list B).
  Inductive aout : Type := ACount (n : nat) | AData (d : list B) | ANone | ARaised (e : exn).
  (** files.py:441-465 __init__: writing modes truncate, and every mode is mapped to appending *)
  Definition auto_open (m : amode) (c : list B) : res auto :=
    match m with
    | MW | MWB => Ok (mk_auto [] None false false)
    | MWPlus | MWBPlus => Ok (mk_auto [] None false true)
    | MA | MAB => Ok (mk_auto c None false false)
    | MAPlus | MABPlus | MOther => Err ValueError
    end.
  (** files.py:506-513 _open_file: in append mode the position is the end *)
  Definition open_file (s : auto) : auto :=
    match handle s with Some _ => s | None => mk_auto (disk s) (Some (length (disk s))) (closed s) (can_read s) end.
  (** files.py:515-521 _close_file *)
  Definition close_file (s : auto) : auto := mk_auto (disk s) None (closed s) (can_read s).
  Definition at_pos (s : auto) : nat := match handle s with Some k => k | None => 0 end.
  (** files.py:467-551: each method raises ValueError if closed, opens the file, does its thing and closes the file. ARead without the
      right to read raises io.UnsupportedOperation, a ValueError. *)
  Definition auto_step (s : auto) (op : aop) : aout * auto :=
    match op with
    | AElse c => (ANone, mk_auto c (handle s) (closed s) (can_read s))
    | _ =>
      if closed s then (ARaised ValueError, s) else
      match op with
      | AClose => (ANone, close_file (mk_auto (disk s) (handle s) true (can_read s)))
      | AWrite d => let o := open_file s in
                    (ACount (length d), close_file (mk_auto (disk o ++ d) (Some (length (disk o ++ d))) (closed o) (can_read o)))
      | ARead => let o := open_file s in
                 if can_read o then (AData (skipn (at_pos o) (disk o)), close_file o) else (ARaised ValueError, close_file o)
      | ASeek k => let o := open_file s in (ACount k, close_file (mk_auto (disk o) (Some k) (closed o) (can_read o)))
      | ATruncate size =>
        let o := open_file s in
        let n := match size with Some n => n | None => at_pos o end in
        (ACount n, close_file (mk_auto (firstn n (disk o) ++ repeat zero (n - length (disk o))) (handle o) (closed o) (can_read o)))
      | AElse _ => (ANone, s)
      end
    end.
  (** the answers, each with what is on disk afterwards *)
  Fixpoint auto_run (s : auto) (ops : list aop) : list (aout * list B) :=
    match ops with [] => [] | op :: more => let (o, s') := auto_step s op in (o, disk s') :: auto_run s' more end.
End Autoflush.
Arguments ARead {B}.
Arguments ASeek {B} k.
Arguments ATruncate {B} size.
Arguments AClose {B}.
Arguments ACount {B} n.
Arguments ANone {B}.
Arguments ARaised {B} e.
