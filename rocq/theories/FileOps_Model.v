(** More of satella/files.py, and the file functions of satella/json.py, on a POSIX system. *)
From Coq Require Import List Bool Arith.
From Verif Require Import Prelude.
Import ListNotations.
Open Scope nat_scope.

(** ** jump_to_directory *)
(** A path is absolute or relative to the working directory; its components are numbers. Components . and .. and symbolic links are left out. *)
Record path := { absolute : bool; parts : list nat }.
(** The working directory and all directories there are (the root always is one), and what each jump_to_directory object holds in prev_path. *)
Record cwd_state := { cwd : list nat; dirs : list (list nat); prev_of : nat -> option (list nat) }.
Definition parts_eqb (a b : list nat) : bool := if list_eq_dec Nat.eq_dec a b then true else false.
Definition is_dir (w : cwd_state) (d : list nat) : bool := match d with [] => true | _ => existsb (parts_eqb d) (dirs w) end.
Definition resolve (w : cwd_state) (p : path) : list nat := if absolute p then parts p else cwd w ++ parts p.
(** os.chdir *)
Definition chdir (w : cwd_state) (d : list nat) : res cwd_state :=
  if is_dir w d then Ok {| cwd := d; dirs := dirs w; prev_of := prev_of w |} else Err FileNotFound.
(** all non-empty beginnings of a path *)
Fixpoint beginnings (before d : list nat) : list (list nat) := match d with [] => [] | x :: t => (before ++ [x]) :: beginnings (before ++ [x]) t end.
(** os.makedirs(path, exist_ok=True); there are only directories *)
Definition makedirs (w : cwd_state) (d : list nat) : cwd_state := {| cwd := cwd w; dirs := beginnings [] d ++ dirs w; prev_of := prev_of w |}.
(** shutil.rmtree: the directory and all below *)
Fixpoint is_below (d e : list nat) : bool := match d, e with [], _ => true | x :: d', y :: e' => (x =? y) && is_below d' e' | _, _ => false end.
Definition rmtree (w : cwd_state) (d : list nat) : cwd_state := {| cwd := cwd w; dirs := filter (fun e => negb (is_below d e)) (dirs w); prev_of := prev_of w |}.

(** What a program does with directories; `with j: body` for the object number j, made for a path. *)
Inductive cmd := Jump (j : nat) (body : list cmd) | Chdir (p : path) | Makedirs (p : path) | Rmtree (p : path) | Raise (e : exn).

Section Jump.
  (** jump_to_directory.__init__, files.py 54-57: the path is kept as it is given, and made a directory at once. *)
  Variable path_of : nat -> path.
  Definition jump_init (w : cwd_state) (j : nat) : cwd_state := makedirs w (resolve w (path_of j)).
  Definition set_prev (w : cwd_state) (j : nat) (d : list nat) : cwd_state := {| cwd := cwd w; dirs := dirs w; prev_of := fun i => if i =? j then Some d else prev_of w i |}.
  (** __enter__, files.py 59-62; what had been done before os.chdir raised remains *)
  Definition jump_enter (w : cwd_state) (j : nat) : res unit * cwd_state :=
    let w1 := set_prev w j (cwd w) in
    match chdir w1 (resolve w1 (path_of j)) with Ok w2 => (Ok tt, w2) | Err e => (Err e, w1) end.
  (** __exit__, files.py 64-67; it returns False: the exception of the body goes on, unless os.chdir raises another one *)
  Definition jump_exit (w : cwd_state) (j : nat) (body : res unit) : res unit * cwd_state :=
    match prev_of w j with
    | None => (Err AssertionError, w)
    | Some d => match chdir w d with Ok w' => (body, w') | Err e => (Err e, w) end
    end.
  Fixpoint run_cmd (c : cmd) (w : cwd_state) : res unit * cwd_state :=
    let run_list := fix run_list (l : list cmd) (w : cwd_state) : res unit * cwd_state :=
      match l with [] => (Ok tt, w) | c :: t => let (r, w') := run_cmd c w in match r with Ok _ => run_list t w' | Err e => (Err e, w') end end in
    match c with
    | Jump j body =>
      let (r, w1) := jump_enter w j in
      match r with
      | Err e => (Err e, w1)
      | Ok _ => let (b, w2) := run_list body w1 in jump_exit w2 j b
      end
    | Chdir p => match chdir w (resolve w p) with Ok w' => (Ok tt, w') | Err e => (Err e, w) end
    | Makedirs p => (Ok tt, makedirs w (resolve w p))
    | Rmtree p => (Ok tt, rmtree w (resolve w p))
    | Raise e => (Err e, w)
    end.
  Fixpoint run_cmds (l : list cmd) (w : cwd_state) : res unit * cwd_state :=
    match l with [] => (Ok tt, w) | c :: t => let (r, w') := run_cmd c w in match r with Ok _ => run_cmds t w' | Err e => (Err e, w') end end.
End Jump.

(** ** DevNullFilelikeObject, files.py 70-152 *)
Inductive data := Text (s : list nat) | Bytes (b : list nat) | OtherData.
Inductive null_op := NTell | NTruncate | NWritable | NSeek (v : nat) | NSeekable | NRead (n : option nat) | NWrite (d : data) | NFlush | NClose | NExit.
Inductive null_out := NInt (n : nat) | NTrue | NData (d : data) | NNone | NRaise (e : exn).
Record null_file := { is_closed : bool; binary : bool }.
(** __init__, files.py 77-79 *)
Definition null_init (b : bool) : null_file := {| is_closed := false; binary := b |}.
Definition null_close (f : null_file) : null_file := {| is_closed := true; binary := binary f |}.
(** value_error_on_closed_file, files.py 25-38 *)
Definition when_open (f : null_file) (out : null_out) : null_file * null_out := if is_closed f then (f, NRaise ValueError) else (f, out).
Definition null_step (f : null_file) (o : null_op) : null_file * null_out :=
  match o with
  | NTell | NTruncate | NSeek _ => when_open f (NInt 0)                                       (* 81-93, 100-103 *)
  | NWritable | NSeekable => when_open f NTrue                                                (* 95-98, 105-108 *)
  | NRead _ => when_open f (NData (if binary f then Bytes [] else Text []))                   (* 110-116 *)
  | NWrite d => when_open f (match d with                                                     (* 118-133 *)
                             | Text s => if binary f then NRaise TypeError else NInt (length s)
                             | Bytes b => if binary f then NInt (length b) else NRaise TypeError
                             | OtherData => NRaise TypeError
                             end)
  | NFlush => when_open f NNone                                                               (* 135-139 *)
  | NClose | NExit => (null_close f, NNone)                                                   (* 141-152 *)
  end.
Fixpoint null_run (f : null_file) (ops : list null_op) : list null_out := match ops with [] => [] | o :: t => let (f', out) := null_step f o in out :: null_run f' t end.

(** ** read_lines *)
Section Lines.
  (** str.isspace of a character, and whether str.splitlines ends a line there; 13 and 10 are \r and \n *)
  Variables (is_space is_break : nat -> bool).
  (** str.splitlines(), as codecs.StreamReader.readlines uses it; line ends are cut off here, as strip() takes them away at once *)
  Fixpoint splitlines (current : list nat) (t : list nat) : list (list nat) :=
    match t with
    | [] => match current with [] => [] | _ => [rev current] end
    | c :: t' =>
      if is_break c
      then match t' with
           | d :: t'' => if (c =? 13) && (d =? 10) then rev current :: splitlines [] t'' else rev current :: splitlines [] t'
           | [] => [rev current]
           end
      else splitlines (c :: current) t'
    end.
  Fixpoint lstrip (t : list nat) : list nat := match t with [] => [] | c :: t' => if is_space c then lstrip t' else t end.
  Definition strip (t : list nat) : list nat := rev (lstrip (rev (lstrip t))).
  (** read_lines, files.py 163-181, after the file was decoded *)
  Definition read_lines (delete_empty_lines : bool) (t : list nat) : list (list nat) :=
    let lines := map strip (splitlines [] t) in
    if delete_empty_lines then filter (fun l => match l with [] => false | _ => true end) lines else lines.
End Lines.

(** ** read_re_sub_and_write, write_json_to_file and read_json_from_file, on one file *)
(** Universal newlines: what open(path, 'r') does with \r\n and \r when reading. *)
Fixpoint universal_newlines (t : list nat) : list nat :=
  match t with
  | [] => []
  | c :: t' => if c =? 13 then match t' with
                               | d :: t'' => if d =? 10 then 10 :: universal_newlines t'' else 10 :: universal_newlines t'
                               | [] => [10]
                               end
               else c :: universal_newlines t'
  end.
Section File.
  Variables (decode : list nat -> res (list nat)) (encode : list nat -> res (list nat)).
  (** content of the file; None: there is none *)
  Definition text_read (f : option (list nat)) : res (list nat) := match f with None => Err FileNotFound | Some b => res_map universal_newlines (decode b) end.
  (** open(path, 'w') empties the file; the text is encoded when written *)
  Definition text_write (t : list nat) : res unit * option (list nat) := match encode t with Ok b => (Ok tt, Some b) | Err e => (Err e, Some []) end.
  (** read_re_sub_and_write, files.py 280-300: sub is pattern.sub(repl, ...) *)
  Definition read_re_sub_and_write (sub : list nat -> res (list nat)) (f : option (list nat)) : res unit * option (list nat) :=
    match text_read f with
    | Err e => (Err e, f)
    | Ok t => match sub t with
              | Err e => (Err e, f)
              | Ok t' => text_write t'
              end
    end.
  (** write_json_to_file, satella/json.py 71-84: the file is open already when the value is encoded. *)
  Definition write_json_to_file (json : res (list nat)) (f : option (list nat)) : res unit * option (list nat) :=
    match json with Err e => (Err e, Some []) | Ok t => text_write t end.
  (** read_json_from_file, satella/json.py 105-124, with or without ujson: is_decode_error is json.decoder.JSONDecodeError *)
  Definition read_json_from_file {V} (ujson : bool) (loads : list nat -> res V) (is_decode_error : exn -> bool) (f : option (list nat)) : res V :=
    res_bind (text_read f) (fun t =>
      match loads t with
      | Ok v => Ok v
      | Err e => if ujson then Err e else if is_decode_error e then Err ValueError else Err e
      end).
End File.

(** ** try_unlink *)
(** What is at a path: nothing, a file, a symbolic link (to a directory or not), a directory. One may or may not be allowed to remove things from the directory they are in. *)
Inductive node := NFile (content : nat) | NLink (to_directory : bool) | NDir (writable : bool) (entries : list (nat * node)).
(** os.path.isdir follows links *)
Definition path_isdir (n : option node) : bool := match n with Some (NDir _ _) => true | Some (NLink d) => d | _ => false end.
(** os.unlink: of anything but a directory *)
Definition os_unlink (parent_writable : bool) (n : option node) : res unit * option node :=
  match n with
  | None => (Err FileNotFound, None)
  | Some (NDir w l) => (Err OSErrorExn, n)
  | Some _ => if parent_writable then (Ok tt, None) else (Err OSErrorExn, n)
  end.
(** shutil.rmtree below a directory: stops at the first thing it cannot remove *)
Fixpoint rm (parent_writable : bool) (n : node) : res unit * option node :=
  match n with
  | NFile _ | NLink _ => if parent_writable then (Ok tt, None) else (Err OSErrorExn, Some n)
  | NDir w entries =>
    let go := fix go (l : list (nat * node)) : res unit * list (nat * node) :=
      match l with
      | [] => (Ok tt, [])
      | (name, m) :: t => match rm w m with
                          | (Ok _, _) => go t
                          | (Err e, None) => (Err e, t)
                          | (Err e, Some m') => (Err e, (name, m') :: t)
                          end
      end in
    match go entries with
    | (Ok _, _) => if parent_writable then (Ok tt, None) else (Err OSErrorExn, Some (NDir w []))
    | (Err e, remaining) => (Err e, Some (NDir w remaining))
    end
  end.
(** shutil.rmtree: of a link it raises OSError *)
Definition shutil_rmtree (parent_writable : bool) (n : option node) : res unit * option node :=
  match n with
  | None => (Err FileNotFound, None)
  | Some (NLink d) => (Err OSErrorExn, n)
  | Some m => rm parent_writable m
  end.
(** try_unlink, files.py 303-324; silence_excs(OSError, returns=False) *)
Definition try_unlink (parent_writable : bool) (n : option node) : res bool * option node :=
  let (r, n') := if path_isdir n then shutil_rmtree parent_writable n else os_unlink parent_writable n in
  (match r with Ok _ => Ok true | Err FileNotFound | Err OSErrorExn => Ok false | Err e => Err e end, n').
