(** Dumping uncaught exceptions (satella/exception_handling/dump_to_file.py).

    A report is written as one piece (the code writes it line by line). Loggers do not fail. *)
From Verif Require Import Prelude.
Set Implicit Arguments.

(** files: by name, or in a directory under a name made up (a number never used before) *)
Inductive path := Name (n : nat) | Within (dir uuid : nat).
Definition path_eqb (p q : path) : bool :=
  match p, q with
  | Name a, Name b => Nat.eqb a b
  | Within a b, Within c d => Nat.eqb a c && Nat.eqb b d
  | _, _ => false
  end.
(** what a report is about: the exception in progress, or nothing but the stack of the handler itself
    (instrumentation/trace_back/trace_back.py:65-70: without an exception in progress it takes the current frame) *)
Inductive content := Report (about : option exn) | Pickled (about : option exn).
Definition is_text (c : content) : bool := match c with Report _ => true | Pickled _ => false end.

(** what may be given: a name of a file, of a directory, an object with write(), a logger, a logger with a level, None,
    anything else; or an AsStream made by the user *)
Inductive mode := MFile (p : path) | MStream (s : nat) | MDevnull | MLogger (l level : nat).
Record as_stream := { mode_of : mode; human_readable : bool }.
Inductive given := GFile (n : nat) | GDir (n : nat) | GStream (s : nat) | GLogger (l : nat) | GLevel (l level : nat) | GNone | GOther
                 | GReady (a : as_stream).
Definition ERROR : nat := 40.
(** dump_to_file.py:41-60; [uuid]: the name made up for it *)
Definition make (hr : bool) (uuid : nat) (g : given) : res as_stream :=
  match g with
  | GFile n => Ok {| mode_of := MFile (Name n); human_readable := hr |}
  | GDir d => Ok {| mode_of := MFile (Within d uuid); human_readable := hr |}
  | GLevel l v => Ok {| mode_of := MLogger l v; human_readable := hr |}
  | GLogger l => Ok {| mode_of := MLogger l ERROR; human_readable := hr |}
  | GStream s => Ok {| mode_of := MStream s; human_readable := hr |}
  | GNone => Ok {| mode_of := MDevnull; human_readable := hr |}
  | GOther => Err TypeError
  | GReady a => Ok a
  end.
Fixpoint make_all (hr : bool) (uuid : nat) (gs : list given) : res (list as_stream) :=
  match gs with
  | [] => Ok []
  | g :: t => match make hr uuid g with
              | Ok a => match make_all hr (S uuid) t with Ok l => Ok (a :: l) | Err e => Err e end
              | Err e => Err e
              end
  end.
Record handler := { hr : list as_stream; tb : list as_stream }.
(** dump_to_file.py:99-106 *)
Definition new_handler (uuid : nat) (human_readables trace_pickles : list given) : res handler :=
  match make_all true uuid human_readables with
  | Err e => Err e
  | Ok h => match make_all false (uuid + length human_readables) trace_pickles with Ok t => Ok {| hr := h; tb := t |} | Err e => Err e end
  end.

Record world := { files : path -> option (list content); streams : nat -> list content; logs : nat -> list (nat * option exn) }.
(** what goes wrong with the operating system and with the user's objects, now *)
Record trouble := { open_ : path -> option exn; write_ : nat -> bool (* text *) -> option exn; flush_ : nat -> option exn }.

(** one target: with q as f: f.write(...), dump_to_file.py:62-80 *)
Definition write_to (t : trouble) (w : world) (a : as_stream) (c : content) : world * option exn :=
  match mode_of a with
  | MFile p =>
    match open_ t p with
    | Some e => (w, Some e)
    | None => let put l := {| files := fun q => if path_eqb q p then Some l else files w q; streams := streams w; logs := logs w |} in
              if Bool.eqb (human_readable a) (is_text c) then (put [c], None) else (put [], Some TypeError)
    end
  | MStream s =>
    let '(w', e) := match write_ t s (is_text c) with
                    | Some e => (w, Some e)
                    | None => ({| files := files w; streams := fun x => if Nat.eqb x s then streams w x ++ [c] else streams w x; logs := logs w |}, None)
                    end in
    match flush_ t s with
    | None | Some AttributeError => (w', e)
    | Some e' => (w', Some e')
    end
  | MDevnull => (w, if is_text c then None else Some TypeError)      (* files.py:129-132 *)
  | MLogger _ _ => (w, Some AttributeError)                           (* dump_to_file.py:62-71: f is None *)
  end.
Definition log_to (w : world) (l level : nat) (about : option exn) : world :=
  {| files := files w; streams := streams w; logs := fun x => if Nat.eqb x l then logs w x ++ [(level, about)] else logs w x |}.

(** dump_to_file.py:115-121 *)
Fixpoint reports (t : trouble) (w : world) (l : list as_stream) (about : option exn) : world * option exn :=
  match l with
  | [] => (w, None)
  | a :: r =>
    let '(w', e) := match mode_of a with
                    | MLogger lg level => (log_to w lg level about, None)
                    | _ => write_to t w a (Report about)
                    end in
    match e with None => reports t w' r about | Some e => (w', Some e) end
  end.
(** dump_to_file.py:123-125 *)
Fixpoint pickles (t : trouble) (w : world) (l : list as_stream) (about : option exn) : world * option exn :=
  match l with
  | [] => (w, None)
  | a :: r => match write_to t w a (Pickled about) with (w', None) => pickles t w' r about | (w', Some e) => (w', Some e) end
  end.
(** dump_to_file.py:108-125: the answer is None, so the exception goes to the next handlers *)
Definition handle (t : trouble) (h : handler) (w : world) (in_progress : option exn) : world * res bool :=
  match reports t w (hr h) in_progress with
  | (w', Some e) => (w', Err e)
  | (w', None) => match pickles t w' (tb h) in_progress with (w'', Some e) => (w'', Err e) | (w'', None) => (w'', Ok false) end
  end.
(** Where the exception was not caught. In a thread handlers are called while it is in progress (global_eh.py:76-80); for the main
    thread the interpreter calls sys.excepthook with no exception in progress. *)
Inductive uncaught := InThread (e : exn) | InMain (e : exn).
Definition in_progress (u : uncaught) : option exn := match u with InThread e => Some e | InMain _ => None end.
Definition run (h : handler) (w : world) (us : list (trouble * uncaught)) : world :=
  fold_left (fun w u => fst (handle (fst u) h w (in_progress (snd u)))) us w.
