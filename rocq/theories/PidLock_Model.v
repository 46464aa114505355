(** Model of PIDFileLock (satella/os/pidlock.py): processes that use one lock file, may die at any point and may be started again.

    Every process has one PIDFileLock on the path, and makes one call at a time. A system call is one step, and so is the writing of the
    PID, which the buffered file does when it is closed. The directory of the file exists and may be written to. *)
From Verif Require Import Prelude.
Set Implicit Arguments.

(** what the file has in it *)
Inductive content : Type := Empty | Pid (p : nat) | Garbage.
Inductive outcome : Type :=
| Acquired                       (** acquire() returned *)
| Locked (p : nat)               (** it raised ResourceLocked(p) *)
| Missing                        (** it, or release(), raised FileNotFoundError *)
| Released                       (** release() returned *)
| NotAcquired.                   (** release() raised RuntimeError *)
Inductive place : Type :=
| Idle                           (** not in a call *)
| Opening                        (** to create the file *)
| Reading                        (** it exists; to read it *)
| Looking (p : nat)              (** to look for this process *)
| Unlinking                      (** to remove the file which is not that of a process *)
| Writing (inode : nat)          (** to write the PID into the file it created *)
| Freeing.                       (** in release(), to remove the file *)
(** held: file_no is not None *)
Record process : Type := mk_process { alive : bool; held : bool; at_ : place; log : list outcome }.
(** the file, if there is one, and its inode; processes by PID *)
Record system : Type := mk_system { file : option (nat * content); next_inode : nat; procs : nat -> process }.

Definition goto (x : process) (p : place) : process := mk_process (alive x) (held x) p (log x).
Definition finish (x : process) (h : bool) (o : outcome) : process := mk_process (alive x) h Idle (log x ++ [o]).
Definition set_proc (s : system) (p : nat) (x : process) : system := mk_system (file s) (next_inode s) (fun q => if Nat.eqb q p then x else procs s q).
Definition set_file (s : system) (f : option (nat * content)) : system := mk_system f (next_inode s) (procs s).

(** pidlock.py:51-79 acquire, after the call; pidlock.py:41-49 release, after the test *)
Definition turn (s : system) (p : nat) : system :=
  let x := procs s p in
  if negb (alive x) then s else
  match at_ x with
  | Idle => s
  | Opening =>
    match file s with
    | None => set_proc (mk_system (Some (next_inode s, Empty)) (S (next_inode s)) (procs s)) p (mk_process (alive x) true (Writing (next_inode s)) (log x))
    | Some _ => set_proc s p (goto x Reading)
    end
  | Reading =>
    match file s with
    | None => set_proc s p (finish x (held x) Missing)
    | Some (_, Pid q) => set_proc s p (goto x (Looking q))
    | Some (_, _) => set_proc s p (goto x Unlinking)
    end
  | Looking q => if alive (procs s q) then set_proc s p (finish x (held x) (Locked q)) else set_proc s p (goto x Unlinking)
  | Unlinking =>
    match file s with
    | None => set_proc s p (finish x (held x) Missing)
    | Some _ => set_proc (set_file s None) p (goto x Opening)
    end
  | Writing i =>
    let f := match file s with Some (j, c) => Some (j, if Nat.eqb i j then Pid p else c) | None => None end in
    set_proc (set_file s f) p (finish x true Acquired)
  | Freeing =>
    match file s with
    | None => set_proc s p (finish x (held x) Missing)
    | Some _ => set_proc (set_file s None) p (finish x false Released)
    end
  end.
Inductive event : Type :=
| Acquire (p : nat) | Release (p : nat)  (** the process makes the call *)
| Turn (p : nat)                         (** and takes a step in it *)
| Crash (p : nat)                        (** it dies *)
| Start (p : nat).                       (** a process with this PID is started, if there is none *)
(** pidlock.py:32-40 __init__ (in a new process), pidlock.py:51 acquire, pidlock.py:41-47 release, pidlock.py:81-85 the context manager *)
Definition step (s : system) (e : event) : system :=
  match e with
  | Acquire p => let x := procs s p in
    match at_ x with Idle => if alive x then set_proc s p (goto x Opening) else s | _ => s end
  | Release p => let x := procs s p in
    match at_ x with
    | Idle => if alive x then set_proc s p (if held x then goto x Freeing else finish x false NotAcquired) else s
    | _ => s
    end
  | Turn p => turn s p
  | Crash p => let x := procs s p in set_proc s p (mk_process false false Idle (log x))
  | Start p => let x := procs s p in if alive x then s else set_proc s p (mk_process true false Idle (log x))
  end.
Fixpoint exec (s : system) (es : list event) : system := match es with [] => s | e :: rest => exec (step s e) rest end.
(** no file yet, and these processes *)
Definition start (running : nat -> bool) : system := mk_system None 0 (fun p => mk_process (running p) false Idle []).
