(** What PIDFileLock promises. *)
From Verif Require Import Prelude PidLock_Model.
Set Implicit Arguments.

(** the process lives, and has the lock: acquire() has returned and release() has not *)
Definition has_lock (s : system) (p : nat) : Prop :=
  alive (procs s p) = true /\ held (procs s p) = true /\ forall i, at_ (procs s p) <> Writing i.
Definition exclusive (s : system) : Prop := forall p q, has_lock s p -> has_lock s q -> p = q.
Definition busy (s : system) (p : nat) : Prop := alive (procs s p) = true /\ at_ (procs s p) <> Idle.
(** an execution in which everything before every event satisfies P *)
Definition throughout (P : system -> event -> Prop) (s : system) (es : list event) : Prop :=
  forall before e after, es = before ++ e :: after -> P (exec s before) e.
(** no process is in a call of acquire() or release() while another is *)
Definition one_at_a_time (s : system) (e : event) : Prop :=
  match e with Acquire p | Release p | Turn p => forall q, q <> p -> ~ busy s q | _ => True end.
(** no process dies, and none reads the file before the one that created it has written its PID there *)
Definition orderly (s : system) (e : event) : Prop :=
  match e with
  | Crash _ => False
  | Turn p => ~ (at_ (procs s p) = Reading /\ exists i, file s = Some (i, Empty))
  | _ => True
  end.
(** the file is that of a running process *)
Definition taken_by (s : system) (q : nat) : Prop := exists i, file s = Some (i, Pid q) /\ alive (procs s q) = true.
