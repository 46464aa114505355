(** What a daemon is. *)
From Verif Require Import Prelude Daemon_Model.
Set Implicit Arguments.

(** a child of init, in a session of its own which it does not lead (it cannot get a terminal again), masking nothing,
    at the root, without standard streams *)
Definition detached (before : proc) (redirect : bool) (i : image) : Prop :=
  parent (me i) = init_pid /\ session (me i) <> session before /\ session (me i) <> pid (me i) /\ group (me i) = session (me i) /\
  umask (me i) = 0 /\ at_root (me i) = true /\ std i = (if redirect then DevNull else Closed).
(** the user or group asked for *)
Definition is_user (users : db) (w : option who) (before after : nat) : Prop :=
  match w with None => after = before | Some (ByNumber n) => after = n | Some (ByName x) => users x = Some after end.
