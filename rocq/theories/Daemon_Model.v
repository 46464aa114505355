(** Becoming a daemon (satella/os/daemon.py:23-94), on a POSIX system. *)
From Verif Require Import Prelude.
Set Implicit Arguments.

(** a process: its number, its parent, session and process group, the mask for new files, whether its working
    directory is the root; users and groups, real, effective and saved *)
Record proc := { pid : nat; parent : nat; session : nat; group : nat; umask : nat; at_root : bool;
                 ruid : nat; euid : nat; suid : nat; rgid : nat; egid : nat; sgid : nat }.
(** sys.stdin, sys.stdout and sys.stderr *)
Inductive stream := Opened | Closed | DevNull.
Record image := { me : proc; std : stream; (* all three alike *) failure : option exn }.

Definition init_pid : nat := 1.
Definition child_of (p : proc) (n : nat) : proc :=
  {| pid := n; parent := pid p; session := session p; group := group p; umask := umask p; at_root := at_root p;
     ruid := ruid p; euid := euid p; suid := suid p; rgid := rgid p; egid := egid p; sgid := sgid p |}.
Definition adopted (p : proc) : proc :=
  {| pid := pid p; parent := init_pid; session := session p; group := group p; umask := umask p; at_root := at_root p;
     ruid := ruid p; euid := euid p; suid := suid p; rgid := rgid p; egid := egid p; sgid := sgid p |}.
Definition with_umask (p : proc) (m : nat) : proc :=
  {| pid := pid p; parent := parent p; session := session p; group := group p; umask := m; at_root := at_root p;
     ruid := ruid p; euid := euid p; suid := suid p; rgid := rgid p; egid := egid p; sgid := sgid p |}.
(** setsid(2): a leader of a process group may not *)
Definition setsid (p : proc) : res proc :=
  if Nat.eqb (pid p) (group p) then Err OSErrorExn
  else Ok {| pid := pid p; parent := parent p; session := pid p; group := pid p; umask := umask p; at_root := at_root p;
             ruid := ruid p; euid := euid p; suid := suid p; rgid := rgid p; egid := egid p; sgid := sgid p |}.
Definition chdir_root (p : proc) : proc :=
  {| pid := pid p; parent := parent p; session := session p; group := group p; umask := umask p; at_root := true;
     ruid := ruid p; euid := euid p; suid := suid p; rgid := rgid p; egid := egid p; sgid := sgid p |}.
(** seteuid(2), setegid(2): the superuser may, others only to their real and saved ones *)
Definition seteuid (p : proc) (u : nat) : res proc :=
  if Nat.eqb (euid p) 0 || Nat.eqb u (ruid p) || Nat.eqb u (suid p)
  then Ok {| pid := pid p; parent := parent p; session := session p; group := group p; umask := umask p; at_root := at_root p;
             ruid := ruid p; euid := u; suid := suid p; rgid := rgid p; egid := egid p; sgid := sgid p |}
  else Err OSErrorExn.
Definition setegid (p : proc) (g : nat) : res proc :=
  if Nat.eqb (euid p) 0 || Nat.eqb g (rgid p) || Nat.eqb g (sgid p)
  then Ok {| pid := pid p; parent := parent p; session := session p; group := group p; umask := umask p; at_root := at_root p;
             ruid := ruid p; euid := euid p; suid := suid p; rgid := rgid p; egid := g; sgid := sgid p |}
  else Err OSErrorExn.

(** a user or group: by number or by name *)
Inductive who := ByNumber (n : nat) | ByName (name : nat).
(** the user data base; grp has no getpwnam (its function is getgrnam), so [None] there: an AttributeError *)
Definition db := nat -> option nat.

(** daemon.py:65-70 *)
Definition parse_ug (w : option who) (module : option db) (osfun : proc -> nat -> res proc) (p : proc) : res proc :=
  match w with
  | None => Ok p
  | Some (ByNumber n) => osfun p n
  | Some (ByName name) =>
    match module with
    | None => Err AttributeError
    | Some d => match d name with Some n => osfun p n | None => Err KeyError end
    end
  end.

Section Daemonize.
  Variable exits : bool.                 (* exit_via ends the process *)
  Variable users : db.
  (** 56-62, after the forks *)
  Definition settle (redirect : bool) (uid gid : option who) (p : proc) : image :=
    let s := if redirect then DevNull else Closed in
    match parse_ug uid (Some users) seteuid p with
    | Err e => {| me := p; std := s; failure := Some e |}
    | Ok p1 => match parse_ug gid None setegid p1 with
               | Err e => {| me := p1; std := s; failure := Some e |}
               | Ok p2 => {| me := p2; std := s; failure := None |}
               end
    end.
  (** os.fork() > 0: exit_via(): what goes on afterwards; [n] is the new number *)
  Definition fork_exit (p : proc) (n : nat) : list proc := if exits then [adopted (child_of p n)] else [p; child_of p n].
  (** 90-94 and the rest, in one process; [n] its child's number *)
  Definition second (redirect : bool) (uid gid : option who) (p : proc) (n : nat) : list image :=
    match setsid p with
    | Err e => [{| me := p; std := Opened; failure := Some e |}]
    | Ok p' => map (fun q => settle redirect uid gid (chdir_root q)) (fork_exit p' n)
    end.
  (** daemon.py:52-62, 84-94: the processes that go on; [n1], [n2] and [n3] are the numbers of new ones *)
  Definition daemonize (redirect : bool) (uid gid : option who) (p : proc) (n1 n2 n3 : nat) : list image :=
    match fork_exit (with_umask p 0) n1 with
    | [c] => second redirect uid gid c n2
    | ps => flat_map (fun q => second redirect uid gid q (if Nat.eqb (pid q) n1 then n2 else n3)) ps
    end.
End Daemonize.
