(** Calling a process and collecting what it prints (satella/processes.py:14-93).

    The process writes [out] to a pipe that holds [capacity] bytes and is blocked while it is full; then it exits.
    It is the only one to hold the writing end of the pipe. The thread of read_nowait and the calling thread take
    turns with it in any order. Failures of Popen and of the reading (which are silenced) are not modelled. *)
From Verif Require Import Prelude.
Set Implicit Arguments.

(** processes.py:30 *)
Definition read_size : nat := 2048.

Section Procs.
  Variables byte char : Type.
  Variable capacity : nat.
  Variable has_timeout : bool.                         (* timeout is not None *)
  Variable encoding : option (list byte -> res (list char)).   (* bytes.decode(encoding) *)
  Variable expected : option Z.                        (* expected_return_code *)

  Inductive answer := Bytes (l : list byte) | Chars (l : list char).
  Inductive outcome := Returned (a : answer) | Failed (code : Z) (a : answer) (* ProcessFailed *) | Raised (e : exn).

  Inductive caller := Waits                            (* proc.wait(timeout), 75-76 *)
                    | Joins (timed_out : bool)         (* fut.result(), 81-82 *)
                    | Done (o : outcome).
  Record state := {
    out : list byte;                                   (* still to be written *)
    pipe : list byte;
    code : option Z;                                   (* returncode, once it is over *)
    chunks : list (list byte); reading : bool;         (* stdout_list; the loop of 27-34 goes on *)
    calling : caller
  }.
  Definition started (output : list byte) : state :=
    {| out := output; pipe := []; code := None; chunks := []; reading := true; calling := Waits |}.

  Inductive move :=
  | Write (n : nat)          (* the process writes up to n bytes, as many as fit *)
  | Exit (c : Z)             (* the process, having written everything, exits *)
  | Read                     (* one turn of the loop of read_nowait *)
  | Call                     (* the calling thread goes on, if it can *)
  | Timeout.                 (* its timeout passes *)

  (** processes.py:87: each piece is decoded by itself *)
  Fixpoint decoded (dec : list byte -> res (list char)) (rows : list (list byte)) : res (list char) :=
    match rows with
    | [] => Ok []
    | r :: t => match dec r with
                | Ok c => match decoded dec t with Ok cs => Ok (c ++ cs) | Err e => Err e end
                | Err e => Err e
                end
    end.
  (** processes.py:84-93 *)
  Definition finish (rows : list (list byte)) (c : Z) : outcome :=
    let result := match encoding with
                  | None => Ok (Bytes (concat rows))
                  | Some dec => match decoded dec rows with Ok s => Ok (Chars s) | Err e => Err e end
                  end in
    match result with
    | Err e => Raised e
    | Ok a => match expected with
              | Some x => if Z.eqb c x then Returned a else Failed c a
              | None => Returned a
              end
    end.

  Definition step (s : state) (m : move) : state :=
    match m with
    | Write n =>
      match code s with
      | Some _ => s
      | None => let k := Nat.min n (capacity - length (pipe s)) in
                {| out := skipn k (out s); pipe := pipe s ++ firstn k (out s); code := None;
                   chunks := chunks s; reading := reading s; calling := calling s |}
      end
    | Exit c =>
      match code s, out s with
      | None, [] => {| out := []; pipe := pipe s; code := Some c; chunks := chunks s; reading := reading s; calling := calling s |}
      | _, _ => s
      end
    | Read =>                                                        (* 27-34 *)
      if reading s then
        match code s with
        | None => s                                                  (* 29: TimeoutExpired, silenced: nothing is read *)
        | Some _ =>
          match firstn read_size (pipe s) with
          | [] => {| out := out s; pipe := pipe s; code := code s; chunks := chunks s; reading := false; calling := calling s |}
          | line => {| out := out s; pipe := skipn read_size (pipe s); code := code s; chunks := chunks s ++ [line];
                       reading := true; calling := calling s |}
          end
        end
      else s
    | Call =>
      match calling s with
      | Waits => match code s with
                 | Some _ => {| out := out s; pipe := pipe s; code := code s; chunks := chunks s; reading := reading s; calling := Joins false |}
                 | None => s
                 end
      | Joins timed_out =>
        if reading s then s
        else {| out := out s; pipe := pipe s; code := code s; chunks := chunks s; reading := false;
                calling := Done (if timed_out then Raised TimeoutExn
                                 else match code s with Some c => finish (chunks s) c | None => Raised AssertionError end) |}
      | Done _ => s
      end
    | Timeout =>                                                     (* 77-80: kill, and wait *)
      match calling s, code s with
      | Waits, None => if has_timeout
                       then {| out := []; pipe := pipe s; code := Some (-9)%Z; chunks := chunks s; reading := reading s; calling := Joins true |}
                       else s
      | _, _ => s
      end
    end.
  Definition run (s : state) (ms : list move) : state := fold_left step ms s.
End Procs.
Arguments Returned {byte char}. Arguments Failed {byte char}. Arguments Raised {byte char}.
Arguments Bytes {byte char}. Arguments Chars {byte char}.
Arguments Waits {byte char}. Arguments Joins {byte char}. Arguments Done {byte char}.
