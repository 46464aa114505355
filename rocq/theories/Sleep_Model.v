(** Sleeping (satella/time/misc.py:10-34) and waiting for a signal (satella/os/signals.py:6-47). *)
From Verif Require Import Prelude.
Set Implicit Arguments.

(** ** sleep. Times are since the start of the measurement (27). One turn of the loop of 28-33: what the clock says
    in 28 and in 30, how long time.sleep lasts, and whether it is ended by a KeyboardInterrupt. *)
Record turn := { test : Z; arg : Z; lasts : Z; interrupted : bool }.
(** how it ended, when, and what time.sleep was asked for; [None]: it sleeps still *)
Record slept := { ended : res bool; when_ : Z; asked : list Z }.
Fixpoint sleeping (y : Z) (abort : bool) (turns : list turn) (calls : list Z) : option slept :=
  match turns with
  | [] => None
  | t :: r =>
    if (test t <? y)%Z then
      let a := (y - arg t)%Z in
      if (a <? 0)%Z then Some {| ended := Err ValueError; when_ := arg t; asked := calls ++ [a] |}  (* time.sleep of less than 0 *)
      else if interrupted t && abort then Some {| ended := Ok false; when_ := (arg t + lasts t)%Z; asked := calls ++ [a] |}
      else sleeping y abort r (calls ++ [a])
    else Some {| ended := Ok true; when_ := test t; asked := calls |}
  end.
(** misc.py:24-34, [y] parsed *)
Definition sleep (y : Z) (abort : bool) (turns : list turn) : option slept :=
  if (y <? 0)%Z then Some {| ended := Ok false; when_ := 0%Z; asked := [] |} else sleeping y abort turns [].

(** ** hang_until_sig. Handlers are ours or others (with a number); [catchable]: signal.signal takes it. *)
Definition SIGTERM : nat := 15.
Definition SIGINT : nat := 2.
Inductive handler := Ours | Other (n : nat).
Record signals := { table : nat -> handler; end_ : bool }.
Definition install (s : signals) (sig : nat) (h : handler) : signals :=
  {| table := fun x => if Nat.eqb x sig then h else table s x; end_ := end_ s |}.
(** one turn of the loop of 39-40: the signals that come, while it sleeps; or a KeyboardInterrupt outside of the
    time.sleep in sleep(), which is not caught. One in time.sleep is caught there and only ends the turn. *)
Inductive poll := Came (sigs : list nat) | Interrupted.
(** signals.py:9-11; other handlers change nothing here *)
Definition deliver (s : signals) (sig : nat) : signals :=
  match table s sig with Ours => {| table := table s; end_ := true |} | Other _ => s end.

Inductive hung := Hangs (s : signals) | Returns (s : signals) (polls : nat) | Raises (s : signals).
Section Hang.
  Variable catchable : nat -> bool.
  (** 34-37, with the old handlers *)
  Fixpoint installs (s : signals) (sigs : list nat) (olds : list handler) : signals * option (list handler) :=
    match sigs with
    | [] => (s, Some olds)
    | sig :: r => if catchable sig then installs (install s sig Ours) r (olds ++ [table s sig]) else (s, None)
    end.
  Fixpoint restores (s : signals) (l : list (nat * handler)) : signals :=
    match l with [] => s | (sig, h) :: r => restores (install s sig h) r end.
  Fixpoint polling (s : signals) (polls : list poll) (n : nat) : hung :=
    if end_ s then Returns s n
    else match polls with
         | [] => Hangs s
         | Came sigs :: r => polling (fold_left deliver sigs s) r (S n)
         | Interrupted :: r => Raises s
         end.
  (** signals.py:14-47 *)
  Definition hang (extra : list nat) (s : signals) (polls : list poll) : hung :=
    let old_term := table s SIGTERM in
    match installs (install s SIGTERM Ours) extra [] with
    | (s1, None) => Raises s1
    | (s1, Some olds) =>
      match polling s1 polls 0 with
      | Returns s2 n => let s3 := restores (install s2 SIGTERM old_term) (combine extra olds) in
                        Returns {| table := table s3; end_ := false |} n
      | other => other
      end
    end.
End Hang.
