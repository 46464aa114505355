(** SingleStartThread and BogusTerminableThread (satella/coding/concurrent/thread.py:145-225). *)
From Verif Require Import Prelude.
Set Implicit Arguments.

(** ** SingleStartThread.start, called by many threads at once. Each call has a number. threading.Thread.start looks at
    whether the thread runs already, makes a thread, and waits until it runs. *)
Inductive reply := Self | Nothing | Raised (e : exn).
Inductive pc := Before | SawFalse | SetFlag | SawNotRunning | Launched | Back (r : reply).
Record sstate := { flag : bool; running : bool; launched : nat; at_ : nat -> pc }.
Definition sbegin : sstate := {| flag := false; running := false; launched := 0; at_ := fun _ => Before |}.
Definition move (s : sstate) (i : nat) (p : pc) : sstate :=
  {| flag := flag s; running := running s; launched := launched s; at_ := fun x => if Nat.eqb x i then p else at_ s x |}.
(** Turn i: call i goes on by one step; [can]: a new thread can be made (else RuntimeError). Boot: a thread that was made
    begins to run. *)
Inductive event := Turn (i : nat) (can : bool) | Boot.
Definition sstep (s : sstate) (e : event) : sstate :=
  match e with
  | Boot => if Nat.eqb (launched s) 0 then s else {| flag := flag s; running := true; launched := launched s; at_ := at_ s |}
  | Turn i can =>
    match at_ s i with
    | Before => if flag s then move s i (Back Nothing) else move s i SawFalse                 (* 162-163 *)
    | SawFalse => move {| flag := true; running := running s; launched := launched s; at_ := at_ s |} i SetFlag   (* 164 *)
    | SetFlag => if running s then move s i (Back (Raised RuntimeError)) else move s i SawNotRunning             (* 165 *)
    | SawNotRunning => if can then move {| flag := flag s; running := running s; launched := S (launched s); at_ := at_ s |} i Launched
                       else move s i (Back (Raised RuntimeError))
    | Launched => if running s then move s i (Back Self) else s                               (* 166 *)
    | Back _ => s
    end
  end.
Definition srun (s : sstate) (es : list event) : sstate := fold_left sstep es s.

(** ** BogusTerminableThread, thread.py:169-225 *)
Record bogus := { started : bool; terminated : bool }.
Definition bnew : bogus := {| started := false; terminated := false |}.
(** thread.py:184-188 *)
Definition is_alive (b : bogus) : bool := negb (terminated b) && started b.
(** thread.py:190-199 *)
Definition start (b : bogus) : bogus * res unit :=
  if terminated b then (b, Err RuntimeError) else if started b then (b, Err RuntimeError)
  else ({| started := true; terminated := terminated b |}, Ok tt).
(** thread.py:201-208 *)
Definition terminate (b : bogus) : bogus := {| started := started b; terminated := true |}.
(** thread.py:210-225. A poll: how long it has waited by the clock, and whether another thread terminates it in the second
    that follows. [None]: it waits still. *)
Fixpoint waiting (timeout : Z) (polls : list (Z * bool)) (b : bogus) : bogus * option (res unit) :=
  match polls with
  | [] => (b, None)
  | (elapsed, t) :: r =>
    if (elapsed <? timeout)%Z && negb (terminated b) then waiting timeout r (if t then terminate b else b)
    else (b, Some (if terminated b then Ok tt else Err WouldWaitMore))
  end.
Definition join (timeout : option Z) (polls : list (Z * bool)) (b : bogus) : bogus * option (res unit) :=
  if negb (terminated b) && negb (started b) then (b, Some (Err RuntimeError))
  else if terminated b then (b, Some (Ok tt))
  else match timeout with None => (b, Some (Err TypeError)) | Some w => waiting w polls b end.
Inductive bop := Start | Terminate | Join (timeout : option Z) (polls : list (Z * bool)).
Definition bstep (b : bogus) (o : bop) : bogus :=
  match o with Start => fst (start b) | Terminate => terminate b | Join w p => fst (join w p b) end.
Definition brun (ops : list bop) : bogus := fold_left bstep ops bnew.
