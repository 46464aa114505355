(** Subqueue (satella/coding/structures/queues.py) used by several threads. The threads are those of MetrThr_Model. A queue.Queue is an object
    with a number, whose put(), get() and qsize() are one step each (that is what queue.Queue is for); looking up and storing in the dictionary of
    queues are one step each as well. An iterator over a dictionary raises RuntimeError when the size of the dictionary is no longer what it was
    when the iteration began. Timeouts of get() are not modelled: block=True waits for ever. Numbers are lines of queues.py. *)
From Verif Require Import Prelude MetrThr_Model.
Set Implicit Arguments.

Section SubThr.
  Context {K V : Type}.
  Variable eqb : K -> K -> bool.

  (** 14-16: the dictionary of queues, what is in the queues, how many were made, and whether the monitor is held *)
  Record sub_state : Type := { names : dict K nat; content : nat -> list V; made : nat; locked : bool }.
  Definition no_queues : sub_state := {| names := []; content := fun _ => []; made := 0; locked := false |}.
  Definition set_lock (s : sub_state) b : sub_state := {| names := names s; content := content s; made := made s; locked := b |}.
  Definition set_content (s : sub_state) i l : sub_state := {| names := names s; content := put (content s) i l; made := made s; locked := locked s |}.

  (** put(k, v), get(k, block), get_any(), qsize() *)
  Inductive call : Type := Put (k : K) (v : V) | Get (k : K) (block : bool) | GetAny | Qsize.
  Inductive answer : Type := Nothing | Val (v : V) | Item (k : K) (v : V) | Num (n : nat).
  (** put or get of a queue *)
  Inductive todo_with : Type := ToPut (v : V) | ToGet (block : bool).
  Inductive code : Type :=
  | Find (k : K) (w : todo_with) | Lock (k : K) (w : todo_with) | Again (k : K) (w : todo_with) | Make (k : K) (w : todo_with) | Look (k : K) (w : todo_with)
  | Use (k : K) (w : todo_with) (i : nat)
  | YStart | YNext (n i : nat) | YTry (n i : nat) (k : K) (q : nat)                      (* get_any: the size of the dictionary, the position *)
  | QStart | QNext (n i acc : nat) | QSize (n i acc : nat) (k : K) (q : nat).            (* qsize *)
  Definition first (d : call) : code :=
    match d with
    | Put k v => Find k (ToPut v)       (* 27-31 *)
    | Get k b => Find k (ToGet b)       (* 34-38 *)
    | GetAny => YStart                  (* 45 *)
    | Qsize => QStart                   (* 41 *)
    end.
  Definition exec (a : code) (s : sub_state) : sub_state * next code answer :=
    match a with
    | Find k w => (s, Next (if dmem eqb (names s) k then Look k w else Lock k w))                                     (* 22 *)
    | Lock k w => if locked s then (s, Next (Lock k w)) else (set_lock s true, Next (Again k w))                      (* 23 *)
    | Again k w => if dmem eqb (names s) k then (set_lock s false, Next (Look k w)) else (s, Next (Make k w))         (* 24 *)
    | Make k w =>                                                                                                     (* 25 *)
      ({| names := dset eqb (names s) k (made s); content := put (content s) (made s) []; made := S (made s); locked := false |}, Next (Look k w))
    | Look k w => (s, match dget eqb (names s) k with Some i => Next (Use k w i) | None => Raised KeyError end)       (* 32, 39 *)
    | Use k (ToPut v) i => (set_content s i (content s i ++ [v]), Returned Nothing)                                   (* 32 *)
    | Use k (ToGet block) i =>                                                                                        (* 39 *)
      match content s i with
      | v :: l => (set_content s i l, Returned (Val v))
      | [] => (s, if block then Next (Use k (ToGet block) i) else Raised EmptyExn)
      end
    | YStart => (s, Next (YNext (length (names s)) 0))                                                                (* 54 *)
    | YNext n i =>                                                                                                    (* 54, 57-58 *)
      (s, if negb (Nat.eqb (length (names s)) n) then Raised RuntimeError
          else match nth_error (names s) i with Some (k, q) => Next (YTry n i k q) | None => Raised EmptyExn end)
    | YTry n i k q =>                                                                                                 (* 55-56 *)
      match content s q with
      | v :: l => (set_content s q l, Returned (Item k v))
      | [] => (s, Next (YNext n (S i)))
      end
    | QStart => (s, Next (QNext (length (names s)) 0 0))                                                              (* 43 *)
    | QNext n i acc =>
      (s, if negb (Nat.eqb (length (names s)) n) then Raised RuntimeError
          else match nth_error (names s) i with Some (k, q) => Next (QSize n i acc k q) | None => Returned (Num acc) end)
    | QSize n i acc k q => (s, Next (QNext n (S i) (acc + length (content s q))))
    end.
  Definition sub_start (programs : nat -> list call) : config sub_state call code answer := start code answer no_queues programs.
  Definition sub_run : config sub_state call code answer -> list nat -> config sub_state call code answer := run first exec.
End SubThr.
Arguments call : clear implicits.
Arguments code : clear implicits.
Arguments answer : clear implicits.
Arguments sub_state : clear implicits.
Arguments todo_with : clear implicits.
Arguments Get {K V} k block.
Arguments GetAny {K V}.
Arguments Qsize {K V}.
Arguments Nothing {K V}.
Arguments Val {K V} v.
Arguments Num {K V} n.
Arguments ToGet {V} block.
Arguments YStart {K V}.
Arguments YNext {K V} n i.
Arguments YTry {K V} n i k q.
Arguments QStart {K V}.
Arguments QNext {K V} n i acc.
Arguments QSize {K V} n i acc k q.
