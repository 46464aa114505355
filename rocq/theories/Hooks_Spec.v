(** C75: what the handlers do with an exception nobody caught. *)
From Verif Require Import Prelude Hooks_Model.
Set Implicit Arguments.

(** what a handler means for those after it *)
Inductive effect : Type := Passes | Stops | Fails | Aborts (e : exn).

(** Handler [h] of the kind given, whose user's code would do [r] with an exception of class [x]: the user's code that runs, whether the
    process is killed, and what that means for the handlers after it. *)
Inductive does (x : exc) (h : nat) : kind -> reply -> list action -> effect -> Prop :=
(* a function is not told about SystemExit; it stops the rest by returning True, or a sequence with a True *)
| does_fn_exit r : system_exit x = true -> does x h Function_ r [] Passes
| does_fn_true : system_exit x = false -> does x h Function_ (RBool true) [Ran h] Stops
| does_fn_false : system_exit x = false -> does x h Function_ (RBool false) [Ran h] Passes
| does_fn_some l : system_exit x = false -> In true l -> does x h Function_ (RSeq l) [Ran h] Stops
| does_fn_none l : system_exit x = false -> ~ In true l -> does x h Function_ (RSeq l) [Ran h] Passes
| does_fn_raise e : system_exit x = false -> does x h Function_ (RRaise e) [Ran h] Fails
| does_fn_abort e : system_exit x = false -> does x h Function_ (RExit e) [Ran h] (Aborts e)
(* a class with its own handle_exception is told about everything *)
| does_own_true : does x h Custom (RBool true) [Ran h] Stops
| does_own_false : does x h Custom (RBool false) [Ran h] Passes
| does_own_seq b l : does x h Custom (RSeq (b :: l)) [Ran h] Stops
| does_own_empty : does x h Custom (RSeq []) [Ran h] Passes
| does_own_raise e : does x h Custom (RRaise e) [Ran h] Fails
| does_own_abort e : does x h Custom (RExit e) [Ran h] (Aborts e)
(* the handler of MemoryErrors kills the process, unless its custom hook returns True *)
| does_mem_other s r : memory_error x = false -> does x h (Memory s) r [] Passes
| does_mem_true s : memory_error x = true -> does x h (Memory s) (RBool true) [Ran h] Stops
| does_mem_some s l : memory_error x = true -> In true l -> does x h (Memory s) (RSeq l) [Ran h] Stops
| does_mem_false s : memory_error x = true -> does x h (Memory s) (RBool false) [Ran h; Kill] Stops
| does_mem_none s l : memory_error x = true -> ~ In true l -> does x h (Memory s) (RSeq l) [Ran h; Kill] Stops
| does_mem_raise s e : memory_error x = true -> does x h (Memory s) (RRaise e) [Ran h; Kill] Stops
| does_mem_abort s e : memory_error x = true -> does x h (Memory s) (RExit e) [Ran h] (Aborts e).

(** [a] stands before [b] in [l] *)
Definition precedes (l : list nat) (a b : nat) : Prop := exists l1 l2 l3, l = l1 ++ a :: l2 ++ b :: l3.
(** [order] is [l] by ascending priority, those of equal priority as they are in [l] *)
Definition by_priority (p : nat -> Z) (l order : list nat) : Prop :=
  Permutation order l /\ ForallOrdPairs (fun a b => (p a < p b)%Z \/ (p a = p b /\ precedes l a b)) order.

(** the handlers of [order] are given the exception, up to the first that stops it *)
Inductive chain (ignore : bool) (x : exc) (k : nat -> kind) (r : nat -> reply) : list nat -> list action -> res unit -> Prop :=
| chain_end : chain ignore x k r [] [] (Ok tt)
| chain_pass h t a b o : does x h (k h) (r h) a Passes -> chain ignore x k r t b o -> chain ignore x k r (h :: t) (a ++ b) o
| chain_stop h t a : does x h (k h) (r h) a Stops -> chain ignore x k r (h :: t) a (Ok tt)
| chain_fail h t a b o : ignore = true -> does x h (k h) (r h) a Fails -> chain ignore x k r t b o ->
    chain ignore x k r (h :: t) (a ++ Complain h :: b) o
| chain_give_up h t a : ignore = false -> does x h (k h) (r h) a Fails -> chain ignore x k r (h :: t) (a ++ [Complain h]) (Err NotImplementedExn)
| chain_abort h t a e : does x h (k h) (r h) a (Aborts e) -> chain ignore x k r (h :: t) a (Err e).

(** ** What is registered, from the history *)
Definition makes (o : op) : nat := match o with New _ _ | AddCallable => 1 | _ => 0 end.
(** the number of the next handler to be made; handler 0 was there from the start *)
Definition next (h : list op) : nat := S (list_sum (map makes h)).
Definition adds (h : list op) (o : op) (i : nat) : Prop := match o with Add j => i = j | AddCallable => i = next h | _ => False end.
(** it was added, and not removed since *)
Definition registered (h : list op) (i : nat) : Prop :=
  exists h1 o h2, h = h1 ++ o :: h2 /\ adds h1 o i /\ ~ In (Remove i) h2.

(** the handlers whose code ran, in order *)
Fixpoint ran (a : list action) : list nat := match a with [] => [] | Ran h :: t => h :: ran t | _ :: t => ran t end.
