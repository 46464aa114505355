(** Model of satella/exception_handling: GlobalExcepthook (global_eh.py), BaseExceptionHandler, FunctionExceptionHandler, exception_handler
    (exception_handlers.py) and MemoryErrorExceptionHandler (memerrhandler.py).

    Handler objects are numbered in the order they are made; number 0 is the one made of the former sys.excepthook. They compare by identity,
    as none of the classes defines __eq__. What the user's code does for an exception is given with the event, per handler. What is written to
    stderr is recorded as [Complain]; killing the process (satella/os/misc.py:suicide) as [Kill], after which the model goes on like the code
    would, would it survive. Loss of the interpreter's modules during shutdown (global_eh.py:81-82) is not modelled. *)
From Verif Require Import Prelude PySeq_Model.
Set Implicit Arguments.

(** what a class of exceptions is to the handlers *)
Record exc : Type := mk_exc { system_exit : bool (* exactly SystemExit *); memory_error : bool; an_exception : bool (* below Exception *) }.
(** what user's code does: return a bool (or None: false), return a sequence, raise an Exception, raise another BaseException *)
Inductive reply : Type := RBool (b : bool) | RSeq (l : list bool) | RRaise (e : exn) | RExit (e : exn).
Inductive kind : Type := Function_ | Custom | Memory (spare : bool).
Record handler : Type := mk_handler { prio : Z; kind_of : kind }.
Inductive action : Type := Ran (h : nat) | Kill | Complain (h : nat).
(** what handle_exception does: returns something true or false, raises an Exception, raises another BaseException *)
Inductive verdict : Type := VTrue | VFalse | VRaise (e : exn) | VExit (e : exn).

Definition truth (b : bool) : verdict := if b then VTrue else VFalse.
(** any(val) of a sequence (exception_handlers.py:78-79, memerrhandler.py:50-51); the truth of a sequence is whether it is not empty *)
Definition any (l : list bool) : bool := existsb (fun b => b) l.
Definition nonempty (l : list bool) : bool := match l with [] => false | _ => true end.

(** handle_exception of the three classes (exception_handlers.py:74-80, memerrhandler.py:38-68) *)
Definition handle (x : exc) (h : nat) (k : kind) (r : reply) : list action * verdict :=
  match k with
  | Function_ =>
    if system_exit x then ([], VFalse)
    else ([Ran h], match r with RBool b => truth b | RSeq l => truth (any l) | RRaise e => VRaise e | RExit e => VExit e end)
  | Custom => ([Ran h], match r with RBool b => truth b | RSeq l => truth (nonempty l) | RRaise e => VRaise e | RExit e => VExit e end)
  | Memory _ =>
    if memory_error x then
      match r with
      | RExit e => ([Ran h], VExit e)
      | RBool true => ([Ran h], VTrue)
      | RSeq l => if any l then ([Ran h], VTrue) else ([Ran h; Kill], VTrue)
      | _ => ([Ran h; Kill], VTrue)
      end
    else ([], VFalse)
  end.

Record state : Type := mk_state { objs : list handler; installed : list nat; ignore_failed : bool }.
(** GlobalExcepthook.__init__ and __install (global_eh.py:25-28, 55-60) *)
Definition begin : state := mk_state [mk_handler 10000 Function_] [] true.
Definition priority (s : state) (h : nat) : Z := match nth_error (objs s) h with Some o => prio o | None => 0%Z end.
Definition kindof (s : state) (h : nat) : kind := match nth_error (objs s) h with Some o => kind_of o | None => Custom end.

(** the loop of __except_handle (global_eh.py:95-108) *)
Fixpoint loop (s : state) (x : exc) (r : nat -> reply) (hs : list nat) : list action * res unit :=
  match hs with
  | [] => ([], Ok tt)
  | h :: t =>
    let (a, v) := handle x h (kindof s h) (r h) in
    match v with
    | VTrue => (a, Ok tt)
    | VFalse => let (b, o) := loop s x r t in (a ++ b, o)
    | VRaise _ => if ignore_failed s then let (b, o) := loop s x r t in (a ++ Complain h :: b, o) else (a ++ [Complain h], Err NotImplementedExn)
    | VExit e => (a, Err e)
    end
  end.
(** __except_handle (global_eh.py:92-108) *)
Definition except_handle (s : state) (x : exc) (r : nat -> reply) : list action * res unit :=
  loop s x r (py_sorted (fun a b => Z.ltb (priority s a) (priority s b)) (installed s ++ [0])).

(** New: a handler is made (exception_handler(priority)(fun), or a constructor). AddCallable: add_hook(callable) (:47-48), the callable becomes a
    new handler of priority 0. Add: add_hook(handler), which BaseExceptionHandler.install calls too. SetPriority: handler.priority = p.
    Uncaught: the interpreter calls sys.excepthook. InThread: the run() of a thread ends with exception [e], of class [x]. *)
Inductive op : Type :=
| New (p : Z) (k : kind) | AddCallable | Add (h : nat) | Remove (h : nat) | SetPriority (h : nat) (p : Z) | SetIgnore (b : bool)
| Uncaught (x : exc) (r : nat -> reply) | InThread (x : exc) (e : exn) (r : nat -> reply).
Inductive out : Type := OHandler (h : nat) | OUnit (r : res unit) | OHandled (a : list action) (r : res unit).
(** add_hook (global_eh.py:50-51) *)
Definition add (s : state) (h : nat) : state :=
  if memb Nat.eqb h (installed s) then s else mk_state (objs s) (installed s ++ [h]) (ignore_failed s).
Definition step (s : state) (o : op) : state * out :=
  match o with
  | New p k => (mk_state (objs s ++ [mk_handler p k]) (installed s) (ignore_failed s), OHandler (length (objs s)))
  | AddCallable => let h := length (objs s) in (add (mk_state (objs s ++ [mk_handler 0 Function_]) (installed s) (ignore_failed s)) h, OHandler h)
  | Add h => (add s h, OHandler h)
  | Remove h =>                                                                                                       (* :37 *)
    if memb Nat.eqb h (installed s) then (mk_state (objs s) (remove_first Nat.eqb h (installed s)) (ignore_failed s), OUnit (Ok tt))
    else (s, OUnit (Err ValueError))
  | SetPriority h p => match nth_error (objs s) h with
                       | Some o => (mk_state (upd (objs s) h (mk_handler p (kind_of o))) (installed s) (ignore_failed s), OUnit (Ok tt))
                       | None => (s, OUnit (Err NameErrorExn))
                       end
  | SetIgnore b => (mk_state (objs s) (installed s) b, OUnit (Ok tt))
  | Uncaught x r => let (a, v) := except_handle s x r in (s, OHandled a v)
  | InThread x e r =>                                                                                                 (* run_with_except_hook, :73-84 *)
    if an_exception x then
      let (a, v) := except_handle s x r in
      (s, OHandled a match v with Ok _ => Err e | Err f => Err f end)
    else (s, OHandled [] (Err e))
  end.
Fixpoint run (s : state) (ops : list op) : state * list out :=
  match ops with [] => (s, []) | o :: t => let (s1, x) := step s o in let (s2, xs) := run s1 t in (s2, x :: xs) end.
