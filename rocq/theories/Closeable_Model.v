(** Model of satella/coding/misc.py: Closeable, for a class that extends close() as its documentation says.

    The subclass is 'def close(self): if super().close(): .. clean up ..'. What the cleanup does (return or raise) is given with each call.
    Warnings are not modelled, and __init__ of the subclass is only its last step, the call of Closeable.__init__. *)
From Verif Require Import Prelude.
Set Implicit Arguments.

(** [fin] is the slot __finalized, None before it is set (coding/misc.py:83-86); [cleanups] counts the cleanups that were begun *)
Record obj : Type := mk_obj { fin : option bool; cleanups : nat }.
(** an object whose constructor was not run yet *)
Definition fresh : obj := mk_obj None 0.

(** Closeable.closed (coding/misc.py:88-98) *)
Definition closed (o : obj) : bool := match fin o with Some b => b | None => true end.
(** Closeable.close (coding/misc.py:100-119): what it returns, None if the slot was not set; the slot is set in the finally clause *)
Definition super_close (o : obj) : obj * option bool :=
  (mk_obj (Some true) (cleanups o), match fin o with Some b => Some (negb b) | None => None end).
(** close of the subclass (coding/misc.py:106-109): [fails] is what the cleanup raises *)
Definition close (o : obj) (fails : option exn) : obj * option exn :=
  let (o1, r) := super_close o in
  match r with
  | Some true => (mk_obj (fin o1) (S (cleanups o1)), fails)
  | _ => (o1, None)
  end.

(** Init: Closeable.__init__ (:85-86). With: the object is used in a with statement whose body raises [body] or nothing (:124-128).
    Del: the interpreter destroys the object (:121-122), what __del__ raises is not propagated. *)
Inductive op : Type := Init | Close (fails : option exn) | Closed | With (body fails : option exn) | Del (fails : option exn).
Inductive out : Type := OBool (b : bool) | ODone (e : option exn).
Definition step (o : obj) (p : op) : obj * out :=
  match p with
  | Init => (mk_obj (Some false) (cleanups o), ODone None)
  | Close f => let (o1, e) := close o f in (o1, ODone e)
  | Closed => (o, OBool (closed o))
  | With body f => let (o1, e) := close o f in (o1, ODone match e with Some x => Some x | None => body end)
  | Del f => (fst (close o f), ODone None)
  end.
Fixpoint run (o : obj) (ops : list op) : obj * list out :=
  match ops with [] => (o, []) | p :: t => let (o1, x) := step o p in let (o2, xs) := run o1 t in (o2, x :: xs) end.

(** * Threads that close one initialised object, each once *)
(** Starting: about to read the slot (:115). Marking: has read it, [v] is what is to be returned, about to set it (:119).
    Cleaning: super().close() returned True, the cleanup goes on. Finished: close() of the subclass is over; [v]: with a cleanup. *)
Inductive place : Type := Starting | Marking (v : bool) | Cleaning | Finished (v : bool).
Definition turn (f : bool) (p : place) : bool * place :=
  match p with
  | Starting => (f, Marking (negb f))
  | Marking v => (true, if v then Cleaning else Finished false)
  | Cleaning => (f, Finished true)
  | Finished v => (f, Finished v)
  end.
Record sys : Type := mk_sys { flag : bool; at_ : list place }.
Definition tstep (s : sys) (t : nat) : sys :=
  match nth_error (at_ s) t with None => s | Some p => let (f, p') := turn (flag s) p in mk_sys f (upd (at_ s) t p') end.
(** a schedule is the list of threads that make a step *)
Definition exec (s : sys) (es : list nat) : sys := fold_left tstep es s.
Definition start (n : nat) : sys := mk_sys false (repeat Starting n).
