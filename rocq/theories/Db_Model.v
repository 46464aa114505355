(** Model of satella/db.py: transaction, and of satella/dao.py: Loadable, must_be_loaded.

    * transaction
    The connection is an object of the Python DB API; each call of it, of the cursors and of the getter is recorded in [log], and may raise:
    [fails] says what, given everything recorded before. Cursors are numbered in the order they are made. A getter is a plain function,
    as inspect.isfunction asks. *)
From Verif Require Import Prelude.
Set Implicit Arguments.

Inductive call : Type := Getter | MakeCursor | Commit | Rollback | CloseCursor (c : nat) | CloseConnection.
(** what happened: a call was made, an exception was logged, or the body did something with the cursor it was given *)
Inductive event : Type := Made (c : call) | Logged | Used (cursor : nat).

Section Transaction.
  Variable fails : list event -> call -> option exn.
  (** transaction(connection_or_getter, close_the_connection_after, log_exception) (db.py:26-31) *)
  Variables (close_after log_exception : bool).

  (** [getter]: the connection is still to be got; [cursor]: self.cursor; [made]: how many cursors were made *)
  Record state : Type := mk_state { getter : bool; cursor : option nat; made : nat; log : list event }.
  Definition begin (with_getter : bool) : state := mk_state with_getter None 0 [].
  Definition write (s : state) (e : event) : state := mk_state (getter s) (cursor s) (made s) (log s ++ [e]).
  (** make a call, which may raise *)
  Definition do (s : state) (c : call) : state * option exn := (write s (Made c), fails (log s) c).

  (** the property connection (db.py:37-44) *)
  Definition connection (s : state) : state * option exn :=
    if getter s then
      match do s Getter with
      | (s1, None) => (mk_state false (cursor s1) (made s1) (log s1), None)
      | (s1, Some e) => (s1, Some e)
      end
    else (s, None).
  (** a method of the connection *)
  Definition on_connection (s : state) (c : call) : state * option exn :=
    match connection s with
    | (s1, None) => do s1 c
    | (s1, Some e) => (s1, Some e)
    end.
  (** __enter__ (db.py:33-35) *)
  Definition enter (s : state) : state * res nat :=
    match on_connection s MakeCursor with
    | (s1, None) => (mk_state (getter s1) (Some (made s1)) (S (made s1)) (log s1), Ok (made s1))
    | (s1, Some e) => (s1, Err e)
    end.
  (** __exit__ (db.py:46-60): what it raises; it returns False *)
  Definition exit (s : state) (exc : option exn) : state * option exn :=
    match on_connection s (match exc with None => Commit | Some _ => Rollback end) with
    | (s1, Some e) => (s1, Some e)
    | (s1, None) =>
      let s2 := match exc with Some _ => if log_exception then write s1 Logged else s1 | None => s1 end in
      match cursor s2 with
      | None => (s2, Some AttributeError)
      | Some c =>
        match do s2 (CloseCursor c) with
        | (s3, Some e) => (s3, Some e)
        | (s3, None) => if close_after then on_connection s3 CloseConnection else (s3, None)
        end
      end
    end.

  (** A body of a with statement: does something with its cursor, raises, or uses the same transaction object in another with statement. *)
  Inductive prog : Type := Use | Raise (e : exn) | With (body : list prog).
  Section Body.
    Variable perform : state -> nat -> prog -> state * option exn.
    Fixpoint body_of (s : state) (c : nat) (ps : list prog) : state * option exn :=
      match ps with
      | [] => (s, None)
      | p :: t => match perform s c p with (s1, None) => body_of s1 c t | (s1, Some e) => (s1, Some e) end
      end.
  End Body.
  (** [c] is the cursor the enclosing with statement was given *)
  Fixpoint perform (s : state) (c : nat) (p : prog) : state * option exn :=
    match p with
    | Use => (write s (Used c), None)
    | Raise e => (s, Some e)
    | With body =>
      match enter s with
      | (s1, Err e) => (s1, Some e)
      | (s1, Ok c1) =>
        let (s2, r) := body_of perform s1 c1 body in
        match exit s2 r with
        | (s3, Some e) => (s3, Some e)
        | (s3, None) => (s3, r)
        end
      end
    end.
End Transaction.

(** * Loadable (dao.py:8-34) and must_be_loaded (dao.py:37-54)
    The subclass's refresh() asks the database and ends with super().refresh(), as the documentation asks; it may raise before that. *)
Record obj : Type := mk_obj { loaded : bool; asked : nat (* how many times the database was asked *) }.
(** refresh of the subclass: [r] is what asking the database raises *)
Definition refresh (o : obj) (r : option exn) : obj * option exn :=
  (mk_obj (match r with None => true | Some _ => loaded o end) (S (asked o)), r).
(** Loadable.__init__ (dao.py:20-23) *)
Definition construct (load_lazy : bool) (r : option exn) : obj * option exn :=
  let o := mk_obj false 0 in if negb load_lazy then refresh o r else (o, None).
Inductive lop : Type :=
| Refresh (r : option exn)      (* refresh() called by the user *)
| Method (r : option exn).      (* a method decorated with must_be_loaded; [r] is what asking the database would do *)
(** Ran: the body of the method was run, seeing whether the object was loaded *)
Inductive lout : Type := Ran (loaded : bool) | LDone | LErr (e : exn).
Definition lstep (o : obj) (p : lop) : obj * lout :=
  match p with
  | Refresh r => match refresh o r with (o1, None) => (o1, LDone) | (o1, Some e) => (o1, LErr e) end
  | Method r =>                                                                               (* dao.py:46-52 *)
    if negb (loaded o) then match refresh o r with (o1, None) => (o1, Ran (loaded o1)) | (o1, Some e) => (o1, LErr e) end
    else (o, Ran (loaded o))
  end.
Fixpoint lrun (o : obj) (ops : list lop) : obj * list lout :=
  match ops with [] => (o, []) | p :: t => let (o1, x) := lstep o p in let (o2, xs) := lrun o1 t in (o2, x :: xs) end.
