(** Model of satella/coding/recast_exceptions.py. Exceptions are objects of any type with any isinstance relation, so all class hierarchies
    are covered. A decorated function is given by what it does: it may call itself (the decorated one) and go on from the outcome. *)
From Verif Require Import Prelude.
Set Implicit Arguments.

Section Recast.
  Variables E C V : Type.
  Variable isa : E -> C -> bool.           (** isinstance(e, c), issubclass(type(e), c) *)
  Variable exception : E -> bool.          (** isinstance(e, Exception); not so for SystemExit, KeyboardInterrupt, GeneratorExit *)
  (** None is Python's None *)
  Inductive outcome : Type := Value (v : option V) | Raised (e : E).
  (** isinstance(e, (c1, c2, ...)) *)
  Definition isa_any (e : E) (l : list C) : bool := existsb (isa e) l.

  (** recast_exceptions.py:298-307 raises_exception; None: it raises what the callable raised *)
  Definition raises_exception (listed : list C) (clb : outcome) : bool + E :=
    match clb with
    | Raised e => if isa_any e listed then inl true else inr e
    | Value _ => inl false
    end.
  (** recast_exceptions.py:310-347 catch_exception *)
  Inductive caught : Type := Exception_ (e : E) | Plain (v : option V) | NoException | Other (e : E).
  Definition catch_exception (listed : list C) (clb : outcome) (return_instead : option V) (return_value : bool) : caught :=
    match clb with
    | Raised e => if isa_any e listed then Exception_ e else Other e
    | Value result =>
      match return_instead with
      | Some v => Plain (Some v)
      | None => if return_value then Plain result else NoException
      end
    end.

  (** recast_exceptions.py:86-102 analyze_exception, appending to the log; the formatting is taken to succeed *)
  Definition analyze (listed : list C) (log : list E) (e : E) : list E * bool :=
    if isa_any e listed then (log ++ [e], true) else (log, false).
  (** recast_exceptions.py:117-126 log_exceptions.__call__, the inner for functions that are not generators *)
  Definition log_decorated (listed : list C) (swallow : bool) (log : list E) (fun_ : outcome) : list E * outcome :=
    match fun_ with
    | Value v => (log, Value v)
    | Raised e =>
      if exception e then
        let (log', logged) := analyze listed log e in
        (log', if negb logged || negb swallow then Raised e else Value None)
      else (log, Raised e)
    end.
  (** recast_exceptions.py:81-84 __exit__; the block's value, if it ends normally, is written Value None *)
  Definition log_block (listed : list C) (swallow : bool) (log : list E) (block : outcome) : list E * outcome :=
    match block with
    | Value v => (log, Value v)
    | Raised e =>
      let (log', logged) := analyze listed log e in
      (log', if logged then (if swallow then Value None else Raised e) else Raised e)
    end.

  (** recast_exceptions.py:170-182 reraise_as.__call__; [target] is the exception built from the target class and its arguments *)
  Definition reraise_decorated (source : list C) (target : option E) (fun_ : outcome) : outcome :=
    match fun_ with
    | Value v => Value v
    | Raised e =>
      if exception e then
        if isa_any e source then match target with Some t => Raised t | None => Value None end
        else Raised e
      else Raised e
    end.
  (** recast_exceptions.py:187-193 reraise_as.__exit__ *)
  Definition reraise_block (source : list C) (target : option E) (block : outcome) : outcome :=
    match block with
    | Value v => Value v
    | Raised e => if isa_any e source then match target with None => Value None | Some t => Raised t end else Raised e
    end.

  (** *** rethrow_as *)
  (** an argument of rethrow_as: an exception class, a tuple, None *)
  Inductive arg : Type := Class (c : C) | Tuple (l : list arg) | NoneArg.
  (** recast_exceptions.py:243-254: the pairs *)
  Definition mapping_of (pairs : list arg) : list arg :=
    match pairs with
    | [a; b] => match b with Class _ => [Tuple [a; b]] | NoneArg => [Tuple [a; b]] | Tuple _ => pairs end
    | _ => pairs
    end.

  (** what one pair says: classes to catch and how the new exception is built, repr being applied in it; None to silence *)
  Variable pairs : list (list C * option (E -> E)).
  Variable returns : option V.
  Variable returns_factory : option outcome.
  (** recast_exceptions.py:286-293 rethrow_as.__exit__: the new value of was_raised and the outcome of the with statement *)
  Fixpoint on_exit (l : list (list C * option (E -> E))) (was_raised : bool) (e : E) : bool * outcome :=
    match l with
    | [] => (was_raised, Raised e)
    | (from_, to) :: rest =>
      if isa_any e from_ then (true, match to with None => Value None | Some build => Raised (build e) end)
      else on_exit rest was_raised e
    end.
  (** the body of a function: an outcome, or a call of the decorated function itself and how it goes on *)
  Inductive body : Type := End (o : outcome) | CallSelf (inner : body) (go_on : outcome -> body).
  (** recast_exceptions.py:271-278, after the with statement *)
  Definition after_with (was_raised : bool) (v : option V) : outcome :=
    if was_raised then
      match returns, returns_factory with
      | Some r, _ => Value (Some r)
      | None, Some o => o
      | None, None => Value None
      end
    else Value v.
  (** recast_exceptions.py:268-278 inner and 282-284 __enter__; was_raised is shared by all calls in one thread *)
  Fixpoint run_body (was_raised : bool) (b : body) : bool * outcome :=
    match b with
    | End o => (was_raised, o)
    | CallSelf inner go_on =>
      let (w, o) := run_body false inner in
      let (w', o') := match o with
                      | Value v => (w, after_with w v)
                      | Raised e => match on_exit pairs w e with
                                    | (w2, Raised e') => (w2, Raised e')
                                    | (w2, Value _) => (w2, after_with w2 None)
                                    end
                      end in
      run_body w' (go_on o')
    end.
  (** a call made from elsewhere *)
  Definition call (b : body) : outcome := snd (run_body false (CallSelf b End)).
  (** recast_exceptions.py:282-293 as a context manager: a block that ends in a certain way *)
  Definition rethrow_block (block : outcome) : outcome :=
    match block with Value v => Value v | Raised e => snd (on_exit pairs false e) end.
End Recast.
Arguments Raised {E V} e.
Arguments Value {E V} v.
Arguments NoException {E V}.
Arguments NoneArg {C}.
(** recast_exceptions.py:11-35 silence_excs *)
Definition silence_excs {E C V} (isa : E -> C -> bool) (exc_types : list C) (returns : option V) (factory : option (outcome E V)) (b : body E V) : outcome E V :=
  call isa [(exc_types, None)] returns factory b.
