(** Model of memoize and cache_memoize (satella/coding/decorators/decorators.py) used by any number of threads.

    Threads take turns. What a thread does with the lock in its hands touches only data that is touched with the lock in hand, so a
    store or a read together with the release that follows is one turn. Positional arguments are hashable; keyword arguments are
    carried along but are not part of the key. *)
From Verif Require Import Prelude.
Set Implicit Arguments.

Section Memo.
  Variables K W V : Type.
  Variable eqb : K -> K -> bool.
  (** None: memoize; Some d: cache_memoize(d) *)
  Variable duration : option Z.

  Inductive stage : Type :=
  | Entering                (** to take the lock *)
  | Checking                (** with the lock: is there a value? *)
  | Fetching                (** with the lock: to return the stored value *)
  | Evaluating              (** lock given back, the function runs *)
  | Returning (r : res V)   (** the function is over, to take the lock again *)
  | Storing (v : V)         (** with the lock *)
  | StoringValue (v : V)    (** with the lock, the timestamp is stored *)
  | Failing (e : exn).      (** with the lock, on the way out *)
  (** the arguments of the call and the time read at its start *)
  Inductive place : Type := Outside | Inside (args : K) (kwargs : W) (now : Z) (s : stage).
  Record mthread : Type := mk_mthread { todo : list (K * W); at_ : place; results : list (Z * res V) }.
  (** a call of the decorated function, recorded when it is over: made by whom, on what, in a call that read which time *)
  Record evaluation : Type := mk_evaluation { who : nat; on : K; with_kwargs : W; stamp : Z; outcome : res V }.
  Record mstate : Type := mk_mstate { mlock : option nat; times : list (K * Z); values : list (K * V);
                                      evals : list evaluation; mthreads : list mthread }.
  (** decorators.py:208 and 161-162 *)
  Definition mstart (programs : list (list (K * W))) : mstate :=
    mk_mstate None [] [] [] (map (fun p => mk_mthread p Outside []) programs).

  Definition goto (th : mthread) (p : place) : mthread := mk_mthread (todo th) p (results th).
  Definition finish (th : mthread) (now : Z) (r : res V) : mthread := mk_mthread (todo th) Outside (results th ++ [(now, r)]).
  (** is there a value to return? decorators.py:213 memoize; 170-172 cache_memoize *)
  Definition found (c : mstate) (a : K) (now : Z) : bool :=
    match duration with
    | None => dmem eqb (values c) a
    | Some d => match dget eqb (times c) a with None => false | Some ts => negb (Z.ltb d (now - ts)) end
    end.

  (** decorators.py:211-219 memoize.inner; 165-183 cache_memoize.inner. [clock] is what time_getter() returns, should it be called in this
      turn (memoize calls none; the number is then only a label); [out] is how the function ends, should it end in this turn. *)
  Definition mturn (c : mstate) (t : nat) (clock : Z) (out : res V) : mstate :=
    match nth_error (mthreads c) t with
    | None => c
    | Some th =>
      let put l ts vs es th' := mk_mstate l ts vs es (upd (mthreads c) t th') in
      match at_ th with
      | Outside =>
        match todo th with
        | [] => c
        | (a, kw) :: rest => put (mlock c) (times c) (values c) (evals c) (mk_mthread rest (Inside a kw clock Entering) (results th))
        end
      | Inside a kw now s =>
        match s with
        | Entering =>
          match mlock c with
          | None => put (Some t) (times c) (values c) (evals c) (goto th (Inside a kw now Checking))
          | Some _ => c
          end
        | Checking =>
          if found c a now then put (mlock c) (times c) (values c) (evals c) (goto th (Inside a kw now Fetching))
          else put None (times c) (values c) (evals c) (goto th (Inside a kw now Evaluating))
        | Fetching =>
          put None (times c) (values c) (evals c)
            (finish th now (match dget eqb (values c) a with Some v => Ok v | None => Err KeyError end))
        | Evaluating =>
          put (mlock c) (times c) (values c) (evals c ++ [mk_evaluation t a kw now out]) (goto th (Inside a kw now (Returning out)))
        | Returning r =>
          match mlock c with
          | None => put (Some t) (times c) (values c) (evals c)
                      (goto th (Inside a kw now (match r with Ok v => Storing v | Err e => Failing e end)))
          | Some _ => c
          end
        | Storing v =>
          match duration with
          | None => put None (times c) (dset eqb (values c) a v) (evals c) (finish th now (Ok v))
          | Some _ => put (mlock c) (dset eqb (times c) a now) (values c) (evals c) (goto th (Inside a kw now (StoringValue v)))
          end
        | StoringValue v => put (mlock c) (times c) (dset eqb (values c) a v) (evals c) (goto th (Inside a kw now Fetching))
        | Failing e => put None (times c) (values c) (evals c) (finish th now (Err e))
        end
      end
    end.
  Inductive event : Type := Turn (t : nat) (clock : Z) (out : res V).
  Definition mevent (c : mstate) (e : event) : mstate := match e with Turn t clock out => mturn c t clock out end.
  Fixpoint mexec (c : mstate) (es : list event) : mstate := match es with [] => c | e :: rest => mexec (mevent c e) rest end.
End Memo.
Arguments Entering {V}.
Arguments Checking {V}.
Arguments Fetching {V}.
Arguments Evaluating {V}.
Arguments Failing {V} e.
Arguments Outside {K W V}.
