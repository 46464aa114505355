(** Model of LockedDataset (satella/coding/concurrent/locked_dataset.py) with one attribute, used by any number of threads.

    Threads take turns between any two reads or writes of what they share: the lock, the flag [locked], the stored arguments and
    the attribute. A thread that waits for the lock does nothing in its turn. *)
From Verif Require Import Prelude.
Set Implicit Arguments.

Section Locked.
  Variable V : Type.
  (** how lock.acquire( *args ) is called: args = () or blocking=True without a timeout; blocking=False; blocking=True with a timeout;
      blocking=False with a timeout *)
  Inductive args : Type := Forever | Try | Timed | Contradictory.
  Inductive access : Type := Read | Write (v : V).
  (** with ds: ...; with ds(blocking, timeout): ...; an access outside *)
  Inductive action : Type := With (a : option args) (body : list access) | Bare (x : access).
  Inductive result : Type := Value (v : V) | Written | NotLocked | WouldWait | BadCall.

  Inductive place : Type :=
  | Outside
  | Entering                                 (** to read the stored arguments *)
  | Acquiring (a : args)
  | Acquired                                 (** with the lock, the flag not set *)
  | Inside (rest : list access)
  | Accessing (x : access) (rest : list access)  (** the flag was seen set *)
  | Clearing                                 (** the lock is given back, the flag is to be cleared *)
  | BareAccessing (x : access).
  Record lthread : Type := mk_lthread { todo : list action; at_ : place; results : list result }.
  Record lstate : Type := mk_lstate { lock : option nat; flag : bool; stored : args; attr : V; lthreads : list lthread }.
  (** locked_dataset.py:41-47 InternalDataset.__init__, LockedDataset.__init__ *)
  Definition lstart (v : V) (programs : list (list action)) : lstate :=
    mk_lstate None false Forever v (map (fun p => mk_lthread p Outside []) programs).

  Definition goto (th : lthread) (p : place) : lthread := mk_lthread (todo th) p (results th).
  Definition also (th : lthread) (p : place) (r : result) : lthread := mk_lthread (todo th) p (results th ++ [r]).
  Definition finish (th : lthread) (r : list result) : lthread := mk_lthread (tl (todo th)) Outside (results th ++ r).
  Definition perform (v : V) (x : access) : V * result := match x with Read => (v, Value v) | Write w => (w, Written) end.

  (** locked_dataset.py:67-74 __getattribute__ and 76-81 __setattr__: the check, then the access; 83-85 __call__; 87-93 __enter__;
      95-98 __exit__, also run when an access raises, which ends the block. The attribute is not a method. *)
  Definition lturn (c : lstate) (t : nat) : lstate :=
    match nth_error (lthreads c) t with
    | None => c
    | Some th =>
      let put l f s v th' := mk_lstate l f s v (upd (lthreads c) t th') in
      match at_ th with
      | Outside =>
        match todo th with
        | [] => c
        | With (Some a) _ :: _ => put (lock c) (flag c) a (attr c) (goto th Entering)
        | With None _ :: _ => put (lock c) (flag c) (stored c) (attr c) (goto th Entering)
        | Bare x :: _ =>
          if flag c then put (lock c) (flag c) (stored c) (attr c) (goto th (BareAccessing x))
          else put (lock c) (flag c) (stored c) (attr c) (finish th [NotLocked])
        end
      | Entering =>
        match stored c with
        | Contradictory => put (lock c) (flag c) (stored c) (attr c) (finish th [BadCall])
        | a => put (lock c) (flag c) (stored c) (attr c) (goto th (Acquiring a))
        end
      | Acquiring a =>
        match lock c with
        | None => put (Some t) (flag c) (stored c) (attr c) (goto th Acquired)
        | Some _ => match a with
                    | Try => put (lock c) (flag c) (stored c) (attr c) (finish th [WouldWait])
                    | _ => c
                    end
        end
      | Acquired => put (lock c) true (stored c) (attr c) (goto th (Inside (match todo th with With _ body :: _ => body | _ => [] end)))
      | Inside (x :: rest) =>
        if flag c then put (lock c) (flag c) (stored c) (attr c) (goto th (Accessing x rest))
        else put (lock c) (flag c) (stored c) (attr c) (also th (Inside []) NotLocked)
      | Inside [] => put None (flag c) (stored c) (attr c) (goto th Clearing)
      | Accessing x rest => put (lock c) (flag c) (stored c) (fst (perform (attr c) x)) (also th (Inside rest) (snd (perform (attr c) x)))
      | Clearing => put (lock c) false (stored c) (attr c) (finish th [])
      | BareAccessing x => put (lock c) (flag c) (stored c) (fst (perform (attr c) x)) (finish th [snd (perform (attr c) x)])
      end
    end.
  (** the timeout of lock.acquire runs out *)
  Definition lexpire (c : lstate) (t : nat) : lstate :=
    match nth_error (lthreads c) t with
    | Some th => match at_ th with
                 | Acquiring Timed => mk_lstate (lock c) (flag c) (stored c) (attr c) (upd (lthreads c) t (finish th [WouldWait]))
                 | _ => c
                 end
    | None => c
    end.
  Inductive event : Type := Turn (t : nat) | Expire (t : nat).
  Definition levent (c : lstate) (e : event) : lstate := match e with Turn t => lturn c t | Expire t => lexpire c t end.
  Fixpoint lexec (c : lstate) (es : list event) : lstate := match es with [] => c | e :: rest => lexec (levent c e) rest end.
End Locked.
Arguments Read {V}.
Arguments Written {V}.
Arguments NotLocked {V}.
Arguments WouldWait {V}.
Arguments BadCall {V}.
Arguments Outside {V}.
Arguments Entering {V}.
Arguments Acquiring {V} a.
Arguments Acquired {V}.
Arguments Clearing {V}.
