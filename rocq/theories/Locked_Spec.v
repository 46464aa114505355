(** What LockedDataset promises. *)
From Verif Require Import Prelude Locked_Model.
Set Implicit Arguments.

Section LockedSpec.
  Variable V : Type.
  (** past __enter__ and not yet through __exit__'s release *)
  Definition in_with (th : lthread V) : Prop :=
    match at_ th with Acquired | Inside _ | Accessing _ _ => True | _ => False end.
  (** anywhere from the acquisition to the end of __exit__ *)
  Definition busy (th : lthread V) : Prop := in_with th \/ at_ th = Clearing.
  Definition only_with (a : action V) : Prop := match a with With _ _ => True | Bare _ => False end.

  (** A block done at one stroke on an attribute holding v. It may be cut short by ResourceNotLocked. *)
  Inductive block : V -> list (access V) -> list (result V) -> V -> Prop :=
  | B_end v : block v [] [] v
  | B_read v rest rs v' : block v rest rs v' -> block v (Read :: rest) (Value v :: rs) v'
  | B_write v w rest rs v' : block w rest rs v' -> block v (Write w :: rest) (Written :: rs) v'
  | B_cut v x rest : block v (x :: rest) [NotLocked] v.
  Inductive serial : V -> list (nat * action V * list (result V)) -> V -> Prop :=
  | S_end v : serial v [] v
  | S_block v t a body rs v1 log v' : block v body rs v1 -> serial v1 log v' -> serial v ((t, With a body, rs) :: log) v'
  | S_refused v t a body r log v' : r = WouldWait \/ r = BadCall -> serial v log v' -> serial v ((t, With a body, [r]) :: log) v'.
  Definition of_thread (t : nat) (log : list (nat * action V * list (result V))) : list (action V * list (result V)) :=
    map (fun e => (snd (fst e), snd e)) (filter (fun e => Nat.eqb (fst (fst e)) t) log).
  (** The log has the blocks that are over, thread by thread, with their results; a thread inside has results of its block so far. *)
  Definition explains (log : list (nat * action V * list (result V))) (v : V) (programs : list (list (action V))) (c : lstate V) : Prop :=
    (forall t program th, nth_error programs t = Some program -> nth_error (lthreads c) t = Some th ->
      (exists rest, program = map fst (of_thread t log) ++ rest /\ (at_ th = Outside -> rest = todo th)) /\
      (exists so_far, results th = concat (map snd (of_thread t log)) ++ so_far /\ (~ in_with th -> so_far = []))) /\
    exists v', serial v log v' /\ (lock c = None -> attr c = v').

  (** Nobody takes a turn between the release and the clearing of the flag. *)
  Definition no_gap (c : lstate V) (e : event) : Prop :=
    forall t th, nth_error (lthreads c) t = Some th -> at_ th = Clearing -> e = Turn t.
  Fixpoint no_gaps (c : lstate V) (es : list event) : Prop :=
    match es with [] => True | e :: rest => no_gap c e /\ no_gaps (levent c e) rest end.
End LockedSpec.
