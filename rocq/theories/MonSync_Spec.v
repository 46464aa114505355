(** What users rely on about monitors, told by the log of what happened. *)
From Verif Require Import Prelude MonSync_Model.
Set Implicit Arguments.

Section Spec.
  Variable reentrant : nat -> bool.

  (** Who is inside monitor [m], and how many times, after an event; None if the
      event should not have been possible. *)
  Definition next_owner (m : nat) (o : option (nat * nat)) (e : event) : option (option (nat * nat)) :=
    let enter t := match o with
                   | None => Some (Some (t, 1))
                   | Some (u, n) => if Nat.eqb u t then (if reentrant m then Some (Some (t, S n)) else None) else None
                   end in
    let go t := match o with
                | Some (u, 1) => if Nat.eqb u t then Some None else None
                | Some (u, S n) => if Nat.eqb u t then Some (Some (u, n)) else None
                | _ => None
                end in
    match e with
    | Entered t m' | TookBack t m' => if Nat.eqb m' m then enter t else Some o
    | Left t m' | GaveUp t m' => if Nat.eqb m' m then go t else Some o
    | Refused _ m' => if Nat.eqb m' m then None else Some o
    | Did _ _ => Some o
    end.

  (** the owner of [m] after [l]; None if anything impossible happened to [m] *)
  Fixpoint owner_from (m : nat) (o : option (nat * nat)) (l : list event) : option (option (nat * nat)) :=
    match l with
    | [] => Some o
    | e :: t => match next_owner m o e with Some o' => owner_from m o' t | None => None end
    end.
  Definition owner (m : nat) (l : list event) : option (option (nat * nat)) := owner_from m None l.

  (** ** How monitors may be used.  [held] lists the monitors the program is
      inside, innermost first, without the ones it has released for a while. *)
  Definition entered (m : nat) (held : list nat) : list nat := m :: held.
  Definition given_up (m : nat) (held : list nat) : list nat := remove_first Nat.eqb m held.

  (** a Monitor is never entered twice, and only what is held is released *)
  Fixpoint proper (held : list nat) (p : code) : Prop :=
    match p with
    | Done | Throw => True
    | Do _ k => proper held k
    | Try b k => proper held b /\ proper held k
    | With m b k => (reentrant m = false -> ~ In m held) /\ proper (entered m held) b /\ proper held k
    | Release m b k => In m held /\ proper (given_up m held) b /\ proper held k
    end.

  (** moreover monitors are entered in ascending order (an RMonitor that is held
      may be entered again), and only the highest one is released *)
  Fixpoint ordered (held : list nat) (p : code) : Prop :=
    match p with
    | Done | Throw => True
    | Do _ k => ordered held k
    | Try b k => ordered held b /\ ordered held k
    | With m b k => ((forall x, In x held -> x < m) \/ (reentrant m = true /\ In m held)) /\
                    ordered (entered m held) b /\ ordered held k
    | Release m b k => In m held /\ (forall x, In x (given_up m held) -> x < m) /\
                       ordered (given_up m held) b /\ ordered held k
    end.
End Spec.

(** ** What a program does if there were no monitors at all: its steps, and
    whether it ends with an exception *)
Fixpoint meaning (p : code) : list nat * bool :=
  match p with
  | Done => ([], false)
  | Throw => ([], true)
  | Do a k => let (l, e) := meaning k in (a :: l, e)
  | Try b k => let (l, _) := meaning b in let (l', e) := meaning k in (l ++ l', e)
  | With _ b k | Release _ b k =>
    let (l, e) := meaning b in
    if e then (l, true) else let (l', e') := meaning k in (l ++ l', e')
  end.

(** the steps of thread t *)
Fixpoint steps_of (t : nat) (l : list event) : list nat :=
  match l with
  | [] => []
  | Did u a :: l' => if Nat.eqb u t then a :: steps_of t l' else steps_of t l'
  | _ :: l' => steps_of t l'
  end.

(** a thread has come to the end of its program *)
Definition finished (th : thread) : Prop := stack th = [] /\ (failing th = true \/ now th = Done).

(** thread t cannot do anything now *)
Definition waits (reentrant : nat -> bool) (c : config) (t : nat) : Prop :=
  threads (turn reentrant c t) t = threads c t.

(** [rounds] times: each of the threads below [n] has a turn *)
Fixpoint round_robin (n rounds : nat) : list nat :=
  match rounds with 0 => [] | S r => seq 0 n ++ round_robin n r end.

(** the program never touches monitor m *)
Fixpoint avoids (m : nat) (p : code) : Prop :=
  match p with
  | Done | Throw => True
  | Do _ k => avoids m k
  | Try b k => avoids m b /\ avoids m k
  | With m' b k | Release m' b k => m' <> m /\ avoids m b /\ avoids m k
  end.
