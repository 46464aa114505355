(** What Timer promises. *)
From Verif Require Import Prelude Timer_Model.
Set Implicit Arguments.
Local Open Scope Z_scope.

(** start() was called at this time, whether or not it raised *)
Definition was_started (l : list note) (at_ : Z) (t : nat) : Prop := In (Started at_ t) l \/ exists e, In (StartRaised at_ t e) l.
Definition is_start (t : nat) (n : note) : bool :=
  match n with Started _ t' | StartRaised _ t' _ => (t =? t')%nat | _ => false end.
Definition is_run (t : nat) (n : note) : bool := match n with Ran _ _ t' => (t =? t')%nat | _ => false end.
Definition count (P : note -> bool) (l : list note) : nat := length (filter P l).
(** no two different timers are started for the same time *)
Definition no_ties (interval : nat -> Z) (l : list note) : Prop :=
  forall a b t u, was_started l a t -> was_started l b u -> a + interval t = b + interval u -> t = u.
(** what the thread does about the timers due, in order of their times *)
Definition handled (s : state) (e : entry) : note :=
  if memb Nat.eqb (snd e) (cancelled s) then Skipped (fst e) (now s) (snd e) else Ran (fst e) (now s) (snd e).
Fixpoint in_order (l : list entry) : Prop :=
  match l with [] => True | e :: t => (forall e', In e' t -> fst e <= fst e') /\ in_order t end.
