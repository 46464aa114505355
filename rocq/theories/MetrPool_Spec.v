(** C85: what the users of the pool rely on. *)
From Verif Require Import Prelude MetrPool_Model.
Set Implicit Arguments.

Definition is_waiting (x : place) : nat := match x with Waiting => 1 | _ => 0 end.
Definition task_of (x : place) : list nat := match x with Running t => [t] | _ => [] end.
(** how many workers wait for a task *)
Definition waiting (p : pool) : nat := list_sum (map is_waiting (workers p)).
(** the tasks being run *)
Definition running (p : pool) : list nat := concat (map task_of (workers p)).
Definition no_collection (l : list event) : Prop := ~ In Collect l.
(** no worker has anything to do, no submit() is under way *)
Definition at_rest (p : pool) : Prop := adjusting p = false /\ forall w, take p w = p /\ run p w = p /\ release p w = p.
