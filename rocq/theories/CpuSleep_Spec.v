(** C81: how long sleeps that watch the CPU are. *)
From Verif Require Import Prelude CpuSleep_Model.
Set Implicit Arguments.
Local Open Scope Z_scope.

(** the moments at which the load is looked at: each [check] and at the end *)
Definition checkpoint (start seconds check c : Z) : Prop :=
  0 < seconds /\ (c = start + seconds \/ exists k, 1 <= k /\ c = start + k * check /\ k * check < seconds).
Definition outside (below above : option Z) (v : Z) : Prop := (exists b, above = Some b /\ b < v) \/ (exists b, below = Some b /\ v < b).
(** a sleep: to the end, or to the first look at the load that finds it outside *)
Definition slept (occ : Z -> Z) (start seconds check : Z) (below above : option Z) (fin : Z) (awoken : bool) : Prop :=
  (forall c, checkpoint start seconds check c -> c < fin -> ~ outside below above (occ c)) /\
  if awoken then checkpoint start seconds check fin /\ outside below above (occ fin)
  else fin = start + seconds /\ (0 < seconds -> ~ outside below above (occ fin)).

(** when loop() was called *)
Definition starts (l : list deed) : list Z := flat_map (fun d => match d with LoopAt t => [t] | OverrunAt _ _ => [] end) l.
(** one loop() that took [d] and the next: not earlier than max_sooner before its time, and not later than its time *)
Definition in_time (seconds max_sooner s d s' : Z) : Prop :=
  s + Z.max d (seconds - max_sooner) <= s' <= s + Z.max d seconds.
