(** What is expected of metrics that several threads feed. *)
From Coq Require Import Sorted.
From Verif Require Import Prelude MetrThr_Model.
Local Open Scope Z_scope.
Set Implicit Arguments.

Section Threads.
  Variables S Call Code R : Type.
  Variable first : Call -> Code.
  Variable exec : Code -> S -> S * next Code R.
  (** only the threads below [n] call anything *)
  Definition threads_below (n : nat) (programs : nat -> list Call) : Prop := forall t, (n <= t)%nat -> programs t = [].
  (** the calls of the first [n] threads *)
  Definition all_calls (n : nat) (programs : nat -> list Call) : list Call := flat_map programs (seq 0 n).
  (** nobody is inside a call *)
  Definition idle (c : config S Call Code R) : Prop := forall t, current c t = None.
  (** every call was made and has ended *)
  Definition finished (c : config S Call Code R) : Prop := idle c /\ forall t, todo c t = [].
  (** the calls that ended, in order *)
  Definition ended (c : config S Call Code R) : list Call := map fst (log c).
  (** no thread that has something to do has a turn while another is inside a call *)
  Fixpoint one_at_a_time (c : config S Call Code R) (schedule : list nat) : Prop :=
    match schedule with
    | [] => True
    | t :: r => (todo c t = [] /\ current c t = None \/ forall u, u <> t -> current c u = None) /\ one_at_a_time (turn first exec c t) r
    end.
End Threads.

Definition total (l : list Z) : Z := fold_right Z.add 0 l.
(** how many of them are within [period] before [now] *)
Definition within (now period : Z) (l : list Z) : nat := length (filter (fun x => now - period <=? x) l).
(** the clicks among the calls *)
Definition clicked (l : list pcall) : list Z := flat_map (fun k => match k with Click _ a => [a] | Export _ => [] end) l.
(** the deltas fed with the labels *)
Definition fed (k : nat) (l : list (nat * Z)) : list Z := map snd (filter (fun e => Nat.eqb (fst e) k) l).
(** the clock does not go back while the calls are made *)
Definition readings (l : list pcall) : list Z := flat_map (fun k => match k with Click m a => [m; a] | Export m => [m] end) l.
Definition clock_ok (l : list pcall) : Prop := StronglySorted Z.le (readings l).
(** the time of the last click *)
Definition last_time (l : list pcall) : option Z :=
  fold_left (fun o k => match k with Click m _ => Some m | Export _ => o end) l None.
(** the clicks to be kept: those in the cutoff period before the last one *)
Definition kept (cutoff_period : Z) (l : list pcall) : list Z :=
  match last_time l with None => [] | Some m => filter (fun a => m - cutoff_period <? a) (clicked l) end.
(** children of a family: one for every label set *)
Definition one_child_each (s : family) : Prop :=
  NoDup (map fst (children s)) /\ forall k i, dget Nat.eqb (mapping s) k = Some i <-> In (k, i) (children s).
