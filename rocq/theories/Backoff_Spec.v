(** What ExponentialBackoff promises (satella/time/backoff.py). *)
From Verif Require Import Prelude Backoff_Model.
Set Implicit Arguments.
Local Open Scope Z_scope.

(** The wait after [k] failures in a row: none during the grace, then [start], doubling, at most [limit]. *)
Definition wait (start limit : Z) (grace : nat) (k : nat) : Z :=
  if (k <=? grace)%nat then 0 else Z.min limit (start * 2 ^ Z.of_nat (k - grace - 1)).

(** What matters of the history: how many failures since the last success, and when the last of them was. *)
Record history : Type := mk_history { failures : nat; last_failure : Z }.
Definition after (h : history) (o : backoff_op) : history :=
  match o with
  | BFailed now => mk_history (S (failures h)) now
  | BSuccess => mk_history 0 (last_failure h)
  | _ => h
  end.
(** To be waited for: the failures exceeded the grace and no more than the wait has passed since the last one. *)
Definition waiting (start limit : Z) (grace : nat) (h : history) (now : Z) : bool :=
  negb (failures h <=? grace)%nat && (now <=? last_failure h + wait start limit grace (failures h)).
Definition answer (start limit : Z) (grace : nat) (h : history) (o : backoff_op) : backoff_out :=
  match o with
  | BFailed _ | BSuccess => OUnit
  | BSleep => OSleep (wait start limit grace (failures h))
  | BNextCheck now => ONextCheck (if waiting start limit grace h now
                                  then Some (last_failure h + wait start limit grace (failures h) - now) else None)
  | BReady now => OBool (negb (waiting start limit grace h now))
  | BAvailable => OBool (failures h <=? grace)%nat
  end.
Fixpoint answers (start limit : Z) (grace : nat) (h : history) (ops : list backoff_op) : list backoff_out :=
  match ops with [] => [] | o :: t => answer start limit grace h o :: answers start limit grace (after h o) t end.

(** The clock does not go back. *)
Definition reading (o : backoff_op) : list Z := match o with BFailed t | BNextCheck t | BReady t => [t] | _ => [] end.
Fixpoint rising (from : Z) (l : list Z) : Prop := match l with [] => True | t :: r => from <= t /\ rising t r end.
Definition clock_rises (ops : list backoff_op) : Prop :=
  match flat_map reading ops with [] => True | t :: r => rising t r end.
