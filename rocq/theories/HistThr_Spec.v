(** What is expected of a HistogramMetric that several threads feed. *)
From Verif Require Import Prelude MetrThr_Model MetrThr_Spec HistThr_Model.
Local Open Scope Z_scope.
Set Implicit Arguments.

(** bucket [i] takes the values from the limit before its own on (from 0, if it is the first) and below its own (without end, if it is the last) *)
Definition in_bucket (limits : list Z) (i : nat) (v : Z) : bool :=
  match nth_error (0 :: limits) i with Some lower => lower <=? v | None => false end &&
  match nth_error limits i with Some upper => v <? upper | None => true end.
(** how many of the values it takes *)
Definition number_in (limits : list Z) (i : nat) (values : list Z) : Z := Z.of_nat (length (filter (in_bucket limits i) values)).
(** the metric shows what these values give *)
Definition shows (limits : list Z) (values : list Z) (s : hist) : Prop :=
  hcount s = Z.of_nat (length values) /\ hsum s = total values /\ forall i, bucket s i = number_in limits i values.
