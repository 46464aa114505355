(** HistogramMetric fed by several threads (satella/instrumentation/metrics/metric_types/histogram.py:26-55). It takes no lock.
    The threads are those of MetrThr_Model: nothing interrupts a step, between two of them any other thread may run, and what Python calls
    [x += 1] is a step that reads and a step that writes. Numbers without a file are lines of histogram.py. Not modelled: labels and children
    (44-48), and the level check of handle() (base.py:137-142). Values and limits are integers. *)
From Verif Require Import Prelude MetrThr_Model.
Local Open Scope Z_scope.
Set Implicit Arguments.

(** count (37), sum (38), buckets (35): the list as a function of the index *)
Record hist : Type := { hcount : Z; hsum : Z; bucket : nat -> Z }.
Definition new_hist : hist := {| hcount := 0; hsum := 0; bucket := fun _ => 0 |}.
Inductive hcode : Type :=
| HReadCount (v : Z) | HWriteCount (v n : Z) | HReadSum (v : Z) | HWriteSum (v x : Z)
| HLoop (v lower : Z) (i : nat) (rest : list Z)                 (* at bucket i; [rest] are the limits from that of bucket i on *)
| HWriteBucket (v : Z) (i : nat) (rest : list Z) (n : Z).
(** the loop goes on (51-52, 55); its last round has the upper bound infinity *)
Definition onwards (v : Z) (i : nat) (rest : list Z) : next hcode unit :=
  match rest with u :: r => Next (HLoop v u (S i) r) | [] => Returned tt end.
Section Exec.
  Variable limits : list Z.                                     (* 34 *)
  Definition hexec (a : hcode) (s : hist) : hist * next hcode unit :=
    match a with
    | HReadCount v => (s, Next (HWriteCount v (hcount s)))                                                              (* 41 *)
    | HWriteCount v n => ({| hcount := n + 1; hsum := hsum s; bucket := bucket s |}, Next (HReadSum v))
    | HReadSum v => (s, Next (HWriteSum v (hsum s)))                                                                    (* 42 *)
    | HWriteSum v x => ({| hcount := hcount s; hsum := x + v; bucket := bucket s |}, Next (HLoop v 0 0 limits))          (* 50 *)
    | HLoop v lower i rest =>                                                                                           (* 53 *)
      (s, if (lower <=? v) && match rest with u :: _ => v <? u | [] => true end then Next (HWriteBucket v i rest (bucket s i)) else onwards v i rest)
    | HWriteBucket v i rest n =>                                                                                        (* 54 *)
      ({| hcount := hcount s; hsum := hsum s; bucket := put (bucket s) i (n + 1) |}, onwards v i rest)
    end.
  (** handle(value) for each value *)
  Definition hist_run : config hist Z hcode unit -> list nat -> config hist Z hcode unit := run HReadCount hexec.
End Exec.
Definition hist_start (programs : nat -> list Z) : config hist Z hcode unit := start hcode unit new_hist programs.
