(** C82: what the CPU profile is to say. *)
From Coq Require Import QArith.
From Verif Require Import Prelude PySeq_Model CpuProfile_Model.
Set Implicit Arguments.
Local Open Scope nat_scope.

(** percentiles: of the samples of the last recalculation, 0 if there are none *)
Fixpoint answers (P V : Type) (pct : list Z -> P -> V) (zero : V) (samples : list Z) (ops : list (pop P)) : list (option (res V)) :=
  match ops with
  | [] => []
  | PRequest _ :: t => None :: answers pct zero samples t
  | PAsk p :: t => Some (Ok (match samples with [] => zero | _ :: _ => pct (py_sorted Z.ltb samples) p end)) :: answers pct zero samples t
  | PRecalculate l :: t => None :: answers pct zero l t
  end.

(** the measurements taken by the first operations *)
Fixpoint saves (ops : list uop) : list save := match ops with [] => [] | Save e :: t => e :: saves t | Get :: t => saves t end.
(** p is the last measurement before the newest one, c, at another time *)
Definition before_newest (hist : list save) (p c : save) : Prop :=
  exists l mid, hist = l ++ p :: mid ++ [c] /\ fst p <> fst c /\ Forall (fun e => fst e = fst c) mid.
(** used per unit of time between them *)
Definition usage (p c : save) (q : list Q) : Prop := q = map (fun f => inject_Z (snd f - fst f) / inject_Z (fst c - fst p))%Q (combine (snd p) (snd c)).

(** each measurement at least [gap] after the one before *)
Fixpoint spaced (gap : Z) (l : list save) : Prop :=
  match l with
  | a :: ((b :: _) as t) => (fst a + gap <= fst b)%Z /\ spaced gap t
  | _ => True
  end.

(** what CPUs do when they are not idle; the time of users contains that of guests *)
Definition spent (c : times) : Z := fold_right (fun f n => match c f with Some v => v + n | None => n end)%Z 0%Z [User; Nice; System; Irq; Softirq; Steal].
