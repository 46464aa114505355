(** What the memory pressure manager promises. *)
From Coq Require Import QArith.
From Verif Require Import Prelude Pressure_Model.
Set Implicit Arguments.
Local Open Scope nat_scope.

(** When a condition holds, as documented: values are limits of what is free, in bytes or in percent of all there is *)
Fixpoint holds (m : memory) (c : condition) : Prop :=
  match c with
  | ZerothSeverity => True
  | CustomCondition f => custom m f = Ok true
  | GlobalAbsoluteValue v => (available m < v)%Z
  | GlobalRelativeValue v => (inject_Z (available m) * 100 < inject_Z v * inject_Z (total m))%Q
  | LocalAbsoluteValue v => exists x, maximum m = Some x /\ (x - rss m < v)%Z
  | LocalRelativeValue v => exists x, maximum m = Some x /\ ((inject_Z x - inject_Z (rss m)) * 100 < inject_Z v * inject_Z x)%Q
  | AnyOf l => (fix any (l : list condition) : Prop := match l with [] => False | c :: t => holds m c \/ any t end) l
  | AllOf l => (fix all (l : list condition) : Prop := match l with [] => True | c :: t => holds m c /\ all t end) l
  | NotOf c => ~ holds m c
  end.
(** the machine has memory, and so has the program if a maximum was given *)
Definition sane (m : memory) : Prop := (0 < total m)%Z /\ forall x, maximum m = Some x -> (0 < x)%Z.
(** conditions without LocalRelativeValue *)
Fixpoint not_relative (c : condition) : Prop :=
  match c with
  | LocalRelativeValue _ => False
  | AnyOf l | AllOf l => (fix all (l : list condition) : Prop := match l with [] => True | c :: t => not_relative c /\ all t end) l
  | NotOf c => not_relative c
  | _ => True
  end.
(** [k] is the highest level with a condition that fires; 0 if none does *)
Definition severity (fires : condition -> Prop) (conds : list condition) (k : nat) : Prop :=
  (k = 0 \/ exists c, nth_error conds (k - 1) = Some c /\ fires c) /\
  forall j c, k <= j -> nth_error conds j = Some c -> ~ fires c.

(** what a check that goes from level a to level b announces: every level on the way, once *)
Definition live (m : manager) (g : list nat) : list nat := filter (fun c => negb (memb Nat.eqb c (cancelled m))) g.
Definition upwards (m : manager) (w : world) (a b : nat) : list notice :=
  flat_map (fun k => map (Entered k) (live m (entered m k)) ++ map (Cleaned k) (filter (fun o => negb (gone w o)) (objects m k))) (seq (S a) (b - a)).
Definition downwards (m : manager) (a b : nat) : list notice :=
  flat_map (fun k => map (Left k) (live m (left_ m k))) (rev (seq (S b) (a - b))) ++ (if b =? 0 then map Normal (live m (normal m)) else []).
Definition announcements (m : manager) (w : world) (b : nat) : list notice :=
  if level m <? b then upwards m w (level m) b
  else if b <? level m then downwards m (level m) b
  else map (Remaining b) (live m (remains m b)).

Definition notices (outs : list out) : list notice := flat_map (fun o => match o with Did l _ => l | _ => [] end) outs.
(** nothing raised in any check *)
Definition quiet (outs : list out) : Prop := forall l e, ~ In (Did l (Some e)) outs.
(** a, b, a, b, ...: ending with a if [open], with b or empty if not *)
Inductive alternating {A : Type} (a b : A) : list A -> bool -> Prop :=
| alt_nil : alternating a b [] false
| alt_a : forall l, alternating a b l false -> alternating a b (l ++ [a]) true
| alt_b : forall l, alternating a b l true -> alternating a b (l ++ [b]) false.
Definition is_about (k c d : nat) (x : notice) : bool :=
  match x with Entered j e => (j =? k) && (e =? c) | Left j e => (j =? k) && (e =? d) | _ => false end.
(** the callback a notice is about *)
Definition about (x : notice) : option nat :=
  match x with Entered _ c | Left _ c | Remaining _ c | Normal c => Some c | Cleaned _ _ => None end.
