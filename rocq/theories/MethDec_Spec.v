From Verif Require Import Prelude MethDec_Model.
Set Implicit Arguments.

(** objects below [next] only *)
Definition good (h : heap) (v : val) : Prop := match v with Imm _ => True | Ref n => n < next h end.
Definition closed (h : heap) : Prop := forall n, n < next h -> Forall (good h) (cells h n).
(** the objects that can be reached from values *)
Inductive reach (h : heap) (vs : list val) : nat -> Prop :=
| reach_here n : In (Ref n) vs -> reach h vs n
| reach_in m n : reach h vs m -> In (Ref n) (cells h m) -> reach h vs n.
(** a function that changes only new objects and those it can reach from its arguments *)
Definition honest (R : Type) (fun_ : heap -> list val -> heap * R) : Prop :=
  forall h args n, n < next h -> ~ reach h args n -> cells (fst (fun_ h args)) n = cells h n.
(** a function that changes only new objects and its arguments themselves *)
Definition honest_top (R : Type) (fun_ : heap -> list val -> heap * R) : Prop :=
  forall h args n, n < next h -> ~ In (Ref n) args -> cells (fst (fun_ h args)) n = cells h n.
(** [v'] in [h'] is a copy of [v] in [h]: the objects correspond *)
Definition via (f : nat -> nat) (v : val) : val := match v with Imm z => Imm z | Ref n => Ref (f n) end.
Definition is_copy (h : heap) (v : val) (h' : heap) (v' : val) : Prop :=
  exists f, v' = via f v /\ (forall n, reach h [v] n -> cells h' (f n) = map (via f) (cells h n)) /\
            (forall n m, reach h [v] n -> reach h [v] m -> f n = f m -> n = m).
