(** What counts as a component of an object. *)
From Verif Require Import Prelude Size_Model.
Set Implicit Arguments.
Open Scope Z_scope.

(** its keys and values, its attributes, and its elements unless it is a text *)
Definition component (h : heap) (x y : nat) : Prop :=
  (is_dict (h x) = true /\ (In y (vals (h x)) \/ In y (keys (h x)))) \/
  attrs (h x) = Some y \/
  (exists l, items (h x) = Some l /\ is_text (h x) = false /\ In y l).
Inductive within (h : heap) (x : nat) : nat -> Prop :=
| itself : within h x x
| deeper y z : within h x y -> component h y z -> within h x z.
(** a dict that has no attributes and gives its keys when iterated; an object with attributes that has no elements;
    or an object with elements and no attributes *)
Definition plain (o : obj) : Prop :=
  if is_dict o then attrs o = None /\ (items o = None \/ items o = Some (keys o))
  else attrs o = None \/ items o = None \/ is_text o = true.
Definition total (h : heap) (l : list nat) : Z := fold_right Z.add 0 (map (fun y => bytes (h y)) l).
