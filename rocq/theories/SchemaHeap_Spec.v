From Coq Require Import String.
From Verif Require Import Prelude SchemaHeap_Model.
Set Implicit Arguments.
Definition contents (c : cell) : list val := match c with LCell l | TCell l => l | DCell d => map snd d end.
(** the objects that can be reached from a value *)
Inductive reach (h : heap) : val -> nat -> Prop :=
| reach_here n : reach h (VRef n) n
| reach_in n v m : In v (contents (cells h n)) -> reach h v m -> reach h (VRef n) m.
(** every object there was has the contents it had *)
Definition kept (h h' : heap) : Prop := next h <= next h' /\ forall n, n < next h -> cells h' n = cells h n.
Definition atom (v : val) : Prop := match v with VAtom _ => True | VRef _ => False end.
(** a descriptor that leaves no part of the value undescribed: nowhere is something given back as it is *)
Inductive thorough : desc -> Prop :=
| t_basic make : (forall v w, make v = Ok w -> atom w) -> thorough (HBasic make)
| t_list d : thorough d -> thorough (HList d)
| t_dict keys mapper : Forall (fun k => atom (snd (fst (snd k))) /\ thorough (snd (snd k))) keys ->
    (forall k v w, mapper k v = Ok w -> atom w) -> thorough (HDict keys mapper)
| t_union ds : Forall thorough ds -> thorough (HUnion ds).
(** Descriptor(), and the default unknown_key_mapper *)
Definition any : desc := HBasic (fun v => Ok v).
Definition keep : string -> val -> res val := fun _ v => Ok v.
