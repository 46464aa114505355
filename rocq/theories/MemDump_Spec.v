From Coq Require Import ZArith.
From Verif Require Import Prelude MemDump_Model.
(** the size reported for an object: 0 where it cannot be told *)
Definition bytes (o : obj) : Z := match size o with Ok n => n | Err _ => 0%Z end.
Definition of_type (t : nat) (l : list obj) : list obj := filter (fun o => Nat.eqb (typ o) t) l.
Definition total (l : list obj) : Z := fold_right Z.add 0%Z (map bytes l).
(** it can be printed, and its size is known or declared to be not known *)
Definition printable (o : obj) : Prop := (exists s, text o = Ok s) /\ (match size o with Err e => e = TypeError | Ok _ => True end).
