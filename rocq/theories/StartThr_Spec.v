From Verif Require Import Prelude StartThr_Model.
(** nobody else terminates it during a join *)
Definition quiet (o : bop) : Prop := match o with Join _ polls => Forall (fun p => snd p = false) polls | _ => True end.
(** started before it was terminated *)
Definition was_started (ops : list bop) : Prop := exists l1 l2, ops = l1 ++ Start :: l2 /\ ~ In Terminate l1.
