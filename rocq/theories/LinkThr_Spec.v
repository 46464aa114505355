(** What is expected of a LinkfailMetric that several threads feed. [streak], [online] and [outcomes_of] are those of Metrics_Spec: for how many
    outcomes, counting from the newest, an address has been well or not; whether it is online; what it saw, newest first. *)
From Verif Require Import Prelude Metrics_Spec MetrThr_Model LinkThr_Model.
Local Open Scope Z_scope.
Set Implicit Arguments.

(** the callbacks to be called for an address that saw these outcomes, newest first: one for every change, oldest first *)
Fixpoint changes (to_offline to_online : Z) (outcomes : list bool) : list bool :=
  match outcomes with
  | [] => []
  | _ :: older =>
    let before := online to_offline to_online older in
    let after := online to_offline to_online outcomes in
    changes to_offline to_online older ++ (if Bool.eqb before after then [] else [after])
  end.
(** what the address saw in these calls, oldest first; the result is newest first *)
Definition saw (a : Z) (calls : list (bool * Z)) : list bool := outcomes_of a (rev calls).
(** what the callbacks were told about the address, oldest first *)
Definition told_of (a : Z) (s : links) : list bool := map fst (filter (fun e => snd e =? a) (told s)).
(** everything the metric keeps of the address, and has told about it, is what it should after these calls *)
Definition right_about (to_offline to_online a : Z) (calls : list (bool * Z)) (s : links) : Prop :=
  fails (link_of s a) = streak false (saw a calls) /\ succs (link_of s a) = streak true (saw a calls) /\
  up (link_of s a) = online to_offline to_online (saw a calls) /\ told_of a s = changes to_offline to_online (saw a calls).
(** how many of the calls report this outcome of the address *)
Definition reports (b : bool) (a : Z) (calls : list (bool * Z)) : nat := length (filter (fun d => Bool.eqb (fst d) b && (snd d =? a)) calls).
