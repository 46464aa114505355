(** C73: what synchronising a thread pool means. *)
From Coq Require Import Permutation.
From Verif Require Import Prelude SyncPool_Model.
Set Implicit Arguments.

(** the jobs of the user in the queue, and those being run *)
Definition waiting (p : pool) : list nat := flat_map (fun x => match x with Job j => [j] | Task => [] end) (queue p).
Definition running (p : pool) : list nat := flat_map (fun w => match w with Running j => [j] | _ => [] end) (workers p).

(** every job submitted is in exactly one place, once *)
Definition accounted (p : pool) : Prop := Permutation (waiting p ++ running p ++ finished p) (seq 0 (submitted p)).

(** nobody else submits anything *)
Definition no_submissions (es : list event) : Prop := ~ In Submit es.
(** the call will not return, whatever happens *)
Definition never_returns (timed : bool) (p : pool) : Prop := forall es, caller (exec timed p es) <> Returned.
