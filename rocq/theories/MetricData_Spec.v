(** What collections of metric data are expected to do. *)
From Coq Require Import String.
From Verif Require Import Prelude MetricData_Model.
Import ListNotations.
Open Scope list_scope.
Set Implicit Arguments.

Section Spec.
Variables (Lab V : Type).
Variable hash : string * Lab -> Z.
(** the data of a collection *)
Definition contents (hp : heap Lab V) (s : pset) : list (datum Lab V) := map (fun e => hp (snd e)) s.
(** no element was changed since it was added in a way that changes its hash *)
Definition up_to_date (hp : heap Lab V) (s : pset) : Prop := forall e, In e s -> fst e = hash (dkey (hp (snd e))).
(** one datum per name and labels *)
Definition one_per_key (hp : heap Lab V) (s : pset) : Prop := NoDup (map (@dkey Lab V) (contents hp s)).
Definition valid (hp : heap Lab V) (s : pset) : Prop := up_to_date hp s /\ one_per_key hp s.
End Spec.

(** labels that to_json can represent: no name twice, none of the reserved ones *)
Definition reserved : list string := ["_name"; "_"; "_timestamp"; "_internal"]%string.
Definition plain_labels (l : jdict) : Prop := NoDup (map fst l) /\ forall n, In n (map fst l) -> ~ In n reserved.
(** internal is a boolean *)
Definition boolean (v : jval) : Prop := exists b, v = JBool b.
