(** Specification of ExclusiveWritebackCache: one dictionary. *)
From Verif Require Import Prelude Writeback_Model.
Set Implicit Arguments.

Section Spec.
  Context {K V : Type}.
  Variable eqb : K -> K -> bool.
  Variable deletable : bool.

  Definition wb_answer (m : dict K V) (o : wb_op K V) (out : wb_out K V) : Prop :=
    match o with
    | WGet k _ => out = match dget eqb m k with Some v => WOVal v | None => WORaise KeyError end
    | WSet _ _ | WRun _ => out = WONone
    | WDel _ => out = if deletable then WONone else WORaise TypeError
    | WSync => exists d, out = WOStore d /\ forall k, dget eqb d k = dget eqb m k
    end.
  Definition wb_after (m : dict K V) (o : wb_op K V) : dict K V :=
    match o with
    | WSet k v => dset eqb m k v
    | WDel k => if deletable then ddel eqb m k else m
    | _ => m
    end.
  Inductive wb_session : dict K V -> list (wb_op K V) -> list (wb_out K V) -> Prop :=
  | wbs_nil m : wb_session m [] []
  | wbs_cons m o out ops outs :
      wb_answer m o out -> wb_session (wb_after m o) ops outs -> wb_session m (o :: ops) (out :: outs).

  (** the executor runs its jobs in the order of submission (at any moments) *)
  Definition in_order (o : wb_op K V) : bool :=
    match o with
    | WGet _ (Some _) => false
    | WRun (S _) => false
    | _ => true
    end.
End Spec.
