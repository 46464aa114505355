(** C10: theorems about ExclusiveWritebackCache. *)
From Verif Require Import Prelude Writeback_Model Writeback_Spec Writeback_Proofs.

(** C10, full statement (false, see below): whatever the executor's schedule,
    the cache answers as one dictionary, and after sync() the storage holds
    exactly that dictionary. *)
Definition C10_full_statement : Prop :=
  forall (K V : Type) (eqb : K -> K -> bool), eqb_ok eqb ->
  forall (store_key_errors deletable : bool) (store : dict K V) (ops : list (wb_op K V)), dwf store ->
    wb_session eqb deletable store ops (fst (wb_run eqb store_key_errors deletable (wb_init store) ops)).

(** C10, proved part: executors that run the jobs in the order of submission. *)
Theorem C10_writeback_cache_is_a_dict_partial :
  forall (K V : Type) (eqb : K -> K -> bool), eqb_ok eqb ->
  forall (store_key_errors deletable : bool) (store : dict K V) (ops : list (wb_op K V)), dwf store ->
    forallb in_order ops = true ->
    wb_session eqb deletable store ops (fst (wb_run eqb store_key_errors deletable (wb_init store) ops)).
Proof. exact @wb_session_ok. Qed.
Print Assumptions C10_writeback_cache_is_a_dict_partial.

Local Definition wb_ops_ex : list (wb_op nat nat) :=
  [WGet 1 None; WSet 1 11; WSet 2 20; WRun 0; WGet 3 None; WDel 1; WGet 1 None; WSync; WSet 1 12; WDel 2;
   WGet 2 None; WSync].
Example C10_example :
  eqb_ok Nat.eqb /\ dwf [(1, 10)] /\ forallb in_order wb_ops_ex = true /\
  fst (wb_run Nat.eqb true true (wb_init [(1, 10)]) wb_ops_ex) =
  [WOVal 10; WONone; WONone; WONone; WORaise KeyError; WONone; WORaise KeyError; WOStore [(2, 20)]; WONone; WONone;
   WORaise KeyError; WOStore [(1, 12)]].
Proof.
  split; [exact Nat.eqb_eq|split; [|split; vm_compute; reflexivity]].
  constructor; [intros []|constructor].
Qed.

(** Two workers may finish two writes of one key in the other order (the default
    executor has four): the storage keeps the older value. *)
Theorem C10_reordered_writes_refuted :
  fst (wb_run Nat.eqb true true (wb_init []) [WSet 1 10; WSet 1 11; WRun 1; WSync; WGet 1 None])
  = [WONone; WONone; WONone; WOStore [(1, 10)]; WOVal 11].
Proof. vm_compute. reflexivity. Qed.
Print Assumptions C10_reordered_writes_refuted.

(** Without store_key_errors, a deleted key is still read while the deletion is pending. *)
Theorem C10_deleted_key_read_refuted :
  fst (wb_run Nat.eqb false true (wb_init [(1, 10)]) [WDel 1; WGet 1 (Some [])])
  = [WONone; WOVal 10].
Proof. vm_compute. reflexivity. Qed.
Print Assumptions C10_deleted_key_read_refuted.

Theorem C10_full_statement_refuted : ~ C10_full_statement.
Proof.
  intros H. specialize (H nat nat Nat.eqb Nat.eqb_eq true true []
    [WSet 1 10; WSet 1 11; WRun 1; WSync; WGet 1 None] ltac:(constructor)).
  rewrite C10_reordered_writes_refuted in H.
  inversion H as [|? ? ? ? ? A1 H1]; subst. inversion H1 as [|? ? ? ? ? A2 H2]; subst.
  inversion H2 as [|? ? ? ? ? A3 H3]; subst. inversion H3 as [|? ? ? ? ? A4 H4]; subst.
  destruct A4 as (d & E & A). injection E as <-. specialize (A 1). vm_compute in A. discriminate.
Qed.
Print Assumptions C10_full_statement_refuted.
