(** C22: merge_list and merge_series. *)
From Verif Require Import Prelude MoreFacts Order_Spec Merge_Model Merge_Spec Merge_Proofs.

(** merge_list, for any number of sequences ordered by key, any keys and any values
    Python can compare: it ends, keys grow, every key occurs once, with all of its
    values joined. *)
Theorem C22_merge_list : forall (K V : Type) (ltK eqK : K -> K -> bool) (ltV eqV : V -> V -> bool) (f : V -> V -> V),
  linear_order ltK eqK -> linear_order ltV eqV ->
  forall lists, (forall l, In l lists -> by_key ltK l) ->
  exists out, merge_list ltK eqK ltV eqV f lists = Ok out /\ is_merge ltK eqK f (concat lists) out.
Proof. intros K V ltK eqK ltV eqV f HK HV lists. exact (merge_list_ok f HK HV lists). Qed.
Print Assumptions C22_merge_list.

(** merge_series, for series that each start before any other has given two elements. *)
Theorem C22_merge_series_partial : forall (V : Type) (series : list (list (Z * V))),
  series <> [] -> (forall l, In l series -> l <> []) -> (forall l, In l series -> timestamps_grow l) ->
  start_together series ->
  exists out, merge_series series = Ok out /\ is_series_merge series out.
Proof. intros V series. exact (@merge_series_ok V series). Qed.
Print Assumptions C22_merge_series_partial.

Definition C22_full_statement : Prop := forall (V : Type) (series : list (list (Z * V))),
  series <> [] -> (forall l, In l series -> l <> []) -> (forall l, In l series -> timestamps_grow l) ->
  exists out, merge_series series = Ok out /\ is_series_merge series out.

Local Open Scope Z_scope.
Definition ahead_series : list (list (Z * nat)) := [[(1, 1%nat); (2, 2%nat); (10, 3%nat)]; [(5, 4%nat); (11, 5%nat)]].
(** One series is two elements ahead when the other one starts, and the latter has
    more to give: ValueError, with nothing merged. *)
Theorem C22_series_ahead_refuted : merge_series ahead_series = Err ValueError.
Proof. vm_compute. reflexivity. Qed.
Print Assumptions C22_series_ahead_refuted.

Theorem C22_full_statement_refuted : ~ C22_full_statement.
Proof.
  intros H. destruct (H nat ahead_series) as (out & E & _).
  - discriminate.
  - intros l [<-|[<-|[]]]; discriminate.
  - intros l [<-|[<-|[]]] [|[|[|i]]] [|[|[|j]]] a b Hij Ha Hb; simpl in *; try lia; try (destruct i; discriminate);
      try (destruct j; discriminate); try discriminate; inversion Ha; inversion Hb; reflexivity.
  - rewrite C22_series_ahead_refuted in E. discriminate.
Qed.
Print Assumptions C22_full_statement_refuted.

(** Documented: ValueError when one of the series is empty. The result is empty. *)
Theorem C22_empty_series_refuted : merge_series [[(1, 1%nat)]; []] = Ok [].
Proof. vm_compute. reflexivity. Qed.
Print Assumptions C22_empty_series_refuted.

Example C22_examples :
  merge_list Z.ltb Z.eqb Z.ltb Z.eqb Z.add [[(1, 2); (3, 1); (3, 5)]; []; [(0, 7); (1, 1); (4, 4)]]
    = Ok [(0, 7); (1, 3); (3, 6); (4, 4)] /\
  merge_series [[(1, 1%nat); (6, 2%nat); (10, 3%nat)]; [(5, 4%nat); (10, 5%nat); (12, 6%nat)]; [(3, 7%nat)]]
    = Ok [(5, [1; 4; 7]%nat); (6, [2; 4; 7]%nat); (10, [3; 5; 7]%nat); (12, [3; 6; 7]%nat)].
Proof. vm_compute. split; reflexivity. Qed.
(** the hypotheses are met by these inputs *)
Example C22_hypotheses_met :
  linear_order Z.ltb Z.eqb /\ by_key Z.ltb [(0, 7); (1, 1); (4, 4)] /\
  timestamps_grow [(1, 1%nat); (6, 2%nat); (10, 3%nat)] /\
  start_together [[(1, 1%nat); (6, 2%nat); (10, 3%nat)]; [(5, 4%nat); (10, 5%nat); (12, 6%nat)]; [(3, 7%nat)]].
Proof.
  split; [exact z_linear|]. split; [|split].
  - intros [|[|[|i]]] [|[|[|j]]] a b Hij Ha Hb; simpl in *; try lia; try (destruct i; discriminate); try (destruct j; discriminate);
      inversion Ha; inversion Hb; reflexivity.
  - intros [|[|[|i]]] [|[|[|j]]] a b Hij Ha Hb; simpl in *; try lia; try (destruct i; discriminate); try (destruct j; discriminate);
      inversion Ha; inversion Hb; reflexivity.
  - intros M l a b r [_ (l0 & v0 & r0 & H0 & E0 & EM)] H E.
    destruct H as [<-|[<-|[<-|[]]]], H0 as [<-|[<-|[<-|[]]]]; inversion E; inversion E0; subst; simpl in *; lia.
Qed.
