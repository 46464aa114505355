(** C41: link failures handled with labels *)
From Coq Require Import ZArith Lia.
From Verif Require Import Prelude PreludeFacts MoreFacts Metrics_Model Metrics_Spec Metrics_Proofs LinkLab_Spec LinkLab_Proofs.
Set Implicit Arguments.
Open Scope Z_scope.

(** After the first observation with labels every observation, with labels or without, counts for the set of its labels and its address:
    each such set goes offline and online like an address does, with one callback for each change, and the callback is told those labels and
    the address 0. What was observed before stays as it was. *)
Theorem C41_linkfail_labelled_callbacks : forall (Lab : Type) (leqb : Lab -> Lab -> bool), eqb_ok leqb ->
  forall to_offline to_online with_address (empty own : Lab) (h1 h2 : history Lab (bool * Z)) o, unlabelled h1 -> snd o <> None ->
  l_log (linkfail_run leqb to_offline to_online with_address empty own (h1 ++ o :: h2)) =
  transitions to_offline to_online own (rev (observed h1)) ++
  label_transitions leqb to_offline to_online (rev (map (counted_for with_address empty) (o :: h2))).
Proof.
  intros Lab leqb ok to_off to_on wa empty own h1 h2 o U O. rewrite (i_log (run_labelled ok to_off to_on wa empty own o h2 U O)).
  rewrite (@linkfail_callbacks Lab leqb to_off to_on wa empty own h1 U). reflexivity.
Qed.
Print Assumptions C41_linkfail_labelled_callbacks.
(** None of that is exported: the export stays what it was before the first observation with labels. *)
Theorem C41_linkfail_labelled_exports_refuted : forall (Lab : Type) (leqb : Lab -> Lab -> bool), eqb_ok leqb ->
  forall to_offline to_online with_address (empty own : Lab) order (h1 h2 : history Lab (bool * Z)) o, unlabelled h1 -> snd o <> None ->
  linkfail_export leqb order own (linkfail_run leqb to_offline to_online with_address empty own (h1 ++ o :: h2)) =
  linkfail_export leqb order own (linkfail_run leqb to_offline to_online with_address empty own h1).
Proof.
  intros Lab leqb ok to_off to_on wa empty own order h1 h2 o U O. unfold linkfail_export.
  rewrite (i_own (run_labelled ok to_off to_on wa empty own o h2 U O)). reflexivity.
Qed.
Print Assumptions C41_linkfail_labelled_exports_refuted.
Example C41_labelled_case :
  l_log (linkfail_run Z.eqb 2 1 (fun l a => 100 * l + a) 0 0 [((false, 7), None); ((false, 7), Some 3); ((false, 8), Some 3); ((false, 7), Some 3); ((true, 7), Some 3); ((false, 7), None)]) =
  [(false, 0, 307); (true, 0, 307)].
Proof. reflexivity. Qed.
