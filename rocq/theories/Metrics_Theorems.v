(** C40, C41: what the metrics export. *)
From Coq Require Import String QArith Sorted.
From Verif Require Import Prelude Transforms_Model Metrics_Model Metrics_Spec Metrics_Proofs.
Import ListNotations.
Open Scope list_scope.
Open Scope Z_scope.

(** ** C40: histogram *)
(** after any sequence of observations, with or without labels, exactly the expected data are exported: every bucket with the
    number of observations in it, the number and the sum of the observations; for every set of labels and in total *)
Theorem C40_histogram_exports_exactly : forall (Lab : Type) (leqb : Lab -> Lab -> bool), eqb_ok leqb ->
  forall (limits : list Z) (aggregate : bool) (empty own : Lab) (h : history Lab Z) k v,
  dget (mkey_eqb leqb) (histogram_export leqb limits aggregate empty own (histogram_run leqb limits aggregate h)) k = Some v <->
  histogram_datum leqb limits aggregate empty own h k v.
Proof. exact histogram_ok. Qed.
Print Assumptions C40_histogram_exports_exactly.
(** for limits in order, an observation that is not negative falls in exactly one bucket *)
Theorem C40_one_bucket : forall limits v, StronglySorted Z.le (0 :: limits) -> 0 <= v ->
  exists! i, exists lower, nth_error (0 :: limits) i = Some lower /\ falls lower (nth_error limits i) v.
Proof. exact (fun limits v => falls_unique_aux v limits 0). Qed.
Print Assumptions C40_one_bucket.
(** the exported buckets sum up to the number of observations that are not negative *)
Theorem C40_buckets_sum : forall (Lab : Type) (leqb : Lab -> Lab -> bool), eqb_ok leqb ->
  forall (limits : list Z) (aggregate : bool) (empty own : Lab) (h : history Lab Z), unlabelled h -> StronglySorted Z.le (0 :: limits) ->
  exists ns, Forall2 (fun b n => dget (mkey_eqb leqb) (histogram_export leqb limits aggregate empty own (histogram_run leqb limits aggregate h)) (name_of "" own (EBucket (fst b) (snd b))) = Some n)
    (combine (0 :: limits) (map Some limits ++ [None])) ns /\ sum ns = number (filter (fun v => 0 <=? v) (observed h)).
Proof. exact bucket_sum. Qed.
Print Assumptions C40_buckets_sum.
Example C40_example :
  histogram_export Z.eqb [5; 10] true 0 0 (histogram_run Z.eqb [5; 10] true [(5, None); (-1, None); (4, None); (10, None); (70, None)]) =
    [((".count"%string, 0, ENone), 5); ((".sum"%string, 0, ENone), 88);
     ((""%string, 0, EBucket 0 (Some 5)), 1); ((""%string, 0, EBucket 5 (Some 10)), 1); ((""%string, 0, EBucket 10 None), 2)] /\
  dget (mkey_eqb Z.eqb) (histogram_export Z.eqb [5] true 0 0 (histogram_run Z.eqb [5] true [(3, None); (4, Some 1); (9, Some 2)])) (".total"%string, 0, EBucket 0 (Some 5)) = Some 2 /\
  dget (mkey_eqb Z.eqb) (histogram_export Z.eqb [5] true 0 0 (histogram_run Z.eqb [5] true [(3, None); (4, Some 1); (9, Some 2)])) (""%string, 1, EBucket 0 (Some 5)) = Some 1.
Proof. vm_compute. repeat split. Qed.
(** a negative observation is counted in no bucket, although it is in the count *)
Theorem C40_negative_refuted : exists limits v, StronglySorted Z.le (0 :: limits) /\
  let ex := histogram_export Z.eqb limits true 0 0 (histogram_run Z.eqb limits true [(v, None)]) in
  dget (mkey_eqb Z.eqb) ex (".count"%string, 0, ENone) = Some 1 /\
  forall lower upper n, dget (mkey_eqb Z.eqb) ex (""%string, 0, EBucket lower upper) = Some n -> n = 0.
Proof.
  exists [5], (-1). split. { repeat constructor; lia. } split; [vm_compute; auto|]. intros lower upper n H. vm_compute in H.
  repeat match type of H with context [if ?c then _ else _] => destruct c end; congruence.
Qed.
Print Assumptions C40_negative_refuted.

(** ** C41: counter *)
Theorem C41_counter_exports_exactly : forall (Lab : Type) (leqb : Lab -> Lab -> bool), eqb_ok leqb ->
  forall (sum_children count_calls : bool) (own : Lab) (h : history Lab Z), ~ occurs own h -> forall k v,
  dget (mkey_eqb leqb) (counter_export leqb sum_children count_calls own (counter_run leqb sum_children h)) k = Some v <->
  counter_datum leqb sum_children count_calls own h k v.
Proof. exact counter_ok. Qed.
Print Assumptions C41_counter_exports_exactly.
Example C41_counter_example :
  counter_export Z.eqb true true 0 (counter_run Z.eqb true [(2, None); (3, Some 1); (4, None); (5, Some 1); (-1, Some 2)]) =
    [((".count"%string, 0, ENone), 5); ((".sum"%string, 0, ENone), 13);
     ((".count"%string, 2, ENone), 1); ((""%string, 2, ENone), -1); ((".count"%string, 1, ENone), 2); ((""%string, 1, ENone), 8)] /\
  ~ occurs 0 [(2, None); (3, Some 1); (4, None); (5, Some 1); (-1, Some 2)].
Proof. split; [vm_compute; reflexivity|]. intros (a & H). simpl in H. repeat destruct H as [H|H]; try discriminate; auto. Qed.

(** ** C41: summary, for last_calls other than 0 *)
Theorem C41_summary_exports_exactly_partial : forall (Lab : Type) (leqb : Lab -> Lab -> bool), eqb_ok leqb ->
  forall (last_calls : Z) (quantiles : list Q) (aggregate count_calls : bool) (own : Lab) (h : history Lab Z), last_calls <> 0 -> ~ occurs own h -> forall k r,
  dget (mkey_eqb leqb) (summary_export leqb quantiles aggregate count_calls own (summary_run leqb last_calls count_calls h)) k = Some r <->
  summary_datum leqb last_calls quantiles aggregate count_calls own h k r.
Proof. exact summary_ok. Qed.
Print Assumptions C41_summary_exports_exactly_partial.
Theorem C41_summary_handle_succeeds : forall (Lab : Type) (leqb : Lab -> Lab -> bool) last_calls count_calls (s : summary Lab) o, last_calls <> 0 ->
  snd (summary_handle leqb last_calls count_calls s o) = Ok tt.
Proof. exact summary_no_raise. Qed.
Print Assumptions C41_summary_handle_succeeds.
Example C41_summary_example :
  dget (mkey_eqb Z.eqb) (summary_export Z.eqb [1 # 2; 1 # 1] true true 0 (summary_run Z.eqb 3 true [(9, None); (1, None); (5, None); (3, None)])) (""%string, 0, EQuantile (1 # 2)) = Some (Ok 3%Q) /\
  dget (mkey_eqb Z.eqb) (summary_export Z.eqb [1 # 2; 1 # 1] true true 0 (summary_run Z.eqb 3 true [(9, None); (1, None); (5, None); (3, None)])) (".count"%string, 0, ENone) = Some (Ok 4%Q).
Proof. vm_compute. auto. Qed.
(** with last_calls=0 every observation raises IndexError *)
Theorem C41_summary_zero_refuted : forall v, snd (summary_handle Z.eqb 0 true (summary_new Z) (v, None)) = Err IndexError.
Proof. reflexivity. Qed.
Print Assumptions C41_summary_zero_refuted.
(** observations without labels are in no exported quantile once there was one with labels, although they are in .count *)
Theorem C41_summary_mixed_refuted :
  let ex := summary_export Z.eqb [1 # 2] true true 0 (summary_run Z.eqb 100 true [(5, None); (7, Some 1); (1, None)]) in
  dget (mkey_eqb Z.eqb) ex (".count"%string, 0, ENone) = Some (Ok 3%Q) /\
  dget (mkey_eqb Z.eqb) ex (".total"%string, 0, EQuantile (1 # 2)) = Some (Ok 7%Q) /\
  quantile [5; 7; 1] (1 # 2) (Ok 5%Q).
Proof.
  split; [vm_compute; auto|]. split; [vm_compute; auto|]. right. split; [discriminate|]. exists [1; 5; 7]. split; [|split; [repeat constructor; lia|vm_compute; auto]].
  apply Permutation_sym. change [5; 7; 1] with ([5; 7] ++ [1]). change [1; 5; 7] with ([1] ++ [5; 7]). apply Permutation_app_comm.
Qed.
Print Assumptions C41_summary_mixed_refuted.

(** ** C41: clicks per time unit *)
(** the full statement: correct for all readings of the clock that never go back *)
Fixpoint in_order (t : Z) (h : history Z (Z * Z)) (now : Z) : Prop :=
  match h with [] => t <= now | ((t1, t2), _) :: more => t <= t1 /\ t1 <= t2 /\ in_order t2 more now end.
Definition C41_cps_full_statement : Prop :=
  forall (periods : list Z) (h : history Z (Z * Z)) now, periods <> [] -> in_order 0 h now -> unlabelled h -> forall p v, In p periods ->
  dget (mkey_eqb Z.eqb) (cps_export Z.eqb periods true 0 now (cps_run Z.eqb periods h)) (""%string, 0, EPeriod p) = Some v ->
  v = at_or_after (now - p) (observed h).
(** it holds when the clock has advanced since the last handle began *)
Theorem C41_cps_exports_exactly_partial : forall (Lab : Type) (leqb : Lab -> Lab -> bool), eqb_ok leqb ->
  forall (periods : list Z) (aggregate : bool) (own : Lab) (now : Z) (h : history Lab (Z * Z)), (forall t t' o, In ((t, t'), o) h -> t < now) -> forall k v,
  dget (mkey_eqb leqb) (cps_export leqb periods aggregate own now (cps_run leqb periods h)) k = Some v <->
  cps_datum leqb (periods_of periods) aggregate own now h k v.
Proof. exact cps_ok. Qed.
Print Assumptions C41_cps_exports_exactly_partial.
Example C41_cps_example :
  cps_export Z.eqb [10; 60] true 0 100 (cps_run Z.eqb [10; 60] [((20, 20), None); ((50, 51), None); ((92, 92), None); ((99, 99), None)]) =
    [((""%string, 0, EPeriod 10), 2); ((""%string, 0, EPeriod 60), 3)].
Proof. vm_compute. auto. Qed.
(** at equal readings a click on the edge of the longest period has been dropped by handle, although the export would count it *)
Theorem C41_cps_full_statement_refuted : ~ C41_cps_full_statement.
Proof.
  intros H. specialize (H [10] [((0, 0), None); ((10, 10), None)] 10 ltac:(discriminate)).
  assert (I : in_order 0 [((0, 0), None); ((10, 10), None)] 10) by (simpl; lia).
  assert (U : unlabelled (Lab := Z) [((0, 0), None); ((10, 10), None)]) by (intros a o J; simpl in J; repeat destruct J as [J|J]; try congruence; destruct J).
  specialize (H I U 10 1 (or_introl eq_refl)). vm_compute in H. specialize (H eq_refl). discriminate.
Qed.
Print Assumptions C41_cps_full_statement_refuted.
(** clicks without labels are not in the total once there was one with labels *)
Theorem C41_cps_mixed_refuted :
  dget (mkey_eqb Z.eqb) (cps_export Z.eqb [10] true 0 5 (cps_run Z.eqb [10] [((1, 1), None); ((2, 2), Some 1); ((3, 3), None)])) (".total"%string, 0, EPeriod 10) = Some 1.
Proof. vm_compute. auto. Qed.
Print Assumptions C41_cps_mixed_refuted.

(** ** C41: link failures *)
(** the callbacks are called once per transition: offline exactly at the given number of consecutive failures while online,
    online exactly at the given number of consecutive successes while offline *)
Theorem C41_linkfail_callbacks_partial : forall (Lab : Type) (leqb : Lab -> Lab -> bool) to_offline to_online with_address (empty own : Lab) (h : history Lab (bool * Z)),
  unlabelled h ->
  l_log (linkfail_run leqb to_offline to_online with_address empty own h) = transitions to_offline to_online own (rev (observed h)).
Proof. exact linkfail_callbacks. Qed.
Print Assumptions C41_linkfail_callbacks_partial.
(** the export, in whatever order the set of addresses is walked through *)
Theorem C41_linkfail_exports_partial : forall (Lab : Type) (leqb : Lab -> Lab -> bool), eqb_ok leqb ->
  forall to_offline to_online with_address (empty own : Lab) (order : list Z -> list Z) (h : history Lab (bool * Z)),
  (forall l, Permutation (order l) l) -> unlabelled h ->
  let ex := linkfail_export leqb order own (linkfail_run leqb to_offline to_online with_address empty own h) in
  (forall k v, fst (fst k) <> ".status"%string -> (dget (mkey_eqb leqb) ex k = Some v <-> linkfail_datum own (rev (observed h)) k v)) /\
  (forall a, seen a (rev (observed h)) -> (forall a', seen a' (rev (observed h)) -> a' = a) ->
    dget (mkey_eqb leqb) ex (name_of ".status" own ENone) = Some (if online to_offline to_online (outcomes_of a (rev (observed h))) then 1 else 0)).
Proof. exact linkfail_ok. Qed.
Print Assumptions C41_linkfail_exports_partial.
Definition C41_link : history Z (bool * Z) :=
  [((false, 7), None); ((false, 7), None); ((false, 8), None); ((false, 7), None); ((true, 7), None); ((true, 7), None); ((false, 8), None)].
Example C41_linkfail_example :
  l_log (linkfail_run Z.eqb 2 2 (fun _ a => a) 0 0 C41_link) = [(false, 7, 0); (true, 7, 0); (false, 8, 0)] /\ unlabelled C41_link.
Proof. split; [vm_compute; auto|]. intros a o H. simpl in H. repeat destruct H as [H|H]; try congruence; destruct H. Qed.
(** with two addresses there is one status for both: here an offline link is not visible *)
Definition C41_linkfail_status_full_statement : Prop :=
  forall to_offline to_online (order : list Z -> list Z) (h : history Z (bool * Z)) a, (forall l, Permutation (order l) l) -> unlabelled h -> seen a (rev (observed h)) ->
  exists e, shown (rev (observed h)) a e /\
  dget (mkey_eqb Z.eqb) (linkfail_export Z.eqb order 0 (linkfail_run Z.eqb to_offline to_online (fun _ a => a) 0 0 h)) (".status"%string, 0, e) =
    Some (if online to_offline to_online (outcomes_of a (rev (observed h))) then 1 else 0).
Theorem C41_linkfail_status_full_statement_refuted : ~ C41_linkfail_status_full_statement.
Proof.
  intros H. specialize (H 1 1 (fun l => l) [((false, 7), None); ((true, 8), None)] 7 (fun l => Permutation_refl l)).
  assert (U : unlabelled (Lab := Z) [((false, 7), None); ((true, 8), None)]) by (intros a o J; simpl in J; repeat destruct J as [J|J]; try congruence; destruct J).
  specialize (H U (ex_intro _ false (or_intror (or_introl eq_refl)))). destruct H as (e & Sh & H).
  destruct Sh as [O|a' S N]; [specialize (O 7 (ex_intro _ false (or_intror (or_introl eq_refl)))); discriminate|]. vm_compute in H. discriminate.
Qed.
Print Assumptions C41_linkfail_status_full_statement_refuted.
Theorem C41_linkfail_status_refuted : forall order : list Z -> list Z, order [7; 8] = [7; 8] ->
  let ex := linkfail_export Z.eqb order 0 (linkfail_run Z.eqb 1 1 (fun _ a => a) 0 0 [((false, 7), None); ((true, 8), None)]) in
  online 1 1 [false] = false /\
  dget (mkey_eqb Z.eqb) ex (".status"%string, 0, ENone) = Some 1 /\ (forall a, dget (mkey_eqb Z.eqb) ex (".status"%string, 0, EAddress a) = None).
Proof. intros order O. split; auto. unfold linkfail_export. vm_compute dkeys. rewrite O. split; [vm_compute; auto|intros a; vm_compute; auto]. Qed.
Print Assumptions C41_linkfail_status_refuted.
(** what is handled with labels is not exported, and its callbacks get the address 0 *)
Theorem C41_linkfail_labelled_refuted :
  let s := linkfail_run Z.eqb 1 1 (fun l a => 100 * l + a) 0 0 [((false, 7), Some 3)] in
  linkfail_export Z.eqb (fun l => l) 0 s = [] /\ l_log s = [(false, 0, 307)].
Proof. vm_compute. auto. Qed.
Print Assumptions C41_linkfail_labelled_refuted.
