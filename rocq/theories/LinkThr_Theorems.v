(** C133: a LinkfailMetric fed by several threads. *)
From Verif Require Import Prelude Metrics_Spec MetrThr_Model MetrThr_Spec LinkThr_Model LinkThr_Spec LinkThr_Proofs.
Local Open Scope Z_scope.

(** Once nobody is inside a call, what the metric shows of an address, and the callbacks that were made about it, are as if the calls had been
    made one at a time, in the order in which they ended. *)
Definition C133_full_statement : Prop := forall to_offline to_online programs schedule,
  let c := link_run to_offline to_online (link_start programs) schedule in
  idle c -> forall a, right_about to_offline to_online a (ended c) (shared c).
Definition both_fail_once (t : nat) : list (bool * Z) := match t with 0%nat | 1%nat => [(false, 5)] | _ => [] end.
Theorem C133_full_statement_refuted : ~ C133_full_statement.
Proof.
  intros H. specialize (H 1 1 both_fail_once [0;0;0; 1;1;1; 0;0;0; 1;1;1]%nat). cbv zeta in H.
  assert (I : idle (link_run 1 1 (link_start both_fail_once) [0;0;0; 1;1;1; 0;0;0; 1;1;1]%nat)) by (intros [|[|t]]; vm_compute; reflexivity).
  destruct (H I 5) as (_ & _ & H3 & _). vm_compute in H3. discriminate.
Qed.
Print Assumptions C133_full_statement_refuted.

(** It is so for an address that only one thread reports, whatever the others do, whenever that thread is not inside a call. *)
Theorem C133_own_partial : forall to_offline to_online programs schedule t a,
  (forall u b, u <> t -> ~ In (b, a) (programs u)) ->
  let c := link_run to_offline to_online (link_start programs) schedule in
  current c t = None -> right_about to_offline to_online a (ended c) (shared c).
Proof. intros N M programs schedule t a P c I. pose proof (o_at (@own_run N M t a programs schedule P)) as H. fold c in H. rewrite I in H. exact H. Qed.
Print Assumptions C133_own_partial.
Definition two_links (t : nat) : list (bool * Z) :=
  match t with 0%nat => [(false, 5); (false, 5); (true, 5); (false, 5)] | 1%nat => [(false, 6); (true, 6); (false, 6)] | _ => [] end.
Example C133_own_case : let c := link_run 2 1 (link_start two_links) [0;1;0;1;0;1;0;1;0;1; 0;1;0;1;0;1;0;1;0;1; 0;1;0;1;0;1;0;1;0;1; 0;0;0;0;0;0;0;0;0;0;0;0;0;0;0]%nat in
  (forall u b, u <> 0%nat -> ~ In (b, 5) (two_links u)) /\ current c 0%nat = None /\ told_of 5 (shared c) = [false; true] /\ link_of (shared c) 5 = {| fails := 1; succs := 0; up := true |} /\
  told_of 6 (shared c) = [] /\ ended c = [(false, 5); (false, 6); (true, 6); (false, 5); (true, 5); (false, 5)].
Proof. split; [intros [|[|u]] b U I; simpl in I; intuition congruence|]. vm_compute. auto 6. Qed.

(** And it is so for all addresses if calls do not overlap. *)
Theorem C133_one_at_a_time : forall to_offline to_online programs schedule,
  one_at_a_time first (exec to_offline to_online) (link_start programs) schedule ->
  let c := link_run to_offline to_online (link_start programs) schedule in
  idle c -> forall a, right_about to_offline to_online a (ended c) (shared c).
Proof. exact link_solo. Qed.
Print Assumptions C133_one_at_a_time.
Definition same_link (t : nat) : list (bool * Z) := match t with 0%nat => [(false, 5); (true, 5)] | 1%nat => [(false, 5); (true, 6)] | _ => [] end.
Definition in_turns : list nat := [0;0;0;0;0;0; 1;1;1;1;1;1;1;1; 0;0;0;0;0;0;0;0; 1;1;1;1;1]%nat.
Example C133_one_at_a_time_case : one_at_a_time first (exec 2 1) (link_start same_link) in_turns /\
  let c := link_run 2 1 (link_start same_link) in_turns in
  idle c /\ told (shared c) = [(false, 5); (true, 5)] /\ ended c = [(false, 5); (false, 5); (true, 5); (true, 6)].
Proof.
  split; [|split; [intros [|[|t]]; vm_compute; reflexivity|vm_compute; auto]]. unfold in_turns.
  do 27 (split; [right; intros [|[|u]] N; first [exfalso; apply N; reflexivity|vm_compute; reflexivity]|]). exact I.
Qed.

(** However calls overlap, a link is not shown as offline, and nobody is told that it went offline, before so many of its failures were reported
    as it takes; nobody is told that it is online again before so many successes were. *)
Theorem C133_no_false_alarm : forall to_offline to_online n programs schedule a, threads_below n programs ->
  let c := link_run to_offline to_online (link_start programs) schedule in
  let begun b := Z.of_nat (reports b a (all_calls n programs)) - Z.of_nat (reports b a (all_calls n (todo c))) in
  (up (link_of (shared c) a) = false \/ In (false, a) (told (shared c)) -> to_offline <= begun false) /\
  (In (true, a) (told (shared c)) -> to_online <= begun true).
Proof.
  intros N M n programs schedule a B c begun. unfold begun. split; intros H.
  - pose proof (@alarm_run N M false a n programs schedule B) as A. unfold threshold in A. cbv zeta in A. fold c in A. enough (N + Z.of_nat (reports false a (all_calls n (todo c))) <= Z.of_nat (reports false a (all_calls n programs))) by lia.
    apply A. tauto.
  - pose proof (@alarm_run N M true a n programs schedule B) as A. unfold threshold in A. cbv zeta in A. fold c in A. enough (M + Z.of_nat (reports true a (all_calls n (todo c))) <= Z.of_nat (reports true a (all_calls n programs))) by lia.
    apply A. tauto.
Qed.
Print Assumptions C133_no_false_alarm.
Example C133_no_false_alarm_case : let c := link_run 2 1 (link_start same_link) (firstn 14 in_turns) in
  threads_below 2 same_link /\ up (link_of (shared c) 5) = false /\ told (shared c) = [(false, 5)] /\
  reports false 5 (all_calls 2 same_link) = 2%nat /\ reports false 5 (all_calls 2 (todo c)) = 0%nat.
Proof. split; [intros [|[|t]] T; auto; lia|]. vm_compute. auto. Qed.

(** The alarm can be missed, though, whatever the limit: a second thread may raise the number of failures beyond it before the first compares
    them, and then nobody is told, no matter how many failures follow. *)
Theorem C133_missed_refuted : forall to_offline to_online k, 1 <= to_offline -> exists programs schedule,
  let c := link_run to_offline to_online (link_start programs) schedule in
  finished c /\ (forall d, In d (ended c) -> d = (false, 0)) /\ to_offline + Z.of_nat k < Z.of_nat (length (ended c)) /\
  up (link_of (shared c) 0) = true /\ told (shared c) = [].
Proof. exact missed. Qed.
Print Assumptions C133_missed_refuted.
(** In the same way a link can stay offline after successes enough: *)
Definition fail_then_both_succeed (t : nat) : list (bool * Z) := match t with 0%nat => [(false, 5); (true, 5)] | 1%nat => [(true, 5)] | _ => [] end.
Theorem C133_stays_offline_refuted : exists schedule, let c := link_run 1 1 (link_start fail_then_both_succeed) schedule in
  finished c /\ ended c = [(false, 5); (true, 5); (true, 5)] /\ up (link_of (shared c) 5) = false /\ told (shared c) = [(false, 5)].
Proof.
  exists [0;0;0;0;0;0;0;0; 0;0;0;0; 1;1;1;1; 0;0; 1;1]%nat. split; [split; intros [|[|t]]; vm_compute; reflexivity|]. vm_compute. auto.
Qed.
Print Assumptions C133_stays_offline_refuted.
(** The same alarm can be given twice: *)
Theorem C133_twice_refuted : exists schedule, let c := link_run 1 1 (link_start both_fail_once) schedule in
  finished c /\ told (shared c) = [(false, 5); (false, 5)].
Proof. exists [0;0; 1;1; 0;0;0;0; 1;1;1;1; 0;0;0; 1;1;1]%nat. split; [split; intros [|[|t]]; vm_compute; reflexivity|]. vm_compute. auto. Qed.
Print Assumptions C133_twice_refuted.
(** The last thing somebody was told about a link can be the opposite of what is shown, for good: *)
Definition one_fails_one_succeeds (t : nat) : list (bool * Z) := match t with 0%nat => [(false, 5)] | 1%nat => [(true, 5)] | _ => [] end.
Theorem C133_stale_refuted : exists schedule, let c := link_run 1 1 (link_start one_fails_one_succeeds) schedule in
  finished c /\ told (shared c) = [(true, 5); (false, 5)] /\ up (link_of (shared c) 5) = true.
Proof. exists [0;0;0;0;0;0;0; 1;1;1;1;1;1;1;1; 0]%nat. split; [split; intros [|[|t]]; vm_compute; reflexivity|]. vm_compute. auto. Qed.
Print Assumptions C133_stale_refuted.
