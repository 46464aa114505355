(** Metrics fed by several threads (C125): any number of threads and calls, any schedule. *)
From Coq Require Import Sorted.
From Verif Require Import Prelude MetrThr_Model MetrThr_Spec MetrThr_Proofs.
Local Open Scope Z_scope.

Notation counters programs := (start ccode unit new_counter programs).
Notation summaries programs := (start scode unit new_summary programs).
Notation cpses programs := (start pcode (list nat) new_cps programs).
Notation families programs := (start fcode unit new_family programs).

(** ** CounterMetric *)
(** The property: when all calls have ended the counter has the sum of what was fed, and the number of calls. *)
Definition C125_full_statement : Prop :=
  forall n programs schedule, threads_below n programs ->
    let c := count_run (counters programs) schedule in
    finished c -> value (shared c) = total (all_calls n programs) /\ calls (shared c) = Z.of_nat (length (all_calls n programs)).
Definition one_one (t : nat) : list Z := match t with 0%nat | 1%nat => [1] | _ => [] end.
(** Both threads read 0, both write 1. *)
Theorem C125_full_statement_refuted : ~ C125_full_statement.
Proof.
  intros H. destruct (H 2%nat one_one [0; 0; 1; 1; 0; 1; 0; 0; 1; 1]%nat) as [E _].
  - intros [|[|t]] T; simpl; auto; lia.
  - split; [intros [|[|t]]; reflexivity|intros [|[|t]]; reflexivity].
  - vm_compute in E. discriminate.
Qed.
Print Assumptions C125_full_statement_refuted.
(** As long as no two calls overlap, nothing is lost. *)
Theorem C125_counter_partial : forall programs schedule, one_at_a_time CReadValue cexec (counters programs) schedule ->
  let c := count_run (counters programs) schedule in
  idle c -> value (shared c) = total (ended c) /\ calls (shared c) = Z.of_nat (length (ended c)).
Proof. exact counter_solo. Qed.
Print Assumptions C125_counter_partial.
(** However they overlap, the counter never shows more than what the calls that have begun feed it, if that is not negative, *)
Theorem C125_counter_bounds : forall n programs schedule, threads_below n programs -> (forall t d, In d (programs t) -> 0 <= d) ->
  let c := count_run (counters programs) schedule in
  (0 <= value (shared c) /\ value (shared c) + total (all_calls n (todo c)) <= total (all_calls n programs)) /\
  (0 <= calls (shared c) /\ calls (shared c) + Z.of_nat (length (all_calls n (todo c))) <= Z.of_nat (length (all_calls n programs))).
Proof. exact counter_bounds. Qed.
Print Assumptions C125_counter_bounds.
(** and once a call has ended it shows one call at least. *)
Theorem C125_counter_some : forall m programs schedule, 0 <= m -> (forall t d, In d (programs t) -> m <= d) ->
  let c := count_run (counters programs) schedule in
  log c <> [] -> m <= value (shared c) /\ 1 <= calls (shared c).
Proof. exact counter_some. Qed.
Print Assumptions C125_counter_some.
(** That is all: with two threads all but one call can be lost. And a counter that is only ever increased can go back. *)
Definition three_one (t : nat) : list Z := match t with 0%nat => [1; 1; 1] | 1%nat => [1] | _ => [] end.
Theorem C125_counter_backwards_refuted :
  let before := count_run (counters three_one) [1; 1; 0; 0; 0; 0; 0; 0; 0; 0; 0; 0; 0; 0; 0; 0; 0]%nat in
  let after := count_run (counters three_one) ([1; 1; 0; 0; 0; 0; 0; 0; 0; 0; 0; 0; 0; 0; 0; 0; 0] ++ [1; 1; 1])%nat in
  value (shared before) = 3 /\ value (shared after) = 1 /\ finished after.
Proof. split; [reflexivity|]. split; [reflexivity|]. split; intros [|[|t]]; reflexivity. Qed.
Print Assumptions C125_counter_backwards_refuted.
(** Nothing overlaps if one thread only does the feeding. *)
Theorem C125_one_thread : forall (S Call Code R : Type) (first : Call -> Code) (exec : Code -> S -> S * next Code R) t programs s schedule,
  (forall u, u <> t -> programs u = []) -> one_at_a_time first exec (start Code R s programs) schedule.
Proof. intros S Call Code R first exec t programs s schedule H. exact (@only_one _ _ _ _ first exec t programs H schedule s). Qed.
Print Assumptions C125_one_thread.

(** ** SummaryMetric *)
Theorem C125_summary_partial : forall last programs schedule, (1 <= last)%nat ->
  one_at_a_time SReadCalls (sexec last) (summaries programs) schedule ->
  let c := sum_run last (summaries programs) schedule in
  (forall e, In e (log c) -> snd e = Ok tt) /\
  (idle c -> tot_calls (shared c) = Z.of_nat (length (ended c)) /\ tot_time (shared c) = total (ended c) /\ queue (shared c) = firstn last (rev (ended c))).
Proof. exact summary_solo. Qed.
Print Assumptions C125_summary_partial.
(** The quantiles are calculated from values that were fed, none taken more often than it was fed. *)
Theorem C125_summary_made_of : forall last n programs schedule x, threads_below n programs ->
  let c := sum_run last (summaries programs) schedule in
  (count_occ Z.eq_dec (queue (shared c)) x + count_occ Z.eq_dec (all_calls n (todo c)) x <= count_occ Z.eq_dec (all_calls n programs) x)%nat.
Proof. exact summary_made_of. Qed.
Print Assumptions C125_summary_made_of.
(** Two threads that find one place left both take it. From then on the length is never equal to last_calls, so that nothing is ever
    dropped: the window keeps every value, without limit. *)
Theorem C125_window_refuted : forall last n, (1 <= last)%nat -> exists programs schedule,
  threads_below 2 programs /\
  let c := sum_run last (summaries programs) schedule in
  finished c /\ (forall e, In e (log c) -> snd e = Ok tt) /\ length (queue (shared c)) = (last + 1 + n)%nat.
Proof. exact window_grows. Qed.
Print Assumptions C125_window_refuted.
(** Two threads that find the window of one full both remove from it: IndexError. *)
Theorem C125_summary_raises_refuted : exists schedule,
  In (1, Err IndexError) (log (sum_run 1 (summaries (fun t => match t with 0%nat => [1; 1] | 1%nat => [1] | _ => [] end)) schedule)).
Proof. exists ([0; 0; 0; 0; 0; 0; 0] ++ [0; 0; 0; 0; 0; 0] ++ [1; 1; 1; 1; 1; 1] ++ [0; 1])%nat. vm_compute. auto. Qed.
Print Assumptions C125_summary_raises_refuted.

(** ** ClicksPerTimeUnitMetric *)
Theorem C125_clicks_partial : forall cutoff vectors programs schedule, one_at_a_time pfirst (pexec cutoff vectors) (cpses programs) schedule ->
  let c := cps_run cutoff vectors (cpses programs) schedule in
  (forall before k r after, log c = before ++ (k, r) :: after -> clock_ok (map fst before ++ [k]) ->
     match k with Export m => r = Ok (map (fun v => within m v (kept cutoff (map fst before))) vectors) | Click _ _ => r = Ok [] end) /\
  (idle c -> clock_ok (ended c) -> clicks (shared c) = kept cutoff (ended c)).
Proof. exact cps_solo. Qed.
Print Assumptions C125_clicks_partial.
(** handle() never raises, *)
Theorem C125_clicks_never_raise : forall cutoff vectors programs schedule m a r,
  In (Click m a, r) (log (cps_run cutoff vectors (cpses programs) schedule)) -> r = Ok [].
Proof. exact clicks_never_raise. Qed.
Print Assumptions C125_clicks_never_raise.
(** and no click is counted that was not made, *)
Theorem C125_clicks_made_of : forall cutoff vectors n programs schedule x, threads_below n programs ->
  let c := cps_run cutoff vectors (cpses programs) schedule in
  (count_occ Z.eq_dec (clicks (shared c)) x + count_occ Z.eq_dec (clicked (all_calls n (todo c))) x <= count_occ Z.eq_dec (clicked (all_calls n programs)) x)%nat.
Proof. exact clicks_made_of. Qed.
Print Assumptions C125_clicks_made_of.
(** but one that was just made can be dropped: both threads see the old click, each drops one, *)
Definition late (t : nat) : list pcall := match t with 0%nat => [Click 0 0; Click 10 10] | 1%nat => [Click 10 10] | _ => [] end.
Theorem C125_clicks_lost_refuted :
  let c := cps_run 1 [1] (cpses late) [0; 0; 0;  0; 0; 0;  1; 1; 1;  0; 0; 1; 1]%nat in
  finished c /\ clock_ok (ended c) /\ kept 1 (ended c) = [10; 10] /\ clicks (shared c) = [10].
Proof.
  split; [split; intros [|[|t]]; reflexivity|]. split; [|split; reflexivity].
  vm_compute. repeat (constructor; try (intro; discriminate)).
Qed.
Print Assumptions C125_clicks_lost_refuted.
(** and a click during an export makes the export fail. *)
Definition watched (t : nat) : list pcall := match t with 0%nat => [Click 0 0; Click 0 0] | 1%nat => [Export 0] | _ => [] end.
Theorem C125_export_raises_refuted :
  In (Export 0, Err RuntimeError) (log (cps_run 1 [1] (cpses watched) [0; 0; 0;  1; 1; 1;  0; 0; 0;  1]%nat)).
Proof. vm_compute. auto. Qed.
Print Assumptions C125_export_raises_refuted.

(** ** labels *)
Theorem C125_labels_partial : forall programs schedule, one_at_a_time ffirst fexec (families programs) schedule ->
  let c := family_run (families programs) schedule in
  (forall e, In e (log c) -> snd e = Ok tt) /\
  (idle c -> one_child_each (shared c) /\ forall k, exported (shared c) k = match fed k (ended c) with [] => None | l => Some (total l) end).
Proof. exact family_solo. Qed.
Print Assumptions C125_labels_partial.
(** Whatever overlaps, nothing raises and all labels that were used are exported. *)
Theorem C125_labels_any : forall programs schedule,
  let c := family_run (families programs) schedule in
  (forall e, In e (log c) -> snd e = Ok tt) /\ (idle c -> forall k, In k (map fst (ended c)) -> exported (shared c) k <> None).
Proof. exact family_any. Qed.
Print Assumptions C125_labels_any.
(** If all labels have been used before, no children are added, so that each set of labels keeps its one child. *)
Theorem C125_labels_known : forall s programs schedule, (forall t e, In e (programs t) -> dmem Nat.eqb (mapping s) (fst e) = true) ->
  let c := family_run (start fcode unit s programs) schedule in
  mapping (shared c) = mapping s /\ children (shared c) = children s /\ length (made (shared c)) = length (made s).
Proof. exact family_known. Qed.
Print Assumptions C125_labels_known.
(** Two threads that are the first to use the same labels: both make a child, and only what the second child was fed is exported, though
    no two increments overlap. *)
Definition same_labels (t : nat) : list (nat * Z) := match t with 0%nat => [(7%nat, 5)] | 1%nat => [(7%nat, 2)] | _ => [] end.
Theorem C125_labels_refuted :
  let c := family_run (families same_labels) [0; 0; 1; 1;  0; 0; 0; 0; 0; 0; 0;  1; 1; 1; 1; 1; 1; 1]%nat in
  finished c /\ ended c = [(7%nat, 5); (7%nat, 2)] /\ exported (shared c) 7 = Some 2 /\ map value (made (shared c)) = [5; 2] /\ ~ one_child_each (shared c).
Proof.
  split; [split; intros [|[|t]]; reflexivity|]. split; [reflexivity|]. split; [reflexivity|]. split; [reflexivity|].
  intros [N _]. vm_compute in N. inversion N as [|? ? N1 N2]. apply N1. simpl. auto.
Qed.
Print Assumptions C125_labels_refuted.

(** ** cases that meet the hypotheses *)
Definition calls_of (t : nat) : list Z := match t with 0%nat => [4; 1] | 1%nat => [2] | _ => [] end.
Example C125_case_counter : let schedule := [0; 0; 1; 0; 0; 0; 0; 0; 0; 1; 1; 1; 0; 1; 1; 0]%nat in
  let turns := [0; 0; 0; 0; 0;  1; 1; 1; 1; 1;  0; 0; 0; 0; 0]%nat in
  threads_below 2 calls_of /\ one_at_a_time CReadValue cexec (counters calls_of) turns /\ idle (count_run (counters calls_of) turns) /\
  value (shared (count_run (counters calls_of) turns)) = 7 /\ log (count_run (counters calls_of) schedule) <> [].
Proof.
  split; [intros [|[|t]] T; simpl; auto; lia|]. split; [|split; [|split]].
  - cbn. repeat split; right; intros [|[|u]] U; try reflexivity; try lia.
  - intros [|[|t]]; reflexivity.
  - reflexivity.
  - discriminate.
Qed.
Example C125_case_summary : let turns := [0; 0; 0; 0; 0; 0; 0;  1; 1; 1; 1; 1; 1; 1;  0; 0; 0; 0; 0; 0; 0; 0]%nat in
  one_at_a_time SReadCalls (sexec 2) (summaries calls_of) turns /\ idle (sum_run 2 (summaries calls_of) turns) /\ queue (shared (sum_run 2 (summaries calls_of) turns)) = [1; 2].
Proof.
  split; [|split].
  - cbn. repeat split; right; intros [|[|u]] U; try reflexivity; try lia.
  - intros [|[|t]]; reflexivity.
  - reflexivity.
Qed.
Definition clicking (t : nat) : list pcall := match t with 0%nat => [Click 0 0; Click 4 5; Export 6] | 1%nat => [Click 2 3] | _ => [] end.
Example C125_case_clicks : let turns := [0; 0; 0;  1; 1; 1;  0; 0; 0; 0; 0;  0; 0; 0; 0; 0]%nat in
  let c := cps_run 3 [3; 1] (cpses clicking) turns in
  one_at_a_time pfirst (pexec 3 [3; 1]) (cpses clicking) turns /\ idle c /\ clock_ok (ended c) /\ clicks (shared c) = [3; 5] /\
  exists before, log c = before ++ [(Export 6, Ok [2%nat; 1%nat])].
Proof.
  split; [|split; [|split; [|split]]].
  - cbn. repeat split; right; intros [|[|u]] U; try reflexivity; try lia.
  - intros [|[|t]]; reflexivity.
  - vm_compute. repeat (constructor; try (intro; discriminate)).
  - reflexivity.
  - eexists [_; _; _]. vm_compute. reflexivity.
Qed.
Definition labelled (t : nat) : list (nat * Z) := match t with 0%nat => [(7%nat, 5)] | 1%nat => [(7%nat, 2)] | _ => [] end.
Example C125_case_labels : let turns := ([0; 0; 0; 0; 0; 0; 0; 0; 0] ++ [1; 1; 1; 1; 1; 1; 1])%nat in
  let c := family_run (families labelled) turns in
  one_at_a_time ffirst fexec (families labelled) turns /\ idle c /\ exported (shared c) 7 = Some 7 /\ dmem Nat.eqb (mapping (shared c)) 7%nat = true.
Proof.
  split; [|split; [|split]].
  - cbn. repeat split; right; intros [|[|u]] U; try reflexivity; try lia.
  - intros [|[|t]]; reflexivity.
  - reflexivity.
  - reflexivity.
Qed.
