(** C134: a HistogramMetric fed by several threads. *)
From Verif Require Import Prelude MetrThr_Model MetrThr_Spec HistThr_Model HistThr_Spec HistThr_Proofs.
Local Open Scope Z_scope.

(** Once nobody is inside a call, the count, the sum and the buckets are those of the values that were fed. *)
Definition C134_full_statement : Prop := forall limits programs schedule,
  let c := hist_run limits (hist_start programs) schedule in idle c -> shows limits (ended c) (shared c).
Definition two_values (t : nat) : list Z := match t with 0%nat => [7] | 1%nat => [3] | _ => [] end.
Theorem C134_full_statement_refuted : ~ C134_full_statement.
Proof.
  intros H. set (w := [0;0; 1;1;1;1;1;1;1;1;1;1; 0;0;0;0;0;0;0;0]%nat). specialize (H [5; 10] two_values w). cbv zeta in H.
  assert (I : idle (hist_run [5; 10] (hist_start two_values) w)) by (intros [|[|t]]; vm_compute; reflexivity).
  destruct (H I) as (H1 & _). vm_compute in H1. discriminate.
Qed.
Print Assumptions C134_full_statement_refuted.

(** They are if calls do not overlap: *)
Theorem C134_partial : forall limits programs schedule,
  one_at_a_time HReadCount (hexec limits) (hist_start programs) schedule ->
  let c := hist_run limits (hist_start programs) schedule in idle c -> shows limits (ended c) (shared c).
Proof. exact hist_solo. Qed.
Print Assumptions C134_partial.
Definition some_values (t : nat) : list Z := match t with 0%nat => [7; 12] | 1%nat => [3] | _ => [] end.
Definition in_turns : list nat := [0;0;0;0;0;0;0;0;0; 1;1;1;1;1;1;1;1;1; 0;0;0;0;0;0;0;0;0]%nat.
Example C134_case : one_at_a_time HReadCount (hexec [5; 10]) (hist_start some_values) in_turns /\
  let c := hist_run [5; 10] (hist_start some_values) in_turns in
  finished c /\ ended c = [7; 3; 12] /\ hcount (shared c) = 3 /\ hsum (shared c) = 22 /\ map (bucket (shared c)) [0; 1; 2]%nat = [1; 1; 1].
Proof.
  split; [|split; [split; intros [|[|t]]; vm_compute; reflexivity|vm_compute; auto]]. unfold in_turns.
  do 27 (split; [right; intros [|[|u]] N; first [exfalso; apply N; reflexivity|vm_compute; reflexivity]|]). exact I.
Qed.

(** However they overlap, nothing shows more than the calls that have begun give it. *)
Theorem C134_bounds : forall limits n programs schedule, threads_below n programs ->
  let c := hist_run limits (hist_start programs) schedule in
  (0 <= hcount (shared c) /\ hcount (shared c) + Z.of_nat (length (all_calls n (todo c))) <= Z.of_nat (length (all_calls n programs))) /\
  (forall i, 0 <= bucket (shared c) i /\ bucket (shared c) i + number_in limits i (all_calls n (todo c)) <= number_in limits i (all_calls n programs)) /\
  ((forall t v, In v (programs t) -> 0 <= v) ->
    0 <= hsum (shared c) /\ hsum (shared c) + total (all_calls n (todo c)) <= total (all_calls n programs)).
Proof.
  intros limits n programs schedule B c. split; [|split].
  - pose proof (@hist_bounds limits CCount n programs schedule B) as H. unfold hw, hval in H. cbv zeta in H. rewrite !total_ones in H. apply H. lia.
  - intros i. pose proof (@hist_bounds limits (CBucket i) n programs schedule B) as H. unfold hw, hval in H. cbv zeta in H. rewrite !total_number in H. apply H.
    intros t v _. destruct (in_bucket limits i v); lia.
  - intros P. pose proof (@hist_bounds limits CSum n programs schedule B) as H. unfold hw, hval in H. cbv zeta in H. rewrite !map_id in H. apply H. exact P.
Qed.
Print Assumptions C134_bounds.
Example C134_bounds_case : threads_below 2 some_values /\ (forall t v, In v (some_values t) -> 0 <= v) /\
  let c := hist_run [5; 10] (hist_start some_values) [0;1;0;1;0;1;0;1;0;1;0;1;0;1;0;1;0;1]%nat in
  all_calls 2 (todo c) = [12] /\ hcount (shared c) = 1 /\ hsum (shared c) = 3 /\ map (bucket (shared c)) [0; 1; 2]%nat = [1; 1; 0].
Proof. split; [intros [|[|t]] T; auto; lia|]. split; [intros [|[|t]] v I; simpl in I; intuition lia|]. vm_compute. auto. Qed.

(** What is shown need not even fit together: here the buckets hold two values, the count is 1, and the sum is that of the other one. *)
Theorem C134_torn_refuted : exists schedule, let c := hist_run [5; 10] (hist_start two_values) schedule in
  finished c /\ map (bucket (shared c)) [0; 1; 2]%nat = [1; 1; 0] /\ hcount (shared c) = 1 /\ hsum (shared c) = 3.
Proof.
  exists [0;0;1;1; 0;1; 0;1; 0;1; 0;0;0;0;0;0; 1;1;1;1;1;1]%nat. split; [split; intros [|[|t]]; vm_compute; reflexivity|]. vm_compute. auto.
Qed.
Print Assumptions C134_torn_refuted.
(** A bucket that is only ever increased can go back. *)
Definition many_small (t : nat) : list Z := match t with 0%nat => [3; 3; 3] | 1%nat => [4] | _ => [] end.
Theorem C134_backwards_refuted : exists w,
  let before := hist_run [5; 10] (hist_start many_small) w in let after := hist_run [5; 10] before [1]%nat in
  bucket (shared before) 0%nat = 3 /\ bucket (shared after) 0%nat = 1.
Proof. exists ([1;1;1;1;1;1] ++ repeat 0 40)%nat. vm_compute. auto. Qed.
Print Assumptions C134_backwards_refuted.
(** But no call raises, and once a value was fed the count and the buckets that take it show one value at least. *)
Theorem C134_some : forall limits programs schedule v r,
  let c := hist_run limits (hist_start programs) schedule in
  In (v, r) (log c) -> r = Ok tt /\ 1 <= hcount (shared c) /\ forall i, in_bucket limits i v = true -> 1 <= bucket (shared c) i.
Proof. exact hist_some. Qed.
Print Assumptions C134_some.
Example C134_some_case : let c := hist_run [5; 10] (hist_start many_small) (([1;1;1;1;1;1] ++ repeat 0 40)%nat ++ [1]%nat) in
  In (3, Ok tt) (log c) /\ length (log c) = 3%nat /\ in_bucket [5; 10] 0 3 = true /\ bucket (shared c) 0%nat = 1.
Proof. vm_compute. auto. Qed.
