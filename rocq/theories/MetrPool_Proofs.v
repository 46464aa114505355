From Coq Require Import Permutation.
From Verif Require Import Prelude PreludeFacts MoreFacts MetrPool_Model MetrPool_Spec.

Section P.
  Variable max_workers : nat.
  Notation step := (step max_workers).
  Notation exec := (exec max_workers).

  Definition busy (x : place) : nat := match x with Waiting => 0 | _ => 1 end.
  Definition busies (p : pool) : nat := list_sum (map busy (workers p)).
  Lemma sum_upd : forall (f : place -> nat) l w x y, nth_error l w = Some x -> list_sum (map f (upd l w y)) + f x = list_sum (map f l) + f y.
  Proof. induction l as [|a l IH]; intros [|w] x y E; simpl in *; try discriminate; [injection E as ->; lia|]. specialize (IH w x y E). lia. Qed.
  Lemma sum_app1 : forall (f : place -> nat) l y, list_sum (map f (l ++ [y])) = list_sum (map f l) + f y.
  Proof. intros. rewrite map_app, list_sum_app. simpl. lia. Qed.
  Lemma waiting_busy : forall p, waiting p + busies p = length (workers p).
  Proof. intros p. unfold waiting, busies. induction (workers p) as [|[] l IH]; simpl; lia. Qed.

  (** invariant without collection *)
  Definition inv (p : pool) : Prop :=
    collected p = false /\ length (workers p) <= max_workers /\ ~ In Dead (workers p) /\
    length (workers p) + (if adjusting p then 1 else 0) <= idle p + length (queue p) + busies p /\
    (length (workers p) < max_workers -> idle p + length (queue p) + busies p = length (workers p) + (if adjusting p then 1 else 0)).
  Lemma In_upd : forall A (l : list A) w y x, In x (upd l w y) -> x = y \/ In x l.
  Proof. induction l as [|a l IH]; intros [|w] y x I; simpl in *; auto; destruct I as [-> |I]; auto. destruct (IH _ _ _ I); auto. Qed.
  Lemma not_Dead : forall l w y, y <> Dead -> ~ In Dead l -> ~ In Dead (upd l w y).
  Proof. intros l w y N I J. apply In_upd in J as [<-|J]; auto. Qed.
  Lemma inv_step : forall p e, e <> Collect -> inv p -> inv (step p e).
  Proof.
    intros p e N (C & L & D & A & B). destruct e as [| |w|w|w|]; simpl; try congruence.
    - unfold put. rewrite C. destruct (adjusting p) eqn:J; simpl; [repeat split; auto; rewrite J; auto|].
      unfold inv, busies in *. simpl. rewrite app_length. simpl. repeat split; auto; lia.
    - unfold adjust. destruct (adjusting p) eqn:J; [|repeat split; auto; rewrite J; auto]. destruct (idle p) as [|n] eqn:I.
      + destruct (length (workers p) <? max_workers) eqn:X.
        * apply Nat.ltb_lt in X. specialize (B X). unfold inv, busies in *. simpl. rewrite app_length, sum_app1. simpl. repeat split; auto; try lia.
          intros Q. apply in_app_or in Q as [Q|[Q|[]]]; [auto|discriminate].
        * apply Nat.ltb_ge in X. unfold inv, busies in *. simpl. repeat split; auto; lia.
      + unfold inv, busies in *. simpl. repeat split; auto; lia.
    - unfold take. destruct (nth_error (workers p) w) as [[|x|x|]|] eqn:E; try (repeat split; assumption). destruct (queue p) as [|x q] eqn:Q; [repeat split; auto; rewrite Q; auto|].
      rewrite C. unfold inv, busies in *. simpl. pose proof (sum_upd busy _ _ _ (Running x) E) as S0. simpl in S0. rewrite upd_length. simpl in A, B.
      repeat split; auto; try lia. apply not_Dead; auto; discriminate.
    - unfold run. destruct (nth_error (workers p) w) as [[|x|x|]|] eqn:E; try (repeat split; assumption).
      unfold inv, busies in *. simpl. pose proof (sum_upd busy _ _ _ (Ran x) E) as S0. simpl in S0. rewrite upd_length.
      repeat split; auto; try lia. apply not_Dead; auto; discriminate.
    - unfold release. destruct (nth_error (workers p) w) as [[|x|x|]|] eqn:E; try (repeat split; assumption). rewrite C.
      unfold inv, busies in *. simpl. pose proof (sum_upd busy _ _ _ Waiting E) as S0. simpl in S0. rewrite upd_length.
      repeat split; auto; try lia. apply not_Dead; auto; discriminate.
  Qed.
  Lemma inv_exec : forall l, no_collection l -> inv (exec l).
  Proof.
    intros l. unfold MetrPool_Model.exec. assert (G : forall p, inv p -> no_collection l -> inv (fold_left step l p)).
    { induction l as [|e l IH]; intros p I N; simpl; auto. apply IH; [apply inv_step; auto|]; intros X; apply N; simpl; auto. }
    intros N. apply G; auto. unfold inv, busies. simpl. repeat split; auto; lia.
  Qed.

  (** every task is in one place *)
  Definition tasks (p : pool) : list nat := queue p ++ running p ++ finished p.
  Lemma run_upd : forall l w x y, nth_error l w = Some x -> Permutation (task_of x ++ concat (map task_of (upd l w y))) (task_of y ++ concat (map task_of l)).
  Proof.
    induction l as [|a l IH]; intros [|w] x y E; simpl in *; try discriminate; [injection E as ->; apply Permutation_app_swap_app|].
    specialize (IH w x y E). rewrite !app_assoc, (Permutation_app_comm (task_of x)), (Permutation_app_comm (task_of y)), <- !app_assoc. apply Permutation_app_head. exact IH.
  Qed.
  Lemma once_step : forall p e, inv p -> e <> Collect -> Permutation (tasks p) (seq 0 (submitted p)) -> Permutation (tasks (step p e)) (seq 0 (submitted (step p e))).
  Proof.
    intros p e (C & _ & _ & _ & _) N H. unfold tasks, running in *. destruct e as [| |w|w|w|]; simpl; try congruence.
    - unfold put. rewrite C. destruct (adjusting p); simpl; auto. rewrite <- app_assoc. simpl. rewrite <- Permutation_middle, H.
      change (0 :: seq 1 (submitted p)) with (seq 0 (S (submitted p))). rewrite seq_S. apply Permutation_cons_append.
    - unfold adjust. destruct (adjusting p); auto. destruct (idle p); simpl; auto. destruct (length (workers p) <? max_workers); auto.
      rewrite map_app, concat_app. simpl. rewrite app_nil_r. auto.
    - unfold take. destruct (nth_error (workers p) w) as [[|x|x|]|] eqn:E; auto. destruct (queue p) as [|x q] eqn:Q; [rewrite Q; auto|]. rewrite C. simpl.
      rewrite <- H. pose proof (run_upd _ _ _ (Running x) E) as R. simpl in R. rewrite R. simpl. rewrite <- Permutation_middle. reflexivity.
    - unfold run. destruct (nth_error (workers p) w) as [[|x|x|]|] eqn:E; auto. simpl. rewrite <- H. apply Permutation_app_head.
      pose proof (run_upd _ _ _ (Ran x) E) as R. simpl in R. rewrite <- R. simpl. rewrite app_assoc. symmetry. apply Permutation_cons_append.
    - unfold release. destruct (nth_error (workers p) w) as [[|x|x|]|] eqn:E; auto. rewrite C. simpl. rewrite <- H. apply Permutation_app_head.
      pose proof (run_upd _ _ _ Waiting E) as R. simpl in R. rewrite R. reflexivity.
  Qed.
  Lemma once_exec : forall l, no_collection l -> Permutation (tasks (exec l)) (seq 0 (submitted (exec l))).
  Proof.
    intros l. unfold MetrPool_Model.exec. assert (G : forall p, inv p -> Permutation (tasks p) (seq 0 (submitted p)) -> no_collection l -> Permutation (tasks (fold_left step l p)) (seq 0 (submitted (fold_left step l p)))).
    { induction l as [|e l IH]; intros p I H N; simpl; auto. assert (e <> Collect) by (intros ->; apply N; simpl; auto).
      apply IH; [apply inv_step; auto|apply once_step; auto|]; intros X; apply N; simpl; auto. }
    intros N. apply G; auto. unfold inv, busies. simpl. repeat split; auto; lia.
  Qed.

  Lemma conserving : forall l, no_collection l -> let p := exec l in length (workers p) <= max_workers /\
    (adjusting p = false -> length (workers p) < max_workers -> length (queue p) <= waiting p).
  Proof.
    intros l N p. destruct (inv_exec l N) as (C & L & D & A & B). fold p in C, L, D, A, B. split; auto. intros J X. specialize (B X). rewrite J in B.
    pose proof (waiting_busy p). lia.
  Qed.
  Lemma rest_done : forall l, no_collection l -> 0 < max_workers -> at_rest (exec l) -> Permutation (finished (exec l)) (seq 0 (submitted (exec l))).
  Proof.
    intros l N M (J & R). pose proof (once_exec l N) as H. destruct (inv_exec l N) as (C & L & D & A & B). set (p := exec l) in *. clearbody p.
    assert (W : forall w x, nth_error (workers p) w = Some x -> x = Waiting).
    { intros w x E. destruct (R w) as (_ & R2 & R3). unfold run in R2. unfold release in R3. rewrite E in R2, R3. destruct x as [|t|t|]; auto.
      - apply (f_equal finished) in R2. simpl in R2. apply (f_equal (@length nat)) in R2. rewrite app_length in R2. simpl in R2. lia.
      - rewrite C in R3. apply (f_equal executing_times) in R3. simpl in R3. lia.
      - exfalso. apply D. eapply nth_error_In; eauto. }
    assert (Q : queue p = []).
    { destruct (queue p) as [|x q] eqn:Q; auto. exfalso. destruct (workers p) as [|x0 ws] eqn:Ws.
      - simpl in B. rewrite J in B. specialize (B ltac:(lia)). simpl in B. lia.
      - pose proof (W 0 x0 eq_refl) as ->. destruct (R 0) as (R1 & _). unfold take in R1. rewrite Ws, Q, C in R1. simpl in R1.
        apply (f_equal waiting_times) in R1. simpl in R1. lia. }
    assert (E : running p = []).
    { unfold running. clear - W. revert W. generalize (workers p). induction l as [|x l IH]; intros W; auto. pose proof (W 0 x eq_refl) as ->. simpl.
      apply IH. intros w y E. apply (W (S w) y E). }
    unfold tasks in H. rewrite Q, E in H. exact H.
  Qed.

  (** the metrics: one measurement for every task taken, and for every one finished and released *)
  Definition released (x : place) : nat := match x with Ran _ => 1 | _ => 0 end.
  Definition minv (p : pool) : Prop :=
    waiting_times p = length (running p) + length (finished p) /\ executing_times p + list_sum (map released (workers p)) = length (finished p).
  Lemma run_upd_len : forall l w x y, nth_error l w = Some x -> length (task_of x) + length (concat (map task_of (upd l w y))) = length (task_of y) + length (concat (map task_of l)).
  Proof. intros l w x y E. pose proof (Permutation_length (run_upd l w x y E)) as H. rewrite !app_length in H. exact H. Qed.
  Lemma minv_step : forall p e, inv p -> e <> Collect -> minv p -> minv (step p e).
  Proof.
    intros p e (C & _ & _ & _ & _) N [H K]. unfold minv, running in *. destruct e as [| |w|w|w|]; simpl; try congruence.
    - unfold put. rewrite C. destruct (adjusting p); simpl; auto.
    - unfold adjust. destruct (adjusting p); auto. destruct (idle p); simpl; auto. destruct (length (workers p) <? max_workers); auto.
      rewrite map_app, concat_app, sum_app1. simpl. rewrite app_nil_r. split; auto. lia.
    - unfold take. destruct (nth_error (workers p) w) as [[|x|x|]|] eqn:E; auto. destruct (queue p) as [|x q] eqn:Q; auto. rewrite C. simpl.
      pose proof (run_upd_len _ _ _ (Running x) E) as R. pose proof (sum_upd released _ _ _ (Running x) E) as S0. simpl in R, S0. split; lia.
    - unfold run. destruct (nth_error (workers p) w) as [[|x|x|]|] eqn:E; auto. simpl. rewrite app_length. simpl.
      pose proof (run_upd_len _ _ _ (Ran x) E) as R. pose proof (sum_upd released _ _ _ (Ran x) E) as S0. simpl in R, S0. split; lia.
    - unfold release. destruct (nth_error (workers p) w) as [[|x|x|]|] eqn:E; auto. rewrite C. simpl.
      pose proof (run_upd_len _ _ _ Waiting E) as R. pose proof (sum_upd released _ _ _ Waiting E) as S0. simpl in R, S0. split; lia.
  Qed.
  Lemma minv_exec : forall l, no_collection l -> minv (exec l).
  Proof.
    intros l. unfold MetrPool_Model.exec. assert (G : forall p, inv p -> minv p -> no_collection l -> minv (fold_left step l p)).
    { induction l as [|e l IH]; intros p I H N; simpl; auto. assert (e <> Collect) by (intros ->; apply N; simpl; auto).
      apply IH; [apply inv_step; auto|apply minv_step; auto|]; intros X; apply N; simpl; auto. }
    intros N. apply G; auto; [|split; reflexivity]. unfold inv, busies. simpl. repeat split; auto; lia.
  Qed.

  (** fifo: tasks are taken in the order they were submitted: the queue is what is left of the numbers *)
  Definition finv (p : pool) : Prop := exists k, queue p = seq k (submitted p - k) /\ k <= submitted p /\ forall x, In x (running p ++ finished p) -> x < k.
  Lemma in_running_upd : forall l w y x, In x (concat (map task_of (upd l w y))) -> In x (task_of y) \/ In x (concat (map task_of l)).
  Proof. induction l as [|a l IH]; intros [|w] y x I; simpl in *; auto; apply in_app_or in I as [I|I]; auto using in_or_app. apply IH in I as [I|I]; auto using in_or_app. Qed.
  Lemma in_running_nth : forall l w x, nth_error l w = Some (Running x) -> In x (concat (map task_of l)).
  Proof. induction l as [|a l IH]; intros [|w] x E; simpl in *; try discriminate; apply in_or_app; [injection E as ->; simpl; auto|eauto]. Qed.
  Lemma finv_step : forall p e, finv p -> finv (step p e).
  Proof.
    intros p e (k & Q & L & H). unfold finv, running in *. destruct e as [| |w|w|w|]; simpl.
    - unfold put. destruct (adjusting p || collected p)%bool; [exists k; auto|]. exists k. cbn [queue submitted running workers finished]. rewrite Q.
      assert (E : seq k (S (submitted p) - k) = seq k (submitted p - k) ++ [submitted p]).
      { replace (S (submitted p) - k) with (S (submitted p - k)) by lia. rewrite seq_S. f_equal. f_equal. lia. }
      rewrite E. repeat split; auto.
    - unfold adjust. destruct (adjusting p); [|exists k; auto]. destruct (idle p); simpl; [|exists k; auto]. exists k. repeat split; auto.
      destruct (length (workers p) <? max_workers); auto. intros x. rewrite map_app, concat_app. simpl. rewrite app_nil_r. auto.
    - unfold take. destruct (nth_error (workers p) w) as [[|x|x|]|] eqn:E; try (exists k; auto; fail). destruct (queue p) as [|x q] eqn:Q0; [exists k; rewrite Q0; auto|].
      assert (X : x = k /\ k < submitted p /\ q = seq (S k) (submitted p - S k)).
      { destruct (submitted p - k) as [|m] eqn:M; [discriminate|]. simpl in Q. injection Q as -> ->. repeat split; try lia. f_equal. lia. }
      destruct X as (-> & Lt & ->). exists (S k). destruct (collected p); simpl; repeat split; auto; try lia; intros y I; apply in_app_or in I as [I|I];
        try (apply in_running_upd in I as [I|I]; simpl in I); try (destruct I as [<-|[]]; lia); try contradiction; try (assert (y < k) by (apply H, in_or_app; auto); lia).
    - unfold run. destruct (nth_error (workers p) w) as [[|x|x|]|] eqn:E; try (exists k; auto; fail). exists k. simpl. repeat split; auto. intros y I. apply H.
      apply in_app_or in I as [I|I]; [apply in_running_upd in I as [[]|I]; apply in_or_app; auto|]. apply in_app_or in I as [I|[<-|[]]]; apply in_or_app; auto.
      left. eapply in_running_nth; eauto.
    - unfold release. destruct (nth_error (workers p) w) as [[|x|x|]|] eqn:E; try (exists k; auto; fail). exists k. destruct (collected p); simpl; repeat split; auto; intros y I; apply H;
        apply in_app_or in I as [I|I]; try (apply in_running_upd in I as [[]|I]); apply in_or_app; auto.
    - unfold collect. destruct (adjusting p); exists k; auto.
  Qed.
  Lemma finv_exec : forall l, finv (exec l).
  Proof.
    intros l. unfold MetrPool_Model.exec. assert (G : forall p, finv p -> finv (fold_left step l p)).
    { induction l as [|e l IH]; intros p I; simpl; auto. apply IH, finv_step, I. }
    apply G. exists 0. repeat split; auto. intros x [].
  Qed.
  Lemma fifo : forall l i j, let p := exec l in i < j -> In i (queue p) -> j < submitted p -> In j (queue p).
  Proof.
    intros l i j p L I J. destruct (finv_exec l) as (k & Q & K & _). fold p in Q, K. rewrite Q in *. apply in_seq in I. apply in_seq. lia.
  Qed.
  (** once collected: what is in the queue is never run *)
  Definition lost (x : nat) (p : pool) : Prop := collected p = true /\ ~ In x (running p ++ finished p).
  Lemma lost_step : forall x p e, lost x p -> lost x (step p e).
  Proof.
    intros x p e [C H]. unfold lost, running in *. destruct e as [| |w|w|w|]; simpl.
    - unfold put. rewrite C, Bool.orb_true_r. auto.
    - unfold adjust. destruct (adjusting p); auto. destruct (idle p); simpl; auto. split; auto. destruct (length (workers p) <? max_workers); auto.
      rewrite map_app, concat_app. simpl. rewrite app_nil_r. auto.
    - unfold take. destruct (nth_error (workers p) w) as [[|y|y|]|] eqn:E; auto. destruct (queue p) as [|y q]; auto. rewrite C. simpl. split; auto.
      intros I. apply H. apply in_app_or in I as [I|I]; [apply in_running_upd in I as [[]|I]|]; apply in_or_app; auto.
    - unfold run. destruct (nth_error (workers p) w) as [[|y|y|]|] eqn:E; auto. simpl. split; auto. intros I. apply H.
      apply in_app_or in I as [I|I]; [apply in_running_upd in I as [[]|I]; apply in_or_app; auto|]. apply in_app_or in I as [I|[<-|[]]]; apply in_or_app; auto.
      left. eapply in_running_nth; eauto.
    - unfold release. destruct (nth_error (workers p) w) as [[|y|y|]|] eqn:E; auto. rewrite C. simpl. split; auto.
      intros I. apply H. apply in_app_or in I as [I|I]; [apply in_running_upd in I as [[]|I]|]; apply in_or_app; auto.
    - unfold collect. destruct (adjusting p); auto.
  Qed.
  Lemma lost_exec : forall l l' x, collected (exec l) = true -> In x (queue (exec l)) -> ~ In x (finished (exec (l ++ l'))).
  Proof.
    intros l l' x C I. assert (G : forall l' p, lost x p -> lost x (fold_left step l' p)).
    { clear. induction l' as [|e l IH]; intros p H; simpl; auto. apply IH, lost_step, H. }
    assert (N : ~ In x (running (exec l) ++ finished (exec l))).
    { intros Z. destruct (finv_exec l) as (k & Q & K & H). rewrite Q in I. apply in_seq in I. specialize (H _ Z). lia. }
    unfold MetrPool_Model.exec in *. rewrite fold_left_app. intros J. destruct (G l' _ (conj C N)) as [_ H]. apply H, in_or_app; auto.
  Qed.
  Lemma metrics_ok : forall l, no_collection l -> let p := exec l in
    waiting_times p = length (running p) + length (finished p) /\
    executing_times p + length (filter (fun x => match x with Ran _ => true | _ => false end) (workers p)) = length (finished p).
  Proof.
    intros l N p. destruct (minv_exec l N) as [A B]. fold p in A, B. split; auto. rewrite <- B. f_equal. clear. induction (workers p) as [|[] ws IH]; simpl; auto.
  Qed.
End P.

Lemma full_refuted : ~ (forall max_workers l, 0 < max_workers -> let p := exec max_workers l in at_rest p -> Permutation (finished p) (seq 0 (submitted p))).
Proof.
  intros H. specialize (H 1 [Put; Adjust; Take 0; Put; Adjust; Collect; Run 0; Release 0; Take 0] ltac:(lia)). cbv zeta in H.
  assert (R : at_rest (exec 1 [Put; Adjust; Take 0; Put; Adjust; Collect; Run 0; Release 0; Take 0])).
  { split; [reflexivity|]. intros [|[|w]]; repeat split; reflexivity. }
  specialize (H R). apply Permutation_length in H. discriminate.
Qed.
