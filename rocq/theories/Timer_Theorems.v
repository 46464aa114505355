(** C65: a Timer runs its function once, after its interval, unless it is cancelled. *)
From Verif Require Import Prelude Timer_Model Timer_Spec Timer_Proofs.
Local Open Scope Z_scope.

(** the function is not called before the interval has passed since a start() of the timer *)
Theorem C65_not_early : forall interval second clock es ts a t,
  In (Ran ts a t) (log (exec interval second (begin clock) es)) ->
  exists b, was_started (log (exec interval second (begin clock) es)) b t /\ b + interval t < a.
Proof. exact not_early. Qed.
Print Assumptions C65_not_early.

(** it is called at most once for each start() *)
Theorem C65_once : forall interval second clock es t,
  (count (is_run t) (log (exec interval second (begin clock) es)) <= count (is_start t) (log (exec interval second (begin clock) es)))%nat.
Proof. exact once. Qed.
Print Assumptions C65_once.

(** once cancelled it is never called again, not even if it is started again *)
Theorem C65_cancelled : forall interval second es s t,
  count (is_run t) (log (exec interval second s (Cancel t :: es))) = count (is_run t) (log s).
Proof. exact (fun interval second es s t => cancelled_never interval second es (cancel s t) t (or_introl eq_refl)). Qed.
Print Assumptions C65_cancelled.

(** if no two timers are due at the same instant, start() never raises and the thread never dies *)
Theorem C65_alive_partial : forall interval second clock es, no_ties interval (log (exec interval second (begin clock) es)) ->
  let s := exec interval second (begin clock) es in
  bg s <> Dead /\ (forall a t e, ~ In (StartRaised a t e) (log s)) /\ forall e, ~ In (Died e) (log s).
Proof. exact alive. Qed.
Print Assumptions C65_alive_partial.

(** ... and when the thread wakes it deals with exactly the timers due by then, each once, in order of their times *)
Theorem C65_round_partial : forall interval second clock es until, let s := exec interval second (begin clock) es in
  no_ties interval (log s) -> bg s = Sleeping until -> until <= now s ->
  exists k l, let s' := exec interval second s (repeat Turn k) in
    Permutation (data s) (l ++ data s') /\ in_order l /\ (forall e, In e l -> fst e < now s) /\ (forall e, In e (data s') -> now s <= fst e) /\
    log s' = log s ++ map (handled s) l /\ bg s' = Peeking.
Proof. exact whole_round. Qed.
Print Assumptions C65_round_partial.

(** ... and when a second, and the last of the intervals, has passed, and the thread gets its turns, every timer that was not cancelled
    has run as often as it was started *)
Theorem C65_all_run_partial : forall interval second clock es d, 0 <= second -> let s := exec interval second (begin clock) es in
  no_ties interval (log s) -> second <= Z.of_nat d -> (forall a u, was_started (log s) a u -> a + interval u < now s + Z.of_nat d) ->
  exists k, let s' := exec interval second s (Pass d :: repeat Turn k) in
    forall t, ~ In t (cancelled s) -> count (is_run t) (log s') = count (is_start t) (log s).
Proof. exact all_run. Qed.
Print Assumptions C65_all_run_partial.

(** the thread never sleeps past the closest timer it knows of, and never for more than a second *)
Theorem C65_sleeps : forall interval second s, 0 <= second -> bg s = Peeking ->
  exists until, bg (step interval second s Turn) = Sleeping until /\ now s <= until <= now s + second /\
    forall ts t r, data s = (ts, t) :: r -> until <= Z.max (now s) ts.
Proof. exact sleeps. Qed.
Print Assumptions C65_sleeps.
Theorem C65_sleep_bound : forall interval second clock es until, 0 <= second ->
  bg (exec interval second (begin clock) es) = Sleeping until -> until <= now (exec interval second (begin clock) es) + second.
Proof. exact sleep_bound. Qed.
Print Assumptions C65_sleep_bound.

(** when the thread has died no timer ever runs again *)
Theorem C65_dead_forever : forall interval second es s, bg s = Dead ->
  forall ts a t, In (Ran ts a t) (log (exec interval second s es)) -> In (Ran ts a t) (log s).
Proof. exact dead_forever. Qed.
Print Assumptions C65_dead_forever.

(** * Not provable: the same for every program *)
Definition C65_full_statement : Prop := forall interval second clock es, 0 < second ->
  let s := exec interval second (begin clock) es in
  (forall a t e, ~ In (StartRaised a t e) (log s)) /\
  forall t, ~ In t (cancelled s) -> exists d k, count (is_run t) (log (exec interval second s (Pass d :: repeat Turn k))) = count (is_start t) (log s).

(** timer 0 waits for 10, the others for 50 *)
Definition eg_interval (t : nat) : Z := match t with O => 10 | _ => 50 end.
(** two timers for the same instant: the second start() raises TypeError, although that timer runs in the end *)
Theorem C65_start_raises_refuted :
  log (exec eg_interval 100 (begin 0) [Start 1%nat; Start 2%nat; Turn; Pass 100; Turn; Turn; Turn; Turn; Turn]) =
    [Started 0 1; StartRaised 0 2 TypeError; Ran 50 100 1; Ran 50 100 2].
Proof. vm_compute. reflexivity. Qed.
Print Assumptions C65_start_raises_refuted.
(** three timers, two of them for the same instant: nothing is raised by start(), the background thread dies with TypeError before any
    of them is called, and nothing is ever called again *)
Definition eg_dead := [Start 0%nat; Start 1%nat; Start 2%nat; Turn; Pass 100; Turn; Turn].
Theorem C65_thread_dies_refuted :
  log (exec eg_interval 100 (begin 0) eg_dead) = [Started 0 0; Started 0 1; Started 0 2; Died TypeError] /\
  forall es ts a t, ~ In (Ran ts a t) (log (exec eg_interval 100 (begin 0) (eg_dead ++ es))).
Proof.
  split; [vm_compute; reflexivity|]. intros es ts a t H. rewrite exec_app in H. apply dead_forever in H; [|vm_compute; reflexivity].
  vm_compute in H. intuition discriminate.
Qed.
Print Assumptions C65_thread_dies_refuted.
Theorem C65_full_statement_refuted : ~ C65_full_statement.
Proof.
  intros H. destruct (H eg_interval 100 0 [Start 1%nat; Start 2%nat] eq_refl) as (N & _). eapply N. vm_compute. right. left. reflexivity.
Qed.
Print Assumptions C65_full_statement_refuted.

(** * Cases that meet the hypotheses *)
Definition eg_apart (t : nat) : Z := 10 * Z.of_nat t.
Definition eg_events := [Start 3%nat; Start 1%nat; Start 2%nat; Cancel 2%nat; Turn].
Example C65_eg_round :
  let s := exec eg_apart 100 (begin 0) (eg_events ++ [Pass 25]) in
  no_ties eg_apart (log s) /\ bg s = Sleeping 10 /\ 10 <= now s /\
  log (exec eg_apart 100 s [Turn; Turn; Turn; Turn; Turn; Turn]) = log s ++ [Ran 10 25 1; Skipped 20 25 2].
Proof.
  cbv zeta. split; [|vm_compute; repeat split; congruence].
  intros a b t u. vm_compute log. intros A B E. unfold was_started in *. simpl in *.
  destruct A as [A|(e & A)]; destruct B as [B|(e' & B)]; repeat destruct A as [A|A]; repeat destruct B as [B|B]; try discriminate; try contradiction;
    inversion A; inversion B; subst; try reflexivity; vm_compute in E; discriminate.
Qed.
Example C65_eg_all_run :
  log (exec eg_apart 100 (begin 0) (eg_events ++ Pass 100 :: repeat Turn 8)) =
    [Started 0 3; Started 0 1; Started 0 2; Ran 10 100 1; Skipped 20 100 2; Ran 30 100 3].
Proof. vm_compute. reflexivity. Qed.
