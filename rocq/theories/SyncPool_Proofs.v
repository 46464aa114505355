(** C73: proofs. *)
From Coq Require Import Lia Permutation.
From Verif Require Import Prelude PreludeFacts Deferred_Proofs SyncPool_Model SyncPool_Spec.
Local Arguments Nat.ltb : simpl never.

Definition jobs (l : list item) : list nat := flat_map (fun x => match x with Job j => [j] | Task => [] end) l.
Definition runs (l : list wplace) : list nat := flat_map (fun w => match w with Running j => [j] | _ => [] end) l.
Notation occ := (count_occ Nat.eq_dec).

Lemma occ_upd {X} (f : X -> list nat) l : forall i x y j, nth_error l i = Some x ->
  occ (flat_map f (upd l i y)) j + occ (f x) j = occ (flat_map f l) j + occ (f y) j.
Proof.
  induction l as [|h t IH]; intros [|i] x y j H; simpl in *; try discriminate.
  - injection H as ->. rewrite !count_occ_app. lia.
  - rewrite !count_occ_app. specialize (IH i x y j H). lia.
Qed.

Lemma jobs_snoc l x : jobs (l ++ [x]) = jobs l ++ jobs [x].
Proof. unfold jobs. apply flat_map_app. Qed.

Definition occs (p : pool) (j : nat) : nat := occ (jobs (queue p)) j + occ (runs (workers p)) j + occ (finished p) j.
Lemma accounted_occs p : accounted p <-> forall j, occs p j = occ (seq 0 (submitted p)) j.
Proof.
  unfold accounted. rewrite (Permutation_count_occ Nat.eq_dec). unfold occs, waiting, running. split; intros H j; specialize (H j).
  - rewrite !count_occ_app in H. unfold jobs, runs. lia.
  - rewrite !count_occ_app. unfold jobs, runs in H. lia.
Qed.

Lemma runs_wake l : runs (map (fun w => match w with Asleep => Awake | w => w end) l) = runs l.
Proof. induction l as [|[] l IH]; simpl; auto. unfold runs in *. simpl. congruence. Qed.

Lemma occs_work p i j : occs (work p i) j = occs p j /\ submitted (work p i) = submitted p.
Proof.
  unfold work. destruct (nth_error (workers p) i) as [w|] eqn:E; auto.
  destruct w; unfold occs; simpl; auto.
  - destruct (queue p) as [|[k|] q] eqn:Q; simpl; auto.
    + rewrite Q. auto.
    + split; auto. pose proof (occ_upd (fun w => match w with Running j => [j] | _ => [] end) _ _ _ (Running k) j E) as X.
      fold (runs (workers p)) in X. fold (runs (upd (workers p) i (Running k))) in X. simpl in X. destruct (Nat.eq_dec k j); simpl in *; lia.
    + destruct (cancelled p); simpl; auto. split; auto.
      pose proof (occ_upd (fun w => match w with Running j => [j] | _ => [] end) _ _ _ ToDecrease j E) as X.
      fold (runs (workers p)) in X. fold (runs (upd (workers p) i ToDecrease)) in X. simpl in X. lia.
  - split; auto. pose proof (occ_upd (fun w => match w with Running j => [j] | _ => [] end) _ _ _ Idle j E) as X.
    fold (runs (workers p)) in X. fold (runs (upd (workers p) i Idle)) in X. rewrite count_occ_app. simpl in *. destruct (Nat.eq_dec j0 j); lia.
  - split; auto. pose proof (occ_upd (fun w => match w with Running j => [j] | _ => [] end) _ _ _ ToSleep j E) as X.
    fold (runs (workers p)) in X. fold (runs (upd (workers p) i ToSleep)) in X. simpl in X. lia.
  - split; auto. pose proof (occ_upd (fun w => match w with Running j => [j] | _ => [] end) _ _ _ Asleep j E) as X.
    fold (runs (workers p)) in X. fold (runs (upd (workers p) i Asleep)) in X. simpl in X. lia.
  - split; auto. pose proof (occ_upd (fun w => match w with Running j => [j] | _ => [] end) _ _ _ Idle j E) as X.
    fold (runs (workers p)) in X. fold (runs (upd (workers p) i Idle)) in X. simpl in X. lia.
Qed.

Lemma occs_turn p j : occs (turn p) j = occs p j /\ submitted (turn p) = submitted p.
Proof.
  unfold turn, occs. destruct (caller p); simpl; auto.
  - destruct (_ <? _); simpl; auto. rewrite jobs_snoc. simpl. rewrite app_nil_r. auto.
  - destruct (queue p) eqn:Q; simpl; rewrite ?Q; auto.
  - destruct (Nat.eqb _ _); auto.
  - destruct (Nat.eqb _ _); auto.
  - rewrite runs_wake. auto.
  - destruct (_ <? _); auto.
Qed.

Lemma accounted_step timed p e : accounted p -> accounted (step timed p e).
Proof.
  rewrite !accounted_occs. intros H j. destruct e as [|i| | |]; cbn [step].
  - unfold occs. cbn [queue workers finished submitted]. rewrite jobs_snoc, seq_S, !count_occ_app. specialize (H j). unfold occs in H.
    simpl. destruct (Nat.eq_dec (submitted p) j); lia.
  - destruct (occs_work p i j) as [-> ->]. auto.
  - destruct (occs_turn p j) as [-> ->]. auto.
  - unfold expire. destruct timed; auto. destruct (caller p); try apply H. destruct (queue p) eqn:Q; try apply H.
    specialize (H j). unfold occs in *. cbn [queue workers finished submitted]. rewrite Q in H. auto.
  - unfold slice. destruct timed; auto. destruct (caller p); apply H.
Qed.

Lemma exec_app timed a : forall p b, exec timed p (a ++ b) = exec timed (exec timed p a) b.
Proof. induction a; simpl; auto. Qed.

Lemma accounted_exec timed es : forall p, accounted p -> accounted (exec timed p es).
Proof. induction es; simpl; auto. intros p H. apply IHes, accounted_step, H. Qed.

Lemma runs_repeat n : runs (repeat Idle n) = [].
Proof. induction n; auto. Qed.
Lemma accounted_start w : accounted (start w).
Proof. unfold accounted, waiting, running, start. simpl. fold (runs (repeat Idle w)). rewrite runs_repeat. constructor. Qed.

(** * The invariant *)
Definition pd (w : wplace) : nat := match w with ToSleep | Asleep | Awake => 1 | _ => 0 end.
Definition tk (w : wplace) : nat := match w with ToSleep | Asleep | Awake | ToDecrease => 1 | _ => 0 end.
Definition aw (w : wplace) : nat := match w with Awake => 1 | _ => 0 end.
Definition tq (x : item) : nat := match x with Task => 1 | _ => 0 end.
Definition ordered (N : nat) (q : list item) : Prop := forall a b j, q = a ++ Task :: b -> In (Job j) b -> N <= j.
Definition told (c : cplace) : bool := match c with Notify | WaitAll | Returned => true | _ => false end.
Definition after_notify (c : cplace) : bool := match c with WaitAll | Returned => true | _ => false end.

Record Inv (N : nat) (p : pool) : Prop := {
  i_acc : accounted p;
  i_started : caller p <> NotYet;
  i_old : N <= submitted p;
  i_order : ordered N (queue p);
  i_out : 0 < sumf tk (workers p) -> forall j, In (Job j) (queue p) -> N <= j;
  i_count : counter p + sumf pd (workers p) + tasks_done p = length (workers p);
  i_tasks : sumf tq (queue p) + sumf tk (workers p) + tasks_done p <= match caller p with Submitting k => k | _ => length (workers p) end;
  i_sub : match caller p with Submitting k => k <= length (workers p) | _ => True end;
  i_quiet : after_notify (caller p) = false -> sumf aw (workers p) = 0 /\ tasks_done p = 0;
  i_zero : told (caller p) = true -> counter p = 0;
  i_done : told (caller p) = true -> forall j, j < N -> In j (finished p)
}.

Lemma sumf_app {X} (f : X -> nat) a b : sumf f (a ++ b) = sumf f a + sumf f b.
Proof. induction a; simpl; auto. rewrite IHa. lia. Qed.
Lemma sumf_cons {X} (f : X -> nat) x l : sumf f (x :: l) = f x + sumf f l.
Proof. reflexivity. Qed.
Lemma sumf_full {X} (f : X -> nat) l : (forall x, f x <= 1) -> sumf f l = length l -> Forall (fun x => f x = 1) l.
Proof.
  intros B. assert (LE: forall l, sumf f l <= length l).
  { induction l0 as [|x l0 IH]; [auto|]. rewrite sumf_cons. simpl. specialize (B x). lia. }
  induction l as [|x l IH]; intros H; constructor; rewrite sumf_cons in H; simpl in H; pose proof (LE l); pose proof (B x); [lia|].
  apply IH. lia.
Qed.
Lemma tk_pd w : pd w <= tk w.
Proof. destruct w; simpl; lia. Qed.
Lemma sumf_tk_pd l : sumf pd l <= sumf tk l.
Proof. induction l as [|x l IH]; auto. rewrite !sumf_cons. pose proof (tk_pd x). lia. Qed.
Lemma runs_nil l : Forall (fun w => pd w = 1) l -> runs l = [].
Proof. induction 1 as [|x l H F IH]; auto. destruct x; simpl in *; try discriminate; auto. Qed.

Lemma in_jobs l j : In j (jobs l) <-> In (Job j) l.
Proof.
  unfold jobs. rewrite in_flat_map. split.
  - intros ([k|] & H & I); simpl in I; [destruct I as [->|[]]; auto|destruct I].
  - intros H. exists (Job j). split; simpl; auto.
Qed.

(** when the number is zero, all the old jobs have finished *)
Lemma zero_done N p : Inv N p -> 0 < length (workers p) -> counter p = 0 -> after_notify (caller p) = false -> forall j, j < N -> In j (finished p).
Proof.
  intros I L Z A j J. destruct (i_quiet N p I A) as [_ D]. pose proof (i_count N p I) as C.
  assert (P: sumf pd (workers p) = length (workers p)) by lia.
  assert (F: Forall (fun w => pd w = 1) (workers p)) by (apply sumf_full; auto; intros []; simpl; lia).
  pose proof (runs_nil _ F) as R. pose proof (sumf_tk_pd (workers p)).
  assert (O: In j (waiting p ++ running p ++ finished p)).
  { apply (Permutation_in j (Permutation_sym (i_acc N p I))). apply in_seq. pose proof (i_old N p I). lia. }
  apply in_app_or in O. destruct O as [O|O].
  - apply in_jobs in O. pose proof (i_out N p I ltac:(lia) j O). lia.
  - apply in_app_or in O. destruct O as [O|O]; auto. unfold running in O. fold (runs (workers p)) in O. rewrite R in O. destruct O.
Qed.

Lemma ordered_tl N x q : ordered N (x :: q) -> ordered N q.
Proof. intros H a b j E I. apply (H (x :: a) b j); auto. simpl. congruence. Qed.
Lemma ordered_snoc N q x : ordered N q -> (forall j, x = Job j -> N <= j) -> ordered N (q ++ [x]).
Proof.
  intros H X a b j E I. destruct b as [|y b] using rev_ind; [destruct I|]. clear IHb.
  rewrite app_comm_cons, app_assoc in E. apply app_inj_tail in E. destruct E as [E ->].
  apply in_app_or in I. destruct I as [I|[I|[]]]; [eapply H; eauto|eauto].
Qed.

Ltac upds E := repeat match goal with |- context [sumf ?f (upd ?l ?i ?y)] =>
    let X := fresh "U" in pose proof (sumf_upd f l i _ y E) as X; cbn [pd tk aw] in X; generalize dependent (sumf f (upd l i y)); intros end.

Lemma Inv_work N p i : Inv N p -> Inv N (work p i).
Proof.
  intros I. assert (ACC: accounted (work p i)) by exact (accounted_step true p (Work i) (i_acc N p I)).
  unfold work in *. destruct (nth_error (workers p) i) as [w|] eqn:E; auto. pose proof I as I0.
  destruct I as [A1 A2 A3 A4 A5 A6 A7 A8 A9 A10 A11].
  pose proof (sumf_upd pd (workers p) i w) as UP. pose proof (sumf_upd tk (workers p) i w) as UT. pose proof (sumf_upd aw (workers p) i w) as UA.
  pose proof (sumf_le tk _ _ _ E) as LT. pose proof (sumf_tk_pd (workers p)) as TP.
  destruct w; auto.
  - destruct (queue p) as [|[k|] q] eqn:Q; auto.
    + specialize (UP (Running k) E). specialize (UT (Running k) E). specialize (UA (Running k) E). cbn [pd tk aw] in *.
      split; simpl; rewrite ?upd_length; auto.
      * eapply ordered_tl; eauto.
      * intros H j J. apply (A5 ltac:(lia) j). right. auto.
      * lia.
      * rewrite sumf_cons in A7. cbn [tq] in A7. destruct (caller p); lia.
      * intros H. destruct (A9 H). split; lia.
    + destruct (cancelled p).
      * split; simpl; auto.
        -- eapply ordered_tl; eauto.
        -- intros H j J. apply (A5 H j). right. auto.
        -- rewrite sumf_cons in A7. cbn [tq] in A7. destruct (caller p); lia.
      * specialize (UP ToDecrease E). specialize (UT ToDecrease E). specialize (UA ToDecrease E). cbn [pd tk aw] in *.
        split; simpl; rewrite ?upd_length; auto.
        -- eapply ordered_tl; eauto.
        -- intros _ j J. apply (A4 [] q j); auto.
        -- lia.
        -- rewrite sumf_cons in A7. cbn [tq] in A7. destruct (caller p); lia.
        -- intros H. destruct (A9 H). split; lia.
  - specialize (UP Idle E). specialize (UT Idle E). specialize (UA Idle E). cbn [pd tk aw] in *.
    split; simpl; rewrite ?upd_length; auto.
    * intros H. apply A5. lia.
    * lia.
    * destruct (caller p); lia.
    * intros H. destruct (A9 H). split; lia.
    * intros H x J. apply in_or_app. left. auto.
  - specialize (UP ToSleep E). specialize (UT ToSleep E). specialize (UA ToSleep E). cbn [pd tk aw] in *.
    assert (CP: 0 < counter p).
    { assert (sumf pd (workers p) + 1 <= sumf tk (workers p)).
      { clear - E. revert i E. induction (workers p) as [|x l IH]; intros [|i] E; simpl in E; try discriminate; rewrite !sumf_cons.
        - injection E as ->. simpl. pose proof (sumf_tk_pd l). lia.
        - specialize (IH i E). pose proof (tk_pd x). lia. }
      destruct (caller p); lia. }
    split; simpl; rewrite ?upd_length; auto.
    all: try (intros H; apply A5; lia); try lia; try (destruct (caller p); auto; congruence); try (destruct (caller p); lia).
    all: try (intros H; assert (H': after_notify (caller p) = false) by (destruct (caller p); auto); destruct (A9 H'); split; lia).
    all: try (intros H; assert (H': told (caller p) = true) by (destruct (caller p); auto); specialize (A10 H'); lia).
    all: try (intros H; assert (H': told (caller p) = true) by (destruct (caller p); auto); auto).
  - specialize (UP Asleep E). specialize (UT Asleep E). specialize (UA Asleep E). cbn [pd tk aw] in *.
    split; simpl; rewrite ?upd_length; auto.
    all: try (intros H; apply A5; lia); try lia; try (destruct (caller p); lia); try (intros H; destruct (A9 H); split; lia).
  - specialize (UP Idle E). specialize (UT Idle E). specialize (UA Idle E). cbn [pd tk aw] in *.
    pose proof (sumf_le aw _ _ _ E) as LA. cbn [aw] in LA.
    split; simpl; rewrite ?upd_length; auto.
    all: try (intros H; apply A5; lia); try lia; try (destruct (caller p); lia); try (intros H; destruct (A9 H); lia).
Qed.

Lemma sumf_wake_pd l : sumf pd (map (fun w => match w with Asleep => Awake | w => w end) l) = sumf pd l.
Proof. induction l as [|x l IH]; auto. simpl map. rewrite !sumf_cons, IH. destruct x; auto. Qed.
Lemma sumf_wake_tk l : sumf tk (map (fun w => match w with Asleep => Awake | w => w end) l) = sumf tk l.
Proof. induction l as [|x l IH]; auto. simpl map. rewrite !sumf_cons, IH. destruct x; auto. Qed.

Lemma Inv_turn N p : Inv N p -> 0 < length (workers p) -> Inv N (turn p).
Proof.
  intros I L. assert (ACC: accounted (turn p)) by exact (accounted_step true p Turn (i_acc N p I)).
  pose proof (zero_done N p I L) as ZD. unfold turn in *.
  destruct I as [A1 A2 A3 A4 A5 A6 A7 A8 A9 A10 A11]. destruct (caller p) eqn:C; try congruence; simpl in *.
  - destruct (k <? length (workers p)) eqn:K.
    + apply Nat.ltb_lt in K. split; simpl; auto; try discriminate.
      * apply ordered_snoc; auto. discriminate.
      * intros H j J. apply in_app_or in J. destruct J as [J|[J|[]]]; try discriminate. auto.
      * rewrite sumf_app. simpl. lia.
    + apply Nat.ltb_ge in K. split; simpl; auto; try discriminate. lia.
  - destruct (queue p) eqn:Q.
    + split; simpl; rewrite ?Q; auto; discriminate.
    + split; rewrite ?C, ?Q; auto.
  - split; simpl; auto; discriminate.
  - destruct (Nat.eqb (counter p) 0) eqn:Z.
    + apply Nat.eqb_eq in Z. split; simpl; auto. discriminate.
    + split; simpl; auto; discriminate.
  - split; simpl; auto; discriminate.
  - split; rewrite ?C; auto; discriminate.
  - destruct (Nat.eqb (counter p) 0) eqn:Z.
    + apply Nat.eqb_eq in Z. split; simpl; auto. discriminate.
    + split; simpl; auto; discriminate.
  - split; simpl; rewrite ?map_length, ?sumf_wake_pd, ?sumf_wake_tk; auto; discriminate.
  - destruct (_ <? _).
    + split; rewrite ?C; auto; discriminate.
    + split; simpl; auto; discriminate.
  - split; rewrite ?C; auto; discriminate.
  - split; rewrite ?C; auto; discriminate.
Qed.

Lemma Inv_step N timed p e : Inv N p -> 0 < length (workers p) -> Inv N (step timed p e).
Proof.
  intros I L. destruct e as [|i| | |]; simpl.
  - pose proof (accounted_step timed p Submit (i_acc N p I)) as ACC. simpl in ACC.
    destruct I as [A1 A2 A3 A4 A5 A6 A7 A8 A9 A10 A11]. split; simpl; auto.
    + apply ordered_snoc; auto. intros j J. injection J as <-. auto.
    + intros H j J. apply in_app_or in J. destruct J as [J|[J|[]]]; auto. injection J as <-. auto.
    + rewrite sumf_app. simpl. destruct (caller p); lia.
  - apply Inv_work; auto.
  - apply Inv_turn; auto.
  - pose proof (accounted_step timed p Expire (i_acc N p I)) as ACC. simpl in ACC. unfold expire in *. destruct timed; auto.
    destruct I as [A1 A2 A3 A4 A5 A6 A7 A8 A9 A10 A11]. destruct (caller p) eqn:C; try (split; rewrite ?C; auto; fail).
    + destruct (queue p) eqn:Q; split; simpl; rewrite ?C, ?Q; auto; discriminate.
    + split; simpl; auto; discriminate.
  - pose proof (accounted_step timed p Slice (i_acc N p I)) as ACC. simpl in ACC. unfold slice in *. destruct timed; auto.
    destruct I as [A1 A2 A3 A4 A5 A6 A7 A8 A9 A10 A11]. destruct (caller p) eqn:C; try (split; rewrite ?C; auto; fail).
    split; simpl; auto; discriminate.
Qed.

Lemma length_step timed p e : length (workers (step timed p e)) = length (workers p).
Proof.
  destruct e as [|i| | |]; simpl; auto.
  - unfold work. destruct (nth_error _ _) as [[]|]; simpl; rewrite ?upd_length; auto.
    destruct (queue p) as [|[] q]; simpl; rewrite ?upd_length; auto. destruct (cancelled p); simpl; rewrite ?upd_length; auto.
  - unfold turn. destruct (caller p); simpl; auto.
    + destruct (_ <? _); auto.
    + destruct (queue p); auto.
    + destruct (Nat.eqb _ _); auto.
    + destruct (Nat.eqb _ _); auto.
    + apply map_length.
    + destruct (_ <? _); auto.
  - unfold expire. destruct timed; auto. destruct (caller p); auto. destruct (queue p); auto.
  - unfold slice. destruct timed; auto. destruct (caller p); auto.
Qed.
Lemma length_exec timed es : forall p, length (workers (exec timed p es)) = length (workers p).
Proof. induction es; simpl; intros; auto. rewrite IHes. apply length_step. Qed.

Lemma Inv_exec N timed es : forall p, Inv N p -> 0 < length (workers p) -> Inv N (exec timed p es).
Proof. induction es; simpl; auto. intros p I L. apply IHes; [apply Inv_step; auto|rewrite length_step; auto]. Qed.

(** before the call: there are no tasks *)
Record Pre (p : pool) : Prop := { p_acc : accounted p; p_caller : caller p = NotYet; p_q : sumf tq (queue p) = 0; p_w : sumf tk (workers p) = 0; p_canc : cancelled p = false }.

Lemma Pre_step timed p e : Pre p -> Pre (step timed p e) \/ (e = Turn).
Proof.
  intros [A B C D F]. destruct e as [|i| | |]; auto; left.
  - split; simpl; auto. { apply (accounted_step timed p Submit A). } rewrite sumf_app, C. reflexivity.
  - pose proof (accounted_step timed p (Work i) A) as ACC. simpl in *. unfold work in *.
    destruct (nth_error (workers p) i) as [w|] eqn:E; [|split; auto].
    pose proof (sumf_upd tk (workers p) i w) as UT. pose proof (sumf_le tk _ _ _ E) as LT. rewrite D in LT.
    destruct w; cbn [tk] in *; try lia.
    + destruct (queue p) as [|[k|] q] eqn:Q; [split; rewrite ?Q; auto| |rewrite sumf_cons in C; discriminate].
      specialize (UT (Running k) E). cbn [tk] in UT. split; simpl; auto. lia.
    + specialize (UT Idle E). cbn [tk] in UT. split; simpl; auto. lia.
  - simpl. unfold expire. rewrite B. destruct timed; split; auto.
  - simpl. unfold slice. rewrite B. destruct timed; split; auto.
Qed.

Lemma Pre_turn p : Pre p -> Inv (submitted p) (turn p).
Proof.
  intros [A B C D F]. pose proof (accounted_step true p Turn A) as ACC. simpl in ACC. unfold turn in *. rewrite B in *.
  assert (P: sumf pd (workers p) = 0) by (pose proof (sumf_tk_pd (workers p)); lia).
  assert (W: sumf aw (workers p) = 0).
  { clear - P. induction (workers p) as [|x l IH]; auto. rewrite sumf_cons in *. destruct x; simpl in *; try lia; auto. }
  split; simpl; auto; try discriminate; try lia.
  intros a b j E _. rewrite E in C. rewrite sumf_app, sumf_cons in C. cbn [tq] in C. lia.
Qed.

Lemma Pre_start w : Pre (start w).
Proof.
  split; simpl; auto; [apply accounted_start|]. induction w; auto.
Qed.

Lemma submitted_mono timed es : forall p, submitted p <= submitted (exec timed p es).
Proof.
  induction es as [|e es IH]; simpl; auto. intros p. etransitivity; [|apply IH].
  destruct e as [|i| | |]; simpl; auto.
  - destruct (occs_work p i 0) as [_ ->]. auto.
  - destruct (occs_turn p 0) as [_ ->]. auto.
  - unfold expire. destruct timed; auto. destruct (caller p); auto. destruct (queue p); auto.
  - unfold slice. destruct timed; auto. destruct (caller p); auto.
Qed.

Lemma Inv_weaken N M p : Inv N p -> M <= N -> Inv M p.
Proof.
  intros [A1 A2 A3 A4 A5 A6 A7 A8 A9 A10 A11] L. split; auto; try lia.
  - intros a b j E I. specialize (A4 a b j E I). lia.
  - intros H j J. specialize (A5 H j J). lia.
  - intros H j J. apply A11; auto. lia.
Qed.

Lemma started timed es : forall p, Pre p -> 0 < length (workers p) -> Pre (exec timed p es) \/ (forall N, N <= submitted p -> Inv N (exec timed p es)).
Proof.
  induction es as [|e es IH]; simpl; auto. intros p P L. destruct (Pre_step timed p e P) as [Q| ->].
  - destruct (IH _ Q) as [H|H]; [rewrite length_step; auto|left; exact H|]. right. intros N HN. apply H.
    etransitivity; [exact HN|]. apply (submitted_mono timed [e] p).
  - right. intros N HN. apply Inv_exec; [|rewrite length_step; auto]. apply (Inv_weaken (submitted p)); auto. apply Pre_turn; auto.
Qed.

Lemma NotYet_Pre timed es : forall p, Pre p -> 0 < length (workers p) -> caller (exec timed p es) = NotYet -> Pre (exec timed p es).
Proof. intros p P L C. destruct (started timed es p P L) as [H|H]; auto. exfalso. apply (i_started _ _ (H 0 ltac:(lia))); auto. Qed.

(** * C73_done *)
Lemma sync_done timed w es1 es2 : 0 < w -> caller (exec timed (start w) es1) = NotYet ->
  caller (exec timed (start w) (es1 ++ es2)) = Returned ->
  forall j, j < submitted (exec timed (start w) es1) -> In j (finished (exec timed (start w) (es1 ++ es2))).
Proof.
  intros W N R j J. rewrite exec_app in *. set (p := exec timed (start w) es1) in *.
  assert (LW: length (workers (start w)) = w) by (simpl; apply repeat_length).
  assert (L: 0 < length (workers p)) by (unfold p; rewrite length_exec, LW; auto).
  assert (P: Pre p) by (apply NotYet_Pre; auto; [apply Pre_start|rewrite LW; auto]).
  destruct (started timed es2 p P L) as [H|H].
  - destruct H as [_ C _ _ _]. congruence.
  - specialize (H (submitted p) (le_n _)). apply (i_done _ _ H); auto. rewrite R. auto.
Qed.

Lemma only_timed w es : caller (exec false (start w) es) <> Raised.
Proof.
  assert (G: forall es p, caller p <> Raised -> caller (exec false p es) <> Raised).
  { induction es0 as [|e es0 IH]; simpl; auto. intros p H. apply IH. destruct e as [|i| | |]; simpl; auto.
    - unfold work. destruct (nth_error _ _) as [[]|]; simpl; auto.
      + destruct (queue p) as [|[] q]; simpl; auto. destruct (cancelled p); simpl; auto.
      + destruct (caller p); congruence.
    - unfold turn. destruct (caller p) eqn:C; simpl; try congruence.
      + destruct (_ <? _); simpl; congruence.
      + destruct (queue p); simpl; congruence.
      + destruct (Nat.eqb _ _); simpl; congruence.
      + destruct (Nat.eqb _ _); simpl; congruence.
      + destruct (_ <? _); simpl; congruence. }
  apply G. simpl. discriminate.
Qed.

(** the caller gone, or waiting for its futures, nobody wakes a worker *)
Lemma sleeps_on timed es i : forall p, after_notify (caller p) = true \/ caller p = Raised -> nth_error (workers p) i = Some Asleep ->
  nth_error (workers (exec timed p es)) i = Some Asleep.
Proof.
  induction es as [|e es IH]; simpl; auto. intros p C H. apply IH.
  - destruct e as [|k| | |]; simpl; auto.
    + unfold work. destruct (nth_error (workers p) k) as [[]|]; simpl; auto.
      * destruct (queue p) as [|[] q]; simpl; auto. destruct (cancelled p); simpl; auto.
      * destruct (caller p); simpl in *; auto; destruct C; discriminate.
    + unfold turn. destruct (caller p) eqn:Q; simpl in *; auto; try (destruct C; discriminate).
      all: try (destruct (_ <? _); simpl; rewrite ?Q; auto); rewrite ?Q; auto.
    + unfold expire. destruct timed; auto. destruct (caller p) eqn:Q; simpl in *; rewrite ?Q; auto; destruct C; discriminate.
    + unfold slice. destruct timed; auto. destruct (caller p) eqn:Q; simpl in *; rewrite ?Q; auto; destruct C; discriminate.
  - destruct e as [|k| | |]; simpl; auto.
    + unfold work. destruct (nth_error (workers p) k) as [w|] eqn:K; auto.
      destruct (Nat.eq_dec k i) as [->|NE].
      * rewrite H in K. injection K as <-. auto.
      * assert (U: forall x, nth_error (upd (workers p) k x) i = Some Asleep) by (intros x; rewrite nth_error_upd_neq; auto).
        destruct w; simpl; auto. destruct (queue p) as [|[] q]; simpl; auto. destruct (cancelled p); simpl; auto.
    + unfold turn. destruct (caller p) eqn:Q; simpl in *; auto; try (destruct C; discriminate). destruct (_ <? _); auto.
    + unfold expire. destruct timed; auto. destruct (caller p) eqn:Q; auto. destruct (queue p); auto.
    + unfold slice. destruct timed; auto. destruct (caller p) eqn:Q; auto.
Qed.

(** * the call that does not return *)
Lemma lost_forever N timed es i : forall p, Inv N p -> 0 < length (workers p) -> caller p = WaitAll ->
  (nth_error (workers p) i = Some Asleep \/ nth_error (workers p) i = Some ToSleep) -> caller (exec timed p es) <> Returned.
Proof.
  induction es as [|e es IH]; intros p I L C H; simpl; [congruence|].
  apply IH.
  - apply Inv_step; auto.
  - rewrite length_step. auto.
  - destruct e as [|k| | |]; simpl; auto.
    + unfold work. destruct (nth_error (workers p) k) as [[]|]; simpl; auto.
      * destruct (queue p) as [|[] q]; simpl; auto. destruct (cancelled p); simpl; auto.
      * rewrite C. auto.
    + unfold turn. rewrite C. pose proof (i_tasks N p I) as T. rewrite C in T.
      assert (1 <= sumf tk (workers p)).
      { destruct H as [H|H]; pose proof (sumf_le tk _ _ _ H); simpl in *; lia. }
      replace (tasks_done p <? length (workers p)) with true; auto. symmetry. apply Nat.ltb_lt. lia.
    + unfold expire. rewrite C. destruct timed; auto.
    + unfold slice. rewrite C. destruct timed; auto.
  - destruct e as [|k| | |]; simpl; auto.
    + unfold work. destruct (nth_error (workers p) k) as [w|] eqn:K; auto.
      destruct (Nat.eq_dec k i) as [->|NE].
      * assert (i < length (workers p)) by (eapply nth_lt; eauto).
        destruct H as [H|H]; rewrite H in K; injection K as <-; simpl; auto. left. apply nth_error_upd_eq. auto.
      * assert (U: forall x, nth_error (upd (workers p) k x) i = nth_error (workers p) i) by (intros x; rewrite nth_error_upd_neq; auto).
        destruct w; simpl; rewrite ?U; auto. destruct (queue p) as [|[] q]; simpl; rewrite ?U; auto. destruct (cancelled p); simpl; rewrite ?U; auto.
    + unfold turn. rewrite C. destruct (_ <? _); auto.
    + unfold expire. rewrite C. destruct timed; auto.
    + unfold slice. rewrite C. destruct timed; auto.
Qed.

Lemma no_decrease N p : Inv N p -> counter p = 0 -> forall i, nth_error (workers p) i <> Some ToDecrease.
Proof.
  intros I Z i E. pose proof (i_count N p I) as A. pose proof (i_tasks N p I) as B. pose proof (i_sub N p I) as D.
  assert (sumf pd (workers p) + 1 <= sumf tk (workers p)).
  { clear - E. revert i E. induction (workers p) as [|x l IH]; intros [|i] E; simpl in E; try discriminate; rewrite !sumf_cons.
    - injection E as ->. simpl. pose proof (sumf_tk_pd l). lia.
    - specialize (IH i E). pose proof (tk_pd x). lia. }
  destruct (caller p); lia.
Qed.

Lemma missed_forever N es : forall p, Inv N p -> 0 < length (workers p) -> (caller p = GoToSleep \/ caller p = Sleeping) -> counter p = 0 ->
  caller (exec false p es) <> Returned.
Proof.
  induction es as [|e es IH]; intros p I L C Z; simpl; [destruct C; congruence|].
  pose proof (no_decrease N p I Z) as ND.
  apply IH.
  - apply Inv_step; auto.
  - rewrite length_step. auto.
  - destruct e as [|k| | |]; simpl; auto.
    + unfold work. specialize (ND k). destruct (nth_error (workers p) k) as [[]|]; simpl; auto; try congruence.
      destruct (queue p) as [|[] q]; simpl; auto. destruct (cancelled p); simpl; auto.
    + unfold turn. destruct C as [C|C]; rewrite C; simpl; auto.
  - destruct e as [|k| | |]; simpl; auto.
    + unfold work. specialize (ND k). destruct (nth_error (workers p) k) as [[]|]; simpl; auto; try congruence.
      destruct (queue p) as [|[] q]; simpl; auto. destruct (cancelled p); simpl; auto.
    + unfold turn. destruct C as [C|C]; rewrite C; simpl; auto.
Qed.

(** * the call that can return *)
Definition ww (w : wplace) : nat := match w with Idle => 0 | Running _ => 1 | ToDecrease => 29 | ToSleep => 4 | Asleep => 3 | Awake => 2 end.
Definition wi (x : item) : nat := match x with Job _ => 2 | Task => 30 end.
Definition wc (n : nat) (c : cplace) : nat :=
  match c with NotYet => 31 * n + 12 | Submitting k => 31 * (n - k) + 10 | Polling => 9 | Head => 8 | Compare => 7 | GoToSleep => 6 | Sleeping => 5 | Final => 9
  | Notify => 4 | WaitAll => 3 | Returned => 0 | Raised => 0 end.
Definition weight (p : pool) : nat := sumf ww (workers p) + sumf wi (queue p) + wc (length (workers p)) (caller p).
Definition slept (w : wplace) : nat := match w with Asleep | ToSleep => 1 | _ => 0 end.

Record Live (p : pool) : Prop := {
  l_inv : Inv (submitted p) p;
  l_pos : 0 < length (workers p);
  l_exact : sumf tq (queue p) + sumf tk (workers p) + tasks_done p = match caller p with Submitting k => k | _ => length (workers p) end;
  l_canc : cancelled p = false;
  l_awake : match caller p with GoToSleep | Sleeping => 0 < counter p | WaitAll => sumf slept (workers p) = 0 | Raised => False | _ => True end
}.

Lemma no_old_job p : Inv (submitted p) p -> 0 < sumf tk (workers p) -> forall j, ~ In (Job j) (queue p).
Proof.
  intros I H j J. pose proof (i_out _ _ I H j J) as G. assert (X: In j (seq 0 (submitted p))).
  { apply (Permutation_in j (i_acc _ _ I)). apply in_or_app. left. apply in_jobs. auto. }
  apply in_seq in X. lia.
Qed.

Definition mover (w : wplace) : bool := match w with Running _ | ToDecrease | ToSleep | Awake => true | _ => false end.

Lemma find_mover (l : list wplace) : (exists i w, nth_error l i = Some w /\ mover w = true) \/ Forall (fun w => mover w = false) l.
Proof.
  induction l as [|x l IH]; auto. destruct (mover x) eqn:M; [left; exists 0, x; auto|].
  destruct IH as [(i & w & H & K)|F]; [left; exists (S i), w; auto|right; constructor; auto].
Qed.
Lemma find_idle (l : list wplace) : (exists i, nth_error l i = Some Idle) \/ ~ In Idle l.
Proof.
  induction l as [|x l IH]; [right; intros []|]. destruct x; try (left; exists 0; reflexivity); destruct IH as [[i H]|H];
    try (left; exists (S i); exact H); right; intros [X|X]; try discriminate; auto.
Qed.

Lemma live_work p i w : Live p -> nth_error (workers p) i = Some w -> (mover w = true \/ (w = Idle /\ queue p <> [])) -> caller p <> GoToSleep ->
  Live (work p i) /\ weight (work p i) < weight p /\ submitted (work p i) = submitted p.
Proof.
  intros [I L X C A] E M G. destruct (occs_work p i 0) as [_ SUB].
  pose proof (Inv_work _ p i I) as I'. pose proof (length_step true p (Work i)) as LEN. cbn [step] in LEN.
  pose proof (fun y => sumf_upd ww (workers p) i w y E) as UW. pose proof (fun y => sumf_upd tk (workers p) i w y E) as UT. pose proof (fun y => sumf_upd slept (workers p) i w y E) as US.
  pose proof (sumf_le tk _ _ _ E) as LT. pose proof (sumf_le slept _ _ _ E) as LS.
  assert (GOAL: (sumf tq (queue (work p i)) + sumf tk (workers (work p i)) + tasks_done (work p i) = match caller (work p i) with Submitting k => k | _ => length (workers p) end /\
    cancelled (work p i) = false /\
    match caller (work p i) with GoToSleep | Sleeping => 0 < counter (work p i) | WaitAll => sumf slept (workers (work p i)) = 0 | Raised => False | _ => True end) /\
    weight (work p i) < weight p).
  { pose proof (i_count _ _ I) as CNT. pose proof (i_zero _ _ I) as ZERO. pose proof (sumf_tk_pd (workers p)) as TP. unfold weight. rewrite LEN. clear I' LEN SUB. 
    unfold work in *. rewrite E. destruct w; try (destruct M as [M|[M _]]; discriminate).
    - destruct M as [M|[_ M]]; [discriminate|]. destruct (queue p) as [|[k|] q] eqn:Q; [congruence| |].
      + specialize (UW (Running k)). specialize (UT (Running k)). specialize (US (Running k)). cbn [ww tk slept] in *. simpl in *.
        repeat split; auto; try lia. destruct (caller p); auto; lia.
      + rewrite C. specialize (UW ToDecrease). specialize (UT ToDecrease). specialize (US ToDecrease). cbn [ww tk slept] in *. simpl in *.
        repeat split; auto; try lia. destruct (caller p); auto; lia.
    - specialize (UW Idle). specialize (UT Idle). specialize (US Idle). cbn [ww tk slept] in *. simpl in *.
      repeat split; auto; try lia. destruct (caller p); auto; lia.
    - specialize (UW ToSleep). specialize (UT ToSleep). specialize (US ToSleep). cbn [ww tk slept] in *. simpl in *.
      assert (NW: caller p <> WaitAll).
      { intros W. apply (no_decrease _ _ I (ZERO ltac:(rewrite W; auto)) i E). }
      destruct (caller p) eqn:CA; simpl in *; repeat split; auto; try lia; congruence.
    - specialize (UW Asleep). specialize (UT Asleep). specialize (US Asleep). cbn [ww tk slept] in *. simpl in *.
      repeat split; auto; try lia. destruct (caller p); auto; lia.
    - specialize (UW Idle). specialize (UT Idle). specialize (US Idle). cbn [ww tk slept] in *. simpl in *.
      repeat split; auto; try lia. destruct (caller p); auto; lia. }
  destruct GOAL as [[G1 [G2 G3]] G4]. split; auto. split; auto; try (rewrite SUB; auto; fail); rewrite LEN; auto.
Qed.

(** nothing to do for the workers *)
Lemma inert p : Live p -> Forall (fun w => mover w = false) (workers p) -> ((queue p = []) \/ ~ In Idle (workers p)) ->
  match caller p with Submitting _ => False | _ => True end -> after_notify (caller p) = false ->
  queue p = [] /\ counter p = 0.
Proof.
  intros [I L X C A] F Q S N. destruct (i_quiet _ _ I N) as [_ D]. pose proof (i_count _ _ I) as CNT.
  assert (TK: sumf tk (workers p) = sumf pd (workers p)).
  { clear - F. induction F as [|x l H F IH]; auto. rewrite !sumf_cons, IH. destruct x; simpl in *; auto; discriminate. }
  assert (X': sumf tq (queue p) + sumf tk (workers p) = length (workers p)) by (destruct (caller p); try contradiction; lia).
  destruct Q as [Q|Q].
  - rewrite Q in *. simpl in X'. split; auto. lia.
  - assert (ALL: sumf tk (workers p) = length (workers p)).
    { clear - F Q. induction F as [|x l H F IH]; auto. rewrite sumf_cons. simpl. rewrite IH; [|intros Y; apply Q; right; auto].
      destruct x; simpl in *; try discriminate; auto. exfalso. apply Q. auto. }
    split; [|lia]. destruct (queue p) as [|[j|] q] eqn:QU; auto.
    + exfalso. apply (no_old_job p I ltac:(lia) j). rewrite QU. left. auto.
    + rewrite sumf_cons in X'. simpl in X'. lia.
Qed.

Lemma live_turn p : Live p -> (caller p = GoToSleep \/ (exists k, caller p = Submitting k) \/
    (Forall (fun w => mover w = false) (workers p) /\ ((queue p = []) \/ ~ In Idle (workers p)))) -> caller p <> Returned ->
  Live (turn p) /\ weight (turn p) < weight p /\ submitted (turn p) = submitted p.
Proof.
  intros LI S R. pose proof LI as [I L X C A]. destruct (occs_turn p 0) as [_ SUB].
  pose proof (Inv_turn _ p I L) as I'. pose proof (length_step true p Turn) as LEN. cbn [step] in LEN.
  assert (GOAL: (sumf tq (queue (turn p)) + sumf tk (workers (turn p)) + tasks_done (turn p) = match caller (turn p) with Submitting k => k | _ => length (workers p) end /\
    cancelled (turn p) = false /\
    match caller (turn p) with GoToSleep | Sleeping => 0 < counter (turn p) | WaitAll => sumf slept (workers (turn p)) = 0 | Raised => False | _ => True end) /\
    weight (turn p) < weight p).
  { pose proof (i_started _ _ I) as ST. pose proof (i_sub _ _ I) as SB. clear I' SUB. unfold weight. rewrite LEN.
    assert (S': match caller p with GoToSleep | Submitting _ => True | _ => Forall (fun w => mover w = false) (workers p) /\ ((queue p = []) \/ ~ In Idle (workers p)) end).
    { destruct S as [S|[[k S]|S]]; try rewrite S; auto. destruct (caller p); auto. }
    pose proof (inert p LI) as IN.
    unfold turn. destruct (caller p) eqn:CA; try congruence; try contradiction.
    - destruct (k <? length (workers p)) eqn:K; simpl.
      + apply Nat.ltb_lt in K. rewrite !sumf_app. simpl. repeat split; auto; lia.
      + apply Nat.ltb_ge in K. assert (k = length (workers p)) by lia. subst k. repeat split; auto; try lia.
    - destruct S' as [F Q]. destruct (IN F Q Logic.I eq_refl) as [Q0 _]. rewrite Q0 in *. simpl in *. rewrite ?Q0. repeat split; auto; simpl; lia.
    - simpl. repeat split; auto; lia.
    - destruct S' as [F Q]. destruct (IN F Q Logic.I eq_refl) as [Q0 Z0]. rewrite Z0. simpl. repeat split; auto; lia.
    - simpl. repeat split; auto; lia.
    - destruct S' as [F Q]. destruct (IN F Q Logic.I eq_refl) as [Q0 Z0]. lia.
    - destruct (Nat.eqb (counter p) 0); simpl; repeat split; auto; lia.
    - destruct S' as [F Q]. simpl. rewrite sumf_wake_tk.
      assert (S0: sumf slept (map (fun w => match w with Asleep => Awake | w => w end) (workers p)) = 0).
      { clear - F. induction F as [|x l H F IH]; auto. simpl map. rewrite sumf_cons, IH. destruct x; simpl in *; auto; discriminate. }
      assert (W0: sumf ww (map (fun w => match w with Asleep => Awake | w => w end) (workers p)) <= sumf ww (workers p)).
      { clear. induction (workers p) as [|x l IH]; auto. simpl map. rewrite !sumf_cons. destruct x; simpl; lia. }
      repeat split; auto; lia.
    - destruct S' as [F Q]. assert (TK: sumf tk (workers p) = 0).
      { clear - F A. induction F as [|x l H F IH]; auto. rewrite sumf_cons in *. destruct x; simpl in *; try discriminate; auto; lia. }
      assert (TQ: sumf tq (queue p) = 0).
      { pose proof (i_zero _ _ I) as ZZ. rewrite CA in ZZ. specialize (ZZ eq_refl). pose proof (i_count _ _ I) as CNT. pose proof (sumf_tk_pd (workers p)). lia. }
      assert (D: tasks_done p = length (workers p)) by lia.
      rewrite D, Nat.ltb_irrefl. simpl. repeat split; auto; lia. }
  destruct GOAL as [[G1 [G2 G3]] G4]. split; auto. split; auto; try (rewrite SUB; auto; fail); rewrite LEN; auto.
Qed.

Lemma live_returns timed n : forall p, weight p <= n -> Live p -> exists es, no_submissions es /\ caller (exec timed p es) = Returned.
Proof.
  induction n as [n IH] using (well_founded_induction Wf_nat.lt_wf). intros p W LI.
  assert (RET: {caller p = Returned} + {caller p <> Returned}) by (destruct (caller p); auto; right; discriminate).
  destruct RET as [RET|RET]; [exists []; split; auto; intros []|].
  assert (STEP: exists e, e <> Submit /\ Live (step timed p e) /\ weight (step timed p e) < weight p).
  { assert (GS: {caller p = GoToSleep \/ exists k, caller p = Submitting k} + {caller p <> GoToSleep /\ forall k, caller p <> Submitting k}).
    { destruct (caller p); try (right; split; discriminate); left; eauto. }
    destruct GS as [GS|[GS _]].
    - exists Turn. split; [discriminate|]. destruct (live_turn p LI) as (A & B & _); auto. destruct GS; auto.
    - destruct (find_mover (workers p)) as [(i & w & E & M)|F].
      + exists (Work i). split; [discriminate|]. destruct (live_work p i w LI E) as (A & B & _); auto.
      + destruct (queue p) as [|x q] eqn:Q.
        * exists Turn. split; [discriminate|]. destruct (live_turn p LI) as (A & B & _); auto.
        * destruct (find_idle (workers p)) as [[i E]|NI].
          -- exists (Work i). split; [discriminate|]. destruct (live_work p i Idle LI E) as (A & B & _); auto. right. split; auto. congruence.
          -- exists Turn. split; [discriminate|]. destruct (live_turn p LI) as (A & B & _); auto. }
  destruct STEP as (e & NE & LI' & LW).
  destruct (IH (weight (step timed p e)) ltac:(lia) (step timed p e) (le_n _) LI') as (es & NS & R).
  exists (e :: es). split; auto. intros [H|H]; auto.
Qed.

Lemma call_can_return timed w es : 0 < w -> caller (exec timed (start w) es) = NotYet ->
  exists more, no_submissions more /\ caller (exec timed (start w) (es ++ more)) = Returned.
Proof.
  intros W N. set (p := exec timed (start w) es) in *.
  assert (LW: length (workers (start w)) = w) by (simpl; apply repeat_length).
  assert (L: 0 < length (workers p)) by (unfold p; rewrite length_exec, LW; auto).
  assert (P: Pre p) by (apply NotYet_Pre; auto; [apply Pre_start|rewrite LW; auto]).
  assert (LI: Live (turn p)).
  { pose proof (Pre_turn p P) as I. destruct P as [A B C D F]. unfold turn in *. rewrite B in *. split; simpl in *; auto. lia. }
  destruct (live_returns timed _ (turn p) (le_n _) LI) as (more & NS & R). exists (Turn :: more). split.
  - intros [H|H]; [discriminate|auto].
  - rewrite exec_app. fold p. simpl. auto.
Qed.

(** * exactly when the call without a limit is stuck *)
Definition Ex (p : pool) : Prop :=
  sumf tq (queue p) + sumf tk (workers p) + tasks_done p = (match caller p with Submitting k => k | _ => length (workers p) end) /\ cancelled p = false.
Lemma Ex_step N p e : Inv N p -> 0 < length (workers p) -> Ex p -> e <> Submit -> Ex (step false p e).
Proof.
  intros I L [X C] NS. unfold Ex. rewrite length_step. destruct e as [|i| | |]; try congruence; cbn [step].
  - unfold work. destruct (nth_error (workers p) i) as [w|] eqn:E; auto.
    pose proof (fun y => sumf_upd tk (workers p) i w y E) as UT. pose proof (sumf_le tk _ _ _ E) as LT.
    destruct w; auto; cbn [tk] in *.
    + destruct (queue p) as [|[k|] q] eqn:Q; auto.
      * rewrite Q. auto.
      * specialize (UT (Running k)). cbn [tk] in UT. simpl in *. split; auto. lia.
      * rewrite C. specialize (UT ToDecrease). cbn [tk] in UT. simpl in *. split; auto. lia.
    + specialize (UT Idle). cbn [tk] in UT. simpl in *. split; auto. lia.
    + specialize (UT ToSleep). cbn [tk] in UT. simpl in *. split; auto. destruct (caller p); lia.
    + specialize (UT Asleep). cbn [tk] in UT. simpl in *. split; auto. lia.
    + specialize (UT Idle). cbn [tk] in UT. simpl in *. split; auto. lia.
  - pose proof (i_started _ _ I). pose proof (i_sub _ _ I) as SB. unfold turn. destruct (caller p) eqn:CA; try congruence; simpl; rewrite ?CA; auto.
    + destruct (k <? length (workers p)) eqn:K; simpl.
      * rewrite sumf_app. simpl. split; auto. lia.
      * apply Nat.ltb_ge in K. split; auto. lia.
    + destruct (queue p) eqn:Q; simpl; rewrite ?CA, ?Q; auto.
    + destruct (Nat.eqb _ _); auto.
    + destruct (Nat.eqb _ _); auto.
    + rewrite sumf_wake_tk. auto.
    + destruct (_ <? _); simpl; rewrite ?CA; auto.
  - auto.
  - auto.
Qed.

Lemma submitted_same p e : e <> Submit -> submitted (step false p e) = submitted p.
Proof.
  intros N. destruct e as [|i| | |]; try congruence; simpl; auto.
  - apply (proj2 (occs_work p i 0)).
  - apply (proj2 (occs_turn p 0)).
Qed.

Lemma Ex_exec es : forall p, Inv (submitted p) p -> 0 < length (workers p) -> Ex p -> ~ In Submit es ->
  Inv (submitted (exec false p es)) (exec false p es) /\ Ex (exec false p es) /\ submitted (exec false p es) = submitted p.
Proof.
  induction es as [|e es IH]; simpl; auto. intros p I L X N. assert (e <> Submit) by (intros ->; apply N; auto).
  destruct (IH (step false p e)) as (A & B & C).
  - rewrite submitted_same by auto. apply Inv_step; auto.
  - rewrite length_step. auto.
  - apply (Ex_step (submitted p)); auto.
  - intros Y. apply N. auto.
  - split; auto. split; auto. rewrite C. apply submitted_same. auto.
Qed.

Lemma some_slept l : 0 < sumf slept l -> exists i, nth_error l i = Some Asleep \/ nth_error l i = Some ToSleep.
Proof.
  induction l as [|x l IH]; simpl; intros H; [lia|]. destruct x; simpl in H; try (destruct (IH H) as [i G]; exists (S i); auto; fail); exists 0; auto.
Qed.

Lemma stuck_iff w es1 es2 : 0 < w -> caller (exec false (start w) es1) = NotYet -> no_submissions es2 ->
  let p := exec false (start w) (es1 ++ es2) in
  never_returns false p <->
  (caller p = WaitAll /\ exists i, nth_error (workers p) i = Some Asleep \/ nth_error (workers p) i = Some ToSleep) \/
  ((caller p = GoToSleep \/ caller p = Sleeping) /\ counter p = 0).
Proof.
  intros W N NS p. set (p1 := exec false (start w) es1) in *.
  assert (LW: length (workers (start w)) = w) by (simpl; apply repeat_length).
  assert (L1: 0 < length (workers p1)) by (unfold p1; rewrite length_exec, LW; auto).
  assert (P1: Pre p1) by (apply NotYet_Pre; auto; [apply Pre_start|rewrite LW; auto]).
  assert (L: 0 < length (workers p)) by (unfold p; rewrite length_exec, LW; auto).
  assert (CASES: Pre p \/ (Inv (submitted p) p /\ Ex p)).
  { unfold p. rewrite exec_app. fold p1. clear p L N. clearbody p1. revert p1 L1 P1 NS. induction es2 as [|e es IH]; intros p1 L1 P1 NS; simpl; auto.
    destruct (Pre_step false p1 e P1) as [Q| ->].
    - apply IH; auto; [rewrite length_step; auto|]. intros Y. apply NS. right. auto.
    - right. cbn [step]. pose proof (Pre_turn p1 P1) as I. destruct (occs_turn p1 0) as [_ SUB].
      destruct (Ex_exec es (turn p1)) as (A & B & C).
      + rewrite SUB. auto.
      + pose proof (length_step false p1 Turn) as X. cbn [step] in X. rewrite X. auto.
      + destruct P1 as [A B C D F]. unfold turn. rewrite B. split; simpl; auto. lia.
      + intros Y. apply NS. right. auto.
      + split; auto. }
  assert (CAN: forall q, (exists es, caller (exec false q es) = Returned) -> never_returns false q -> False).
  { intros q [es H] NR. apply (NR es). auto. }
  split.
  - intros NR. destruct CASES as [P|[I [X C]]].
    + exfalso. apply (CAN p); auto. destruct (call_can_return false w (es1 ++ es2) W (p_caller _ P)) as (more & _ & R).
      exists more. rewrite exec_app in R. exact R.
    + assert (LIVE: Live p -> False).
      { intros LI. apply (CAN p); auto. destruct (live_returns false _ p (le_n _) LI) as (es & _ & R). eauto. }
      pose proof (only_timed w (es1 ++ es2)) as NR'. fold p in NR'.
      destruct (caller p) eqn:CA; try (exfalso; apply LIVE; split; auto; rewrite ?CA; auto; fail); try congruence.
      * destruct (counter p) eqn:Z; auto. exfalso. apply LIVE. split; auto; rewrite ?CA; auto. lia.
      * destruct (counter p) eqn:Z; auto. exfalso. apply LIVE. split; auto; rewrite ?CA; auto. lia.
      * left. split; auto. apply some_slept. destruct (sumf slept (workers p)) eqn:Z; [|lia]. exfalso. apply LIVE. split; auto; rewrite ?CA; auto.
  - intros H es. destruct CASES as [P|[I _]].
    + destruct P as [_ C _ _ _]. destruct H as [[H _]|[[H|H] _]]; congruence.
    + destruct H as [[C [i H]]|[C Z]].
      * eapply lost_forever; eauto.
      * eapply missed_forever; eauto.
Qed.
