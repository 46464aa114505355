From Verif Require Import Prelude CpuSleep_Model CpuSleep_Spec.
Local Open Scope Z_scope.

Section S.
  Variable occ : Z -> Z.
  Lemma outside_b : forall below above v, (over above v || under below v)%bool = true <-> outside below above v.
  Proof.
    intros below above v. unfold outside. rewrite Bool.orb_true_iff. split.
    - intros [H|H]; [left|right]; [destruct above|destruct below]; simpl in H; try discriminate; apply Z.ltb_lt in H; eauto.
    - intros [(b & -> & H)|(b & -> & H)]; [left|right]; simpl; apply Z.ltb_lt; auto.
  Qed.

  Lemma sleep_loop_ok : forall below above check fuel now seconds, 0 < check -> (Z.to_nat seconds < fuel)%nat -> 0 <= seconds ->
    exists fin b, sleep_loop occ fuel now seconds below above check = Ok (fin, b) /\ slept occ now seconds check below above fin b.
  Proof.
    intros below above check. induction fuel as [|fuel IH]; intros now seconds C F P; [lia|]. cbn [sleep_loop].
    destruct (Z.ltb_spec 0 seconds) as [Q|Q].
    - destruct (Z.ltb_spec (Z.min seconds check) 0) as [X|X]; [lia|].
      destruct (over above (occ (now + Z.min seconds check)) || under below (occ (now + Z.min seconds check)))%bool eqn:O.
      + apply outside_b in O. exists (now + Z.min seconds check), true. split; auto. split.
        * intros c [_ [->|(k & K & -> & L)]] Lt; [lia|]. destruct (Z.le_gt_cases seconds check); [nia|]. rewrite Z.min_r in Lt by lia. nia.
        * split; auto. split; auto. destruct (Z.le_gt_cases seconds check); [left; lia|]. right. exists 1. lia.
      + assert (NO : ~ outside below above (occ (now + Z.min seconds check))) by (intros H; apply outside_b in H; congruence).
        destruct (IH (now + Z.min seconds check) (seconds - Z.min seconds check)) as (fin & b & E & (A & B)); auto; try lia.
        exists fin, b. split; auto.
        assert (T : forall c, checkpoint now seconds check c -> c = now + Z.min seconds check \/ checkpoint (now + Z.min seconds check) (seconds - Z.min seconds check) check c).
        { intros c [_ [->|(k & K & -> & L)]].
          - destruct (Z.le_gt_cases seconds check); [left; lia|]. right. split; [lia|]. left. lia.
          - destruct (Z.eq_dec k 1) as [->|N]; [left; nia|]. right. assert (check < seconds) by nia. rewrite Z.min_r by lia. split; [lia|]. right. exists (k - 1). nia. }
        assert (T' : forall c, checkpoint (now + Z.min seconds check) (seconds - Z.min seconds check) check c -> checkpoint now seconds check c).
        { intros c [P' [->|(k & K & -> & L)]]; split; auto; [left; lia|]. right. exists (k + 1). rewrite Z.min_r in * by lia. nia. }
        split.
        * intros c Ck Lt. destruct (T c Ck) as [->|Ck']; auto.
        * destruct b; [destruct B as [B1 B2]; split; auto|]. destruct B as [-> B2]. split; [lia|]. intros _.
          destruct (Z.ltb_spec 0 (seconds - Z.min seconds check)) as [Q'|Q']; [auto|]. replace (now + Z.min seconds check + (seconds - Z.min seconds check)) with (now + Z.min seconds check) by lia. auto.
    - exists now, false. split; auto. assert (seconds = 0) by lia. subst. split; [intros c [Z _]; lia|]. split; [lia|]. lia.
  Qed.
  Lemma sleep_ok : forall now seconds below above check, 0 < check -> 0 <= seconds ->
    exists fin b, sleep_cpu_aware occ now seconds below above check = Ok (fin, b) /\ slept occ now seconds check below above fin b.
  Proof.
    intros now seconds below above check C P. unfold sleep_cpu_aware.
    assert (G : exists fin b, sleep_loop occ (S (Z.to_nat seconds)) now seconds below above check = Ok (fin, b) /\ slept occ now seconds check below above fin b).
    { apply sleep_loop_ok; auto. }
    destruct below as [x|]; [exact G|]. destruct above as [y|]; [exact G|].
    destruct (Z.ltb_spec seconds 0); [lia|]. exists (now + seconds), false. split; auto. split.
    - intros c _ _ [(b & E & _)|(b & E & _)]; discriminate.
    - split; auto. intros _ [(b & E & _)|(b & E & _)]; discriminate.
  Qed.
  Lemma slept_bounds : forall now seconds check below above fin b, 0 < check -> 0 <= seconds -> slept occ now seconds check below above fin b ->
    now <= fin <= now + seconds /\ (b = true -> now < fin).
  Proof.
    intros now seconds check below above fin b C P (A & B). destruct b; [|destruct B as [-> _]; split; [lia|discriminate]].
    destruct B as [[Q [->|(k & K & -> & L)]] _]; split; try lia; nia.
  Qed.

  Variable term : Z -> bool.
  Lemma safe_sleep_ok : forall fuel now left, (Z.to_nat left < fuel)%nat -> 0 <= left ->
    safe_sleep term fuel now left = Ok (now + left) \/
    safe_sleep term fuel now left = Err SystemExitExn /\ exists t, now <= t <= now + left /\ term t = true.
  Proof.
    induction fuel as [|fuel IH]; intros now left F P; [lia|]. cbn [safe_sleep]. destruct (term now) eqn:T.
    - right. split; auto. exists now. split; [lia|auto].
    - destruct (Z.ltb_spec 0 left) as [Q|Q].
      + destruct (IH (now + Z.min left 2000) (left - Z.min left 2000)) as [->|(-> & t & B & Tt)]; try lia.
        * left. f_equal. lia.
        * right. split; auto. exists t. split; [lia|auto].
      + left. f_equal. lia.
  Qed.

  Variables (max_sooner wakeup : Z).
  Hypothesis W : 0 < wakeup.
  Lemma cpu_wait_ok : forall per_val fuel now how_long, (Z.to_nat how_long < fuel)%nat -> 0 <= how_long ->
    exists fin, cpu_wait occ term wakeup fuel now how_long per_val = Ok fin /\ now <= fin <= now + how_long /\
    (fin = now + how_long \/ (now < fin /\ occ fin < per_val) \/ term fin = true).
  Proof.
    intros per_val. induction fuel as [|fuel IH]; intros now how_long F P; [lia|]. cbn [cpu_wait].
    destruct (Z.ltb_spec 0 how_long) as [Q|Q]; cbn [andb].
    - destruct (term now) eqn:T; cbn [negb]; [exists now; split; [auto|split; [lia|auto]]|].
      destruct (sleep_ok now (Z.min wakeup how_long) (Some per_val) None 1000) as (fin & b & E & Sl); [lia|lia|]. rewrite E.
      assert (H0 : 0 <= Z.min wakeup how_long) by lia. destruct (slept_bounds _ _ _ _ _ _ _ (eq_refl : 0 < 1000) H0 Sl) as [Bd Lt]. destruct Sl as [_ B]. destruct b.
      + exists fin. split; auto. split; [lia|]. right. left. split; [auto|]. destruct B as [_ [(x & E1 & _)|(x & E1 & L)]]; [discriminate|]. injection E1 as <-. auto.
      + destruct B as [-> _]. destruct (IH (now + Z.min wakeup how_long) (how_long - Z.min wakeup how_long)) as (fin & E' & B' & C); [lia|lia|].
        rewrite E'. exists fin. split; auto. split; [lia|]. destruct C as [->|[[L O]|T']]; [left; lia|right; left; split; auto; lia|auto].
    - exists now. split; auto. split; [lia|]. left. lia.
  Qed.
  Hypothesis M : 0 <= max_sooner.
  Lemma cpu_sleep_ok : forall now how_long per_val, 0 <= how_long ->
    (exists fin, cpu_sleep occ term max_sooner wakeup now how_long per_val = Ok fin /\
      now <= fin /\ now + how_long - max_sooner <= fin <= now + how_long /\ (fin = now + how_long \/ occ fin < per_val \/ term fin = true)) \/
    (cpu_sleep occ term max_sooner wakeup now how_long per_val = Err SystemExitExn /\ exists t, now <= t <= now + how_long /\ term t = true).
  Proof.
    intros now how_long per_val P. unfold cpu_sleep. destruct (Z.ltb_spec max_sooner how_long) as [L|L].
    - destruct (safe_sleep_ok (S (Z.to_nat (how_long - max_sooner))) now (how_long - max_sooner)) as [->|(-> & t & B & T)]; try lia.
      + cbn [res_bind]. destruct (cpu_wait_ok per_val (S (Z.to_nat max_sooner)) (now + (how_long - max_sooner)) max_sooner) as (fin & -> & B & C); try lia.
        left. exists fin. split; auto. repeat split; try lia. destruct C as [->|[[_ O]|T]]; auto. left. lia.
      + right. split; auto. exists t. split; [lia|auto].
    - destruct (cpu_wait_ok per_val (S (Z.to_nat how_long)) now how_long) as (fin & -> & B & C); try lia.
      left. exists fin. split; auto. repeat split; try lia. destruct C as [->|[[_ O]|T]]; auto.
  Qed.

  Variables (seconds : Z) (per : Z -> Z).
  Hypothesis never : forall t, term t = false.
  Hypothesis Sp : 0 < seconds.
  (** the time of the next loop() *)
  Definition next (now d : Z) : Z :=
    if 0 <? seconds - d then match cpu_sleep occ term max_sooner wakeup (now + d) (seconds - d) (per (now + d)) with Ok t => t | Err _ => now end else now + d.
  Lemma next_in_time : forall now d, 0 <= d -> in_time seconds max_sooner now d (next now d) /\ (next now d < now + seconds -> occ (next now d) < per (now + d)).
  Proof.
    intros now d D. unfold next, in_time. destruct (Z.ltb_spec 0 (seconds - d)) as [Q|Q]; [|split; [lia|lia]].
    destruct (cpu_sleep_ok (now + d) (seconds - d) (per (now + d))) as [(fin & -> & A & B & C)|(_ & t & _ & T)]; [lia| |rewrite never in T; discriminate].
    split; [lia|]. intros L. destruct C as [->|[O|T]]; [lia|auto|rewrite never in T; discriminate].
  Qed.
  Lemma run_step : forall now d rest, 0 <= d ->
    run occ term max_sooner wakeup seconds per now (d :: rest) =
    (LoopAt now :: (if seconds - d <? 0 then [OverrunAt (now + d) d] else []) ++ fst (run occ term max_sooner wakeup seconds per (next now d) rest),
     snd (run occ term max_sooner wakeup seconds per (next now d) rest)).
  Proof.
    intros now d rest D. cbn [run]. rewrite never. unfold next. destruct (Z.ltb_spec 0 (seconds - d)) as [Q|Q].
    - destruct (Z.ltb_spec (seconds - d) 0); [lia|].
      destruct (cpu_sleep_ok (now + d) (seconds - d) (per (now + d))) as [(fin & -> & _)|(_ & t & _ & T)]; [lia| |rewrite never in T; discriminate].
      destruct (run occ term max_sooner wakeup seconds per fin rest); reflexivity.
    - destruct (Z.ltb_spec (seconds - d) 0); destruct (run occ term max_sooner wakeup seconds per (now + d) rest); reflexivity.
  Qed.
  Lemma run_starts : forall durations now, Forall (Z.le 0) durations ->
    let l := starts (fst (run occ term max_sooner wakeup seconds per now durations)) in
    length l = length durations /\ (durations <> [] -> nth_error l 0 = Some now) /\
    forall i s d s', nth_error l i = Some s -> nth_error durations i = Some d -> nth_error l (S i) = Some s' ->
      in_time seconds max_sooner s d s' /\ (s' < s + seconds -> occ s' < per (s + d)).
  Proof.
    induction durations as [|d rest IH]; intros now F; [cbn; split; auto; split; [congruence|intros [|i] ? ? ?; discriminate]|].
    inversion F as [|? ? D F']; subst. rewrite (run_step now d rest D). cbn [fst]. specialize (IH (next now d) F').
    cbv zeta in *. set (l := starts (fst (run occ term max_sooner wakeup seconds per (next now d) rest))) in *.
    assert (E : starts (LoopAt now :: (if seconds - d <? 0 then [OverrunAt (now + d) d] else []) ++ fst (run occ term max_sooner wakeup seconds per (next now d) rest)) = now :: l).
    { unfold starts. simpl. destruct (seconds - d <? 0); reflexivity. }
    rewrite E. destruct IH as (L & H0 & H). split; [simpl; auto|]. split; [auto|]. intros [|i] s d' s' E1 E2 E3; simpl in E1, E2, E3.
    - injection E1 as <-. injection E2 as <-. assert (N : rest <> []) by (intros ->; destruct l; discriminate). specialize (H0 N). cbn in H0.
      destruct l as [|x l]; [discriminate|]. injection H0 as ->. injection E3 as <-. apply next_in_time; auto.
    - eapply H; eauto.
  Qed.
  Lemma run_overruns : forall durations now, Forall (Z.le 0) durations ->
    map (fun d => match d with LoopAt _ => 0 | OverrunAt _ m => m end) (filter (fun d => match d with LoopAt _ => false | _ => true end) (fst (run occ term max_sooner wakeup seconds per now durations))) =
    filter (fun d => seconds <? d) durations.
  Proof.
    induction durations as [|d rest IH]; intros now F; auto. inversion F as [|? ? D F']; subst. rewrite (run_step now d rest D). cbn [fst filter].
    rewrite filter_app, map_app, IH by auto. destruct (Z.ltb_spec (seconds - d) 0), (Z.ltb_spec seconds d); auto; lia.
  Qed.
End S.
