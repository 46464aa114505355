From Verif Require Import Prelude MetrThr_Model MetrThr_Spec MetrThr_Proofs HistThr_Model HistThr_Spec.
Local Open Scope Z_scope.
Set Implicit Arguments.
Local Arguments Z.add : simpl never.

Section Hist.
  Variable limits : list Z.
  Lemma number_snoc i l v : number_in limits i (l ++ [v]) = number_in limits i l + (if in_bucket limits i v then 1 else 0).
  Proof. unfold number_in. rewrite filter_app, app_length. simpl. destruct (in_bucket limits i v); simpl; lia. Qed.
  (** where the loop is *)
  Definition at_bucket (i : nat) (lower : Z) (rest : list Z) : Prop := nth_error (0 :: limits) i = Some lower /\ rest = skipn i limits.
  Lemma at_first : at_bucket 0 0 limits.
  Proof. split; reflexivity. Qed.
  Lemma skipn_cons (l : list Z) : forall i u r, u :: r = skipn i l -> nth_error l i = Some u /\ r = skipn (S i) l.
  Proof. induction l as [|x l IH]; intros [|i] u r E; simpl in E; try discriminate; [injection E as -> ->; split; reflexivity|]. destruct (IH _ _ _ E) as [E1 E2]. split; auto. Qed.
  Lemma skipn_nil_ (l : list Z) : forall i, [] = skipn i l -> nth_error l i = None /\ (length l <= i)%nat.
  Proof. induction l as [|x l IH]; intros [|i] E; simpl in E; try discriminate; simpl; auto with arith. destruct (IH _ E) as [E1 E2]. split; auto. lia. Qed.
  Lemma at_next i lower u r : at_bucket i lower (u :: r) -> at_bucket (S i) u r.
  Proof. intros [_ E]. destruct (skipn_cons _ _ E) as [E1 E2]. split; auto. Qed.
  Lemma at_test i lower rest v : at_bucket i lower rest -> (lower <=? v) && match rest with u :: _ => v <? u | [] => true end = in_bucket limits i v.
  Proof.
    intros [E1 E2]. unfold in_bucket. rewrite E1. destruct rest as [|u r]; [destruct (skipn_nil_ _ _ E2) as [-> _]|destruct (skipn_cons _ _ E2) as [-> _]]; reflexivity.
  Qed.
  Lemma past_end i j lower v : at_bucket i lower [] -> (i < j)%nat -> in_bucket limits j v = false.
  Proof.
    intros [_ E] L. destruct (skipn_nil_ _ _ E) as [_ B]. unfold in_bucket. destruct (nth_error (0 :: limits) j) eqn:X; auto.
    assert (Y : nth_error (0 :: limits) j <> None) by congruence. apply nth_error_Some in Y. simpl in Y. lia.
  Qed.

  (** *** one call at a time *)
  Definition upto (i : nat) (L : list Z) (v : Z) (s : hist) : Prop :=
    hcount s = Z.of_nat (length L) + 1 /\ hsum s = total L + v /\
    forall j, bucket s j = number_in limits j L + (if (j <? i)%nat && in_bucket limits j v then 1 else 0).
  Definition hmid (L : list Z) (v : Z) (a : hcode) (s : hist) : Prop :=
    match a with
    | HReadCount v' => v' = v /\ shows limits L s
    | HWriteCount v' n => v' = v /\ n = Z.of_nat (length L) /\ shows limits L s
    | HReadSum v' => v' = v /\ hcount s = Z.of_nat (length L) + 1 /\ hsum s = total L /\ forall i, bucket s i = number_in limits i L
    | HWriteSum v' x => v' = v /\ x = total L /\ hcount s = Z.of_nat (length L) + 1 /\ forall i, bucket s i = number_in limits i L
    | HLoop v' lower i rest => v' = v /\ at_bucket i lower rest /\ upto i L v s
    | HWriteBucket v' i rest n => v' = v /\ (exists lower, at_bucket i lower rest) /\ in_bucket limits i v = true /\ n = number_in limits i L /\ upto i L v s
    end.
  Lemma upto_skip i L v s : in_bucket limits i v = false -> upto i L v s -> upto (S i) L v s.
  Proof.
    intros B (U1 & U2 & U3). split; auto. split; auto. intros j. rewrite U3. destruct (Nat.ltb_spec j i), (Nat.ltb_spec j (S i)); try lia; auto.
    assert (j = i) by lia. subst j. rewrite B. reflexivity.
  Qed.
  Lemma upto_add i L v s : in_bucket limits i v = true -> upto i L v s ->
    upto (S i) L v {| hcount := hcount s; hsum := hsum s; bucket := put (bucket s) i (number_in limits i L + 1) |}.
  Proof.
    intros B (U1 & U2 & U3). split; auto. split; auto. intros j. simpl. destruct (Nat.eq_dec j i) as [->|D].
    - rewrite put_eq, B. destruct (Nat.ltb_spec i (S i)); try lia. simpl. lia.
    - rewrite put_neq by auto. rewrite U3. destruct (Nat.ltb_spec j i), (Nat.ltb_spec j (S i)); try lia; auto.
  Qed.
  Lemma total_snoc l v : total (l ++ [v]) = total l + v.
  Proof. rewrite total_app. simpl. unfold total. simpl. lia. Qed.
  Lemma goes_onwards i L v s lower rest : at_bucket i lower rest -> upto (S i) L v s ->
    match onwards v i rest with Next a => hmid L v a s | Returned _ => shows limits (L ++ [v]) s | Raised _ => False end.
  Proof.
    intros A U. destruct rest as [|u r]; simpl.
    - destruct U as (U1 & U2 & U3). split; [rewrite app_length; simpl; lia|]. split; [rewrite total_snoc; auto|]. intros j. rewrite number_snoc, U3.
      destruct (Nat.ltb_spec j (S i)); simpl; auto. rewrite (@past_end i j lower v A) by lia. reflexivity.
    - split; auto. split; auto. eapply at_next. eauto.
  Qed.
  Lemma hist_solo programs schedule : one_at_a_time HReadCount (hexec limits) (hist_start programs) schedule ->
    let c := hist_run limits (hist_start programs) schedule in idle c -> shows limits (ended c) (shared c).
  Proof.
    intros O. refine (proj2 (@solo_start _ _ _ _ HReadCount (hexec limits) (shows limits) hmid (fun _ _ _ => True) _ _ new_hist programs schedule _ O)).
    - intros L v s H. split; auto.
    - intros L v a s. destruct a; simpl.
      + intros (-> & H). split; auto. split; auto. apply H.
      + intros (-> & -> & H1 & H2 & H3). auto.
      + intros (-> & H1 & H2 & H3). auto.
      + intros (-> & -> & H1 & H3). split; auto. split; [apply at_first|]. split; auto. split; auto. intros j. simpl. rewrite H3. lia.
      + intros (-> & A & U). rewrite (at_test v A). destruct (in_bucket limits i v) eqn:B.
        * simpl. split; auto. split; eauto. split; auto. split; auto. destruct U as (_ & _ & U3). rewrite U3. destruct (Nat.ltb_spec i i); try lia. simpl. lia.
        * pose proof (goes_onwards A (upto_skip B U)) as X. destruct (onwards v i rest); auto.
      + intros (-> & [lower A] & B & -> & U). pose proof (goes_onwards A (upto_add B U)) as X. destruct (onwards v i rest); auto.
    - split; [reflexivity|]. split; [reflexivity|]. intros i. reflexivity.
  Qed.

  (** *** bounds *)
  Inductive cell : Type := CCount | CSum | CBucket (j : nat).
  Variable k : cell.
  Definition hw (v : Z) : Z := match k with CCount => 1 | CSum => v | CBucket j => if in_bucket limits j v then 1 else 0 end.
  Definition hval (s : hist) : Z := match k with CCount => hcount s | CSum => hsum s | CBucket j => bucket s j end.
  Definition hpend (a : hcode) : Z :=
    match a with
    | HReadCount v | HWriteCount v _ => hw v
    | HReadSum v | HWriteSum v _ => match k with CCount => 0 | _ => hw v end
    | HLoop v _ i _ | HWriteBucket v i _ _ => match k with CBucket j => if (j <? i)%nat then 0 else hw v | _ => 0 end
    end.
  Definition hholds (a : hcode) (m : Z) : Prop :=
    match a with
    | HWriteCount _ n => k = CCount -> 0 <= n <= m
    | HWriteSum _ x => k = CSum -> 0 <= x <= m
    | HLoop _ lower i rest => at_bucket i lower rest
    | HWriteBucket v i rest n => (exists lower, at_bucket i lower rest) /\ in_bucket limits i v = true /\ (k = CBucket i -> 0 <= n <= m)
    | _ => True
    end.
  Lemma hist_bounds n programs schedule : threads_below n programs -> (forall t v, In v (programs t) -> 0 <= hw v) ->
    let c := hist_run limits (hist_start programs) schedule in
    0 <= hval (shared c) /\ hval (shared c) + total (map hw (all_calls n (todo c))) <= total (map hw (all_calls n programs)).
  Proof.
    intros B W. unfold hist_run, hist_start. apply (@weigh _ _ _ _ HReadCount (hexec limits) hw hpend hval hholds); auto.
    - intros v m H. exact I.
    - intros a m m' L. destruct a; simpl; auto; try (intros H E; specialize (H E); lia). intros (A & H & Q). split; auto. split; auto. intros E. specialize (Q E). lia.
    - intros a s m K H P. destruct a as [v|v x|v|v x|v lower i rest|v i rest x]; simpl in *.
      + split; [lia|]. split; [|lia]. intros E. unfold hval in K. rewrite E in K. lia.
      + unfold hval, hw in *. destruct k; simpl; repeat split; auto; try lia. all: try (specialize (H eq_refl); lia). 
      + unfold hval, hw in *. destruct k; simpl; repeat split; auto; try lia; discriminate.
      + unfold hval, hw in *. destruct k; simpl; repeat split; auto; try lia; try (specialize (H eq_refl); lia).
      + rewrite (at_test v H). destruct (in_bucket limits i v) eqn:I.
        * simpl. split; [lia|]. split; [|lia]. split; eauto. split; auto. intros E. unfold hval in K. rewrite E in K. lia.
        * destruct rest as [|u r]; simpl; [lia|]. assert (A := at_next H). unfold hw in *. destruct k as [| |j]; repeat split; try lia; try apply A.
          all: destruct (Nat.ltb_spec j i), (Nat.ltb_spec j (S i)); try lia; assert (j = i) by lia; subst j; rewrite I in *; lia.
      + destruct H as ([lower A] & I & H). assert (V : 0 <= hval {| hcount := hcount s; hsum := hsum s; bucket := put (bucket s) i (x + 1) |} <= m + (match k with CBucket j => if (j =? i)%nat then 1 else 0 | _ => 0 end)).
        { unfold hval in *. simpl. destruct k as [| |j]; try lia. destruct (Nat.eqb_spec j i) as [->|D]; [rewrite put_eq; specialize (H eq_refl); lia|rewrite put_neq by auto; lia]. }
        destruct rest as [|u r]; simpl.
        * unfold hw in *. destruct k as [| |j]; try lia. destruct (Nat.eqb_spec j i) as [->|D]; [|destruct (j <? i)%nat; lia]. rewrite I in *. destruct (Nat.ltb_spec i i); lia.
        * assert (A' := at_next A). unfold hw in *. destruct k as [| |j]; try (repeat split; try lia; apply A').
          destruct (Nat.eqb_spec j i) as [->|D].
          -- rewrite I in *. destruct (Nat.ltb_spec i i), (Nat.ltb_spec i (S i)); try lia. repeat split; try lia; apply A'.
          -- destruct (Nat.ltb_spec j i), (Nat.ltb_spec j (S i)); try lia; repeat split; try lia; apply A'.
    - unfold hval. destruct k; reflexivity.
  Qed.
  Lemma total_number j l : total (map (fun v => if in_bucket limits j v then 1 else 0) l) = number_in limits j l.
  Proof. induction l as [|v l IH]; auto. unfold number_in in *. simpl. rewrite IH. destruct (in_bucket limits j v); simpl; lia. Qed.
  Lemma total_ones (l : list Z) : total (map (fun _ => 1) l) = Z.of_nat (length l).
  Proof. induction l as [|v l IH]; auto. simpl. rewrite IH. lia. Qed.
End Hist.

(** *** a value that was fed shows *)
Section Some.
  Variable limits : list Z.
  Definition nonneg (s : hist) : Prop := 0 <= hcount s /\ forall j, 0 <= bucket s j.
  Definition seen (i : nat) (v : Z) (s : hist) : Prop := 1 <= hcount s /\ forall j, (j < i)%nat -> in_bucket limits j v = true -> 1 <= bucket s j.
  Definition shown (v : Z) (s : hist) : Prop := 1 <= hcount s /\ forall j, in_bucket limits j v = true -> 1 <= bucket s j.
  Definition okc (v : Z) (a : hcode) (s : hist) : Prop :=
    match a with
    | HReadCount v' => v' = v
    | HWriteCount v' n => v' = v /\ 0 <= n
    | HReadSum v' | HWriteSum v' _ => v' = v /\ 1 <= hcount s
    | HLoop v' lower i rest => v' = v /\ at_bucket limits i lower rest /\ seen i v s
    | HWriteBucket v' i rest n => v' = v /\ (exists lower, at_bucket limits i lower rest) /\ seen i v s /\ 0 <= n
    end.
  Definition grows (s s' : hist) : Prop := (1 <= hcount s -> 1 <= hcount s') /\ forall j, 1 <= bucket s j -> 1 <= bucket s' j.
  Lemma okc_grows v a s s' : grows s s' -> okc v a s -> okc v a s'.
  Proof. intros [G1 G2]. unfold okc, seen. destruct a; intuition. Qed.
  Lemma seen_onwards i v s lower rest : at_bucket limits i lower rest -> seen (S i) v s ->
    match onwards v i rest with Next a => okc v a s | Returned _ => shown v s | Raised _ => False end.
  Proof.
    intros A [S1 S2]. destruct rest as [|u r]; simpl.
    - split; auto. intros j J. destruct (Nat.lt_ge_cases j (S i)) as [L|L]; auto. rewrite (@past_end limits i j lower v A) in J by lia. discriminate.
    - split; auto. split; [eapply at_next; eauto|split; auto].
  Qed.
  Lemma okc_step v a s : nonneg s -> okc v a s ->
    let (s', n) := hexec limits a s in
    nonneg s' /\ grows s s' /\ match n with Next a' => okc v a' s' | Returned _ => shown v s' | Raised _ => False end.
  Proof.
    intros [N1 N2] H. destruct a as [w|w x|w|w x|w lower i rest|w i rest x]; simpl in *.
    - subst w. repeat split; auto.
    - destruct H as [-> H]. repeat split; simpl; auto; try lia.
    - destruct H as [-> H]. repeat split; auto.
    - destruct H as [-> H]. split; [split; simpl; auto|]. split; [split; simpl; auto|]. split; auto. split; [apply at_first|]. split; simpl; auto. intros j J. lia.
    - destruct H as (-> & A & S). split; [split; auto|]. split; [split; auto|]. rewrite (at_test v A). destruct (in_bucket limits i v) eqn:B.
      + simpl. repeat split; eauto; apply S.
      + apply (@seen_onwards i v s lower rest A). destruct S as [S1 S2]. split; auto. intros j J Bj. apply S2; auto. destruct (Nat.eq_dec j i) as [->|]; [congruence|lia].
    - destruct H as (-> & [lower A] & [S1 S2] & X). assert (G : forall j, 0 <= bucket s j -> 0 <= put (bucket s) i (x + 1) j).
      { intros j J. destruct (Nat.eq_dec j i) as [->|D]; [rewrite put_eq; lia|rewrite put_neq; auto]. }
      assert (G1 : forall j, 1 <= bucket s j -> 1 <= put (bucket s) i (x + 1) j).
      { intros j J. destruct (Nat.eq_dec j i) as [->|D]; [rewrite put_eq; lia|rewrite put_neq; auto]. }
      split; [split; simpl; auto|]. split; [split; simpl; auto|]. apply (@seen_onwards i v _ lower rest A). split; simpl; auto.
      intros j J Bj. destruct (Nat.eq_dec j i) as [->|D]; [rewrite put_eq; lia|]. apply G1. apply S2; auto. lia.
  Qed.
  Lemma shown_grows v s s' : grows s s' -> shown v s -> shown v s'.
  Proof. intros [G1 G2] [S1 S2]. split; auto. Qed.
  Lemma hist_some programs schedule v r : let c := hist_run limits (hist_start programs) schedule in In (v, r) (log c) -> r = Ok tt /\ shown v (shared c).
  Proof.
    intros c. assert (I : nonneg (shared c) /\ (forall t v a, current c t = Some (v, a) -> okc v a (shared c)) /\ (forall v r, In (v, r) (log c) -> r = Ok tt /\ shown v (shared c))).
    { unfold c, hist_run. apply run_inv with (P := fun c => nonneg (shared c) /\ (forall t v a, current c t = Some (v, a) -> okc v a (shared c)) /\ (forall v r, In (v, r) (log c) -> r = Ok tt /\ shown v (shared c))).
      - split; [split; simpl; auto; lia|]. split; simpl; [discriminate|contradiction].
      - intros d t (I1 & I2 & I3). unfold turn. destruct (current d t) as [[w a]|] eqn:C.
        + pose proof (@okc_step w a (shared d) I1 (I2 _ _ _ C)) as St. destruct (hexec limits a (shared d)) as [s' n]. destruct St as (St1 & St2 & St3).
          assert (Old : forall v r, In (v, r) (log d) -> r = Ok tt /\ shown v s') by (intros v0 r0 L; destruct (I3 _ _ L); split; auto; eapply shown_grows; eauto).
          destruct n as [a'|q|e]; [| |contradiction]; simpl; split; auto; split; auto.
          * intros u v0 a0. destruct (Nat.eq_dec u t) as [->|D]; [rewrite put_eq; intros X; injection X as <- <-; auto|rewrite put_neq by auto; intros X; eapply okc_grows; eauto].
          * intros u v0 a0. destruct (Nat.eq_dec u t) as [->|D]; [rewrite put_eq; discriminate|rewrite put_neq by auto; intros X; eapply okc_grows; eauto].
          * intros v0 r0 L. apply in_app_or in L. destruct L as [L|[L|[]]]; [apply Old; auto|]. injection L as <- <-. destruct q. auto.
        + destruct (todo d t) as [|w l]; auto. simpl. split; auto. split; auto. intros u v0 a0. destruct (Nat.eq_dec u t) as [->|D]; [rewrite put_eq; intros X; injection X as <- <-; reflexivity|rewrite put_neq by auto; apply I2]. }
    destruct I as (_ & _ & I). apply I.
  Qed.
End Some.
