From Verif Require Import Prelude PreludeFacts MoreFacts Retry_Model Retry_Spec.

Section RetryProofs.
  Variable V : Type.
  Variable s : settings.
  Variable f : nat -> res V.
  Hypothesis Hq : quiet_callbacks s.

  Definition one (i : nat) : list call := Fun :: match f i with Err e => if_given (call_between_retries s) (Between e) | Ok _ => [] end.
  Definition caught_at (i : nat) (e : exn) : Prop := f i = Err e /\ caught s e = true.

  Lemma between_quiet b e : call_between_retries s = Some b -> b e = Ok tt.
  Proof. destruct Hq as (_ & _ & _ & H). intros E. rewrite E in H. apply H. Qed.
  Lemma success_quiet b i : call_on_success s = Some b -> b i = Ok tt.
  Proof. destruct Hq as (_ & _ & H & _). intros E. rewrite E in H. apply H. Qed.

  (** k failures, then what happens at i + k *)
  Lemma loop_failures k : forall i left last, (forall j, i <= j < i + k -> exists e, caught_at j e) ->
    loop s f (k + left) i last = let (calls, r) := loop s f left (i + k) (match k with O => last | S p => match f (i + p) with Err e => Some e | Ok _ => last end end) in
                                 (flat_map one (seq i k) ++ calls, r).
  Proof.
    induction k as [|k IH]; intros i left last H; simpl.
    - rewrite Nat.add_0_r. destruct (loop s f left i last); reflexivity.
    - destruct (H i) as (e & E & Ec); [lia|]. rewrite E. simpl. rewrite Ec.
      assert (loop s f (k + left) (S i) (Some e) = let (calls, r) := loop s f left (i + S k) (match f (i + k) with Err e0 => Some e0 | Ok _ => last end) in
              (flat_map one (seq (S i) k) ++ calls, r)) as Hk.
      { rewrite IH by (intros j Hj; apply H; lia). replace (S i + k) with (i + S k) by lia. destruct k as [|p].
        - simpl. rewrite Nat.add_0_r, E. reflexivity.
        - replace (S i + p) with (i + S p) by lia. destruct (H (i + S p)) as (e' & E' & _); [lia|]. rewrite E'. reflexivity. }
      rewrite Hk. destruct (loop s f left (i + S k) _) as [calls r]. unfold if_given.
      destruct (call_between_retries s) as [b|] eqn:Eb; [rewrite (between_quiet _ e Eb)|]; reflexivity.
  Qed.
  Lemma loop_end_here more i last : (forall e, ~ caught_at i e) ->
    loop s f (S more) i last = (Fun :: match f i with Ok _ => if_given (call_on_success s) (Success i) | Err _ => [] end, Left (f i)).
  Proof.
    intros H. simpl. destruct (f i) as [v|e] eqn:E.
    - unfold if_given. destruct (call_on_success s) as [b|] eqn:Eb; [rewrite (success_quiet _ i Eb)|]; reflexivity.
    - destruct (caught s e) eqn:Ec; [|reflexivity]. destruct (H e). split; auto.
  Qed.
  Lemma caught_dec i : {e | caught_at i e} + {forall e, ~ caught_at i e}.
  Proof.
    unfold caught_at. destruct (f i) as [v|e]; [right; intros e [Q _]; discriminate|].
    destruct (caught s e) eqn:E; [left; exists e; auto|right; intros e' [Q R]; congruence].
  Qed.
  Lemma search n : {k | k < n /\ (forall i, i < k -> exists e, caught_at i e) /\ forall e, ~ caught_at k e} + {forall i, i < n -> exists e, caught_at i e}.
  Proof.
    induction n as [|n [(k & Hk & R)|H]]; [right; lia|left; exists k; split; [lia|auto]|].
    destruct (caught_dec n) as [(e & He)|He].
    - right. intros i Hi. destruct (Nat.eq_dec i n) as [->|]; [eauto|apply H; lia].
    - left. exists n. repeat split; auto.
  Qed.
  Lemma loop_stops k n : k < n -> leading_failures s f k -> (forall e, ~ caught_at k e) ->
    loop s f n 0 None = (failures s f k ++ Fun :: match f k with Ok _ => if_given (call_on_success s) (Success k) | Err _ => [] end, Left (f k)).
  Proof.
    intros Hk H Hn. replace n with (k + S (n - S k)) by lia. rewrite loop_failures by (intros j Hj; apply H; lia).
    rewrite loop_end_here by auto. reflexivity.
  Qed.
  Lemma loop_all n : leading_failures s f n ->
    loop s f n 0 None = (failures s f n, Exhausted (match n with O => None | S p => match f p with Err e => Some e | Ok _ => None end end)).
  Proof.
    intros H. pose proof (loop_failures n 0 0 None) as L. rewrite Nat.add_0_r in L. rewrite L by (intros j Hj; apply H; lia). simpl. rewrite app_nil_r. reflexivity.
  Qed.
  Lemma stops_expected k : allowed s k -> leading_failures s f k -> (forall e, ~ caught_at k e) ->
    expected s f (failures s f k ++ Fun :: match f k with Ok _ => if_given (call_on_success s) (Success k) | Err _ => [] end) (res_map Some (f k)).
  Proof.
    intros Ha Hl Hn. destruct (f k) as [v|e] eqn:E; simpl.
    - apply E_success; auto.
    - apply E_other; auto. destruct (caught s e) eqn:Ec; auto. destruct (Hn e). split; auto.
  Qed.

  Lemma limited n : times s = Some n -> (0 < n)%Z -> forall fuel, exists r, snd (inner s f fuel) = Some r /\ expected s f (fst (inner s f fuel)) r.
  Proof.
    intros Hn Hpos fuel. unfold inner. rewrite Hn. destruct (search (Z.to_nat n)) as [(k & Hk & Hl & He)|Hl].
    - rewrite (loop_stops k) by auto. simpl. eexists. split; [reflexivity|]. apply stops_expected; auto. unfold allowed. rewrite Hn. lia.
    - rewrite (loop_all (Z.to_nat n)) by exact Hl. destruct (Z.to_nat n) as [|p] eqn:Ep; [lia|]. destruct (Hl p) as (e & E & Ec); [lia|]. rewrite E.
      unfold exhausted. destruct Hq as (Q1 & Q2 & _ & _). rewrite (Q1 e).
      assert (expected s f (failures s f (S p) ++ Failure e :: if_given (call_on_failure s) (OldFailure e)) (if swallow s then Ok None else Err e)) as X.
      { apply E_gave_up; auto. rewrite Hn. f_equal. lia. }
      unfold if_given in X. destruct (call_on_failure s) as [b|]; [rewrite (Q2 e)|]; simpl; eexists; (split; [reflexivity|exact X]).
  Qed.
  Lemma unlimited_stops k : times s = None -> leading_failures s f k -> (forall e, f k = Err e -> caught s e = false) ->
    forall fuel, k < fuel -> exists r, snd (inner s f fuel) = Some r /\ expected s f (fst (inner s f fuel)) r.
  Proof.
    intros Hn Hl Hk fuel Hf. unfold inner. rewrite Hn.
    assert (forall e, ~ caught_at k e) as He by (intros e [A B]; rewrite (Hk _ A) in B; discriminate).
    rewrite (loop_stops k) by auto. simpl. eexists. split; [reflexivity|]. apply stops_expected; auto. unfold allowed. rewrite Hn. auto.
  Qed.
  Lemma unlimited_goes_on : times s = None -> (forall k, leading_failures s f k) -> forall fuel, inner s f fuel = (failures s f fuel, None).
  Proof. intros Hn H fuel. unfold inner. rewrite Hn, (loop_all fuel) by auto. reflexivity. Qed.
End RetryProofs.

Lemma loop_count V (s : settings) (f : nat -> res V) left : forall i last, calls_of_function (fst (loop s f left i last)) <= left.
Proof.
  unfold calls_of_function. induction left as [|left IH]; intros i last; simpl; [lia|].
  assert (forall e pre, length (filter is_fun pre) <= 1 -> length (filter is_fun (fst
    (if caught s e then
          match call_between_retries s with
          | None => let (calls, r) := loop s f left (S i) (Some e) in (pre ++ calls, r)
          | Some between =>
            match between e with
            | Ok _ => let (calls, r) := loop s f left (S i) (Some e) in (pre ++ Between e :: calls, r)
            | Err e' => (pre ++ [Between e], Left (Err e'))
            end
          end
        else (pre, Left (Err e))))) <= S left) as Hf.
  { intros e pre Hp. specialize (IH (S i) (Some e)). destruct (caught s e); [|simpl; lia].
    destruct (call_between_retries s) as [b|]; [destruct (b e)|]; try (destruct (loop s f left (S i) (Some e)) as [calls r]; simpl in *);
      simpl; rewrite ?filter_app, ?app_length; simpl; lia. }
  destruct (f i) as [v|e]; [|apply (Hf e [Fun]); simpl; lia].
  destruct (call_on_success s) as [b|]; [destruct (b i)|]; simpl; try lia. apply (Hf e [Fun; Success i]). simpl. lia.
Qed.
Lemma at_most V (s : settings) (f : nat -> res V) n fuel : times s = Some n -> (0 <= n)%Z -> (Z.of_nat (calls_of_function (fst (inner s f fuel))) <= n)%Z.
Proof.
  intros Hn H. unfold inner. rewrite Hn. pose proof (loop_count V s f (Z.to_nat n) 0 None) as L. destruct (loop s f (Z.to_nat n) 0 None) as [calls [r|last]]; simpl in *; [lia|].
  assert (filter is_fun (fst (@exhausted V s last)) = []) as E.
  { unfold exhausted. destruct last as [e|]; auto. destruct (on_failure s e); auto. destruct (call_on_failure s) as [b|]; auto. destruct (b e); auto. }
  destruct (exhausted V s last) as [more r]. simpl in *. unfold calls_of_function in *. rewrite filter_app, E, app_nil_r. lia.
Qed.
Lemma failures_count V (s : settings) (f : nat -> res V) k : calls_of_function (failures s f k) = k.
Proof.
  unfold failures, calls_of_function. rewrite <- (seq_length k 0) at 2. induction (seq 0 k) as [|i l IH]; simpl; auto. f_equal. rewrite filter_app, app_length, IH.
  destruct (f i); simpl; auto. unfold if_given. destruct (call_between_retries s); reflexivity.
Qed.
