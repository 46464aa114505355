(** Proofs about metrics fed by several threads. *)
From Coq Require Import Sorted.
From Verif Require Import Prelude PreludeFacts MoreFacts MetrThr_Model MetrThr_Spec.
Local Open Scope Z_scope.
Set Implicit Arguments.

Lemma put_eq {A : Type} (f : nat -> A) t x : put f t x t = x.
Proof. unfold put. rewrite Nat.eqb_refl. auto. Qed.
Lemma put_neq {A : Type} (f : nat -> A) t x u : u <> t -> put f t x u = f u.
Proof. intros N. unfold put. apply Nat.eqb_neq in N. rewrite N. auto. Qed.

Lemma total_app l m : total (l ++ m) = total l + total m.
Proof. induction l as [|a l IH]; simpl; lia. Qed.

(** ** sums over threads *)
Definition over (n : nat) (g : nat -> Z) : Z := total (map g (seq 0 n)).
Lemma over_S n g : over (S n) g = over n g + g n.
Proof. unfold over. rewrite seq_S, map_app, total_app. simpl. lia. Qed.
Lemma over_ext n g g' : (forall u, (u < n)%nat -> g' u = g u) -> over n g' = over n g.
Proof. intros H. induction n as [|n IH]; auto. rewrite !over_S, IH; auto. rewrite H; auto. Qed.
Lemma over_put n g g' t : (t < n)%nat -> (forall u, u <> t -> g' u = g u) -> over n g' = over n g - g t + g' t.
Proof.
  induction n as [|n IH]; intros L H; [lia|]. rewrite !over_S. destruct (Nat.eq_dec t n) as [->|N].
  - rewrite (@over_ext n g g'); [lia|]. intros u Lu. apply H. lia.
  - rewrite IH; auto; [|lia]. rewrite (H n); auto. lia.
Qed.
Lemma over_le n g g' : (forall u, (u < n)%nat -> g u <= g' u) -> over n g <= over n g'.
Proof. intros H. induction n as [|n IH]; [unfold over; simpl; lia|]. rewrite !over_S. specialize (IH (fun u Lu => H u (Nat.lt_lt_succ_r _ _ Lu))). specialize (H n (Nat.lt_succ_diag_r n)). lia. Qed.
Lemma over_flat {A : Type} n (f : nat -> list A) (w : A -> Z) : over n (fun t => total (map w (f t))) = total (map w (flat_map f (seq 0 n))).
Proof. induction n as [|n IH]; auto. rewrite over_S, IH, seq_S, flat_map_app, map_app, total_app. simpl. rewrite app_nil_r. auto. Qed.

Section Generic.
  Variables S Call Code R : Type.
  Variable first : Call -> Code.
  Variable exec : Code -> S -> S * next Code R.
  Let cfg := config S Call Code R.

  Lemma run_inv (P : cfg -> Prop) (c : cfg) schedule : P c -> (forall c t, P c -> P (turn first exec c t)) -> P (run first exec c schedule).
  Proof. intros H I. unfold run. revert c H. induction schedule as [|t r IH]; intros c H; simpl; auto. Qed.

  (** *** one call at a time *)
  Variable F : list Call -> S -> Prop.                       (* between calls *)
  Variable mid : list Call -> Call -> Code -> S -> Prop.     (* inside a call *)
  Variable G : list Call -> Call -> R -> Prop.               (* the result of a call *)
  Hypothesis begins : forall L k s, F L s -> mid L k (first k) s.
  Hypothesis goes_on : forall L k a s, mid L k a s ->
    match exec a s with
    | (s', Next a') => mid L k a' s'
    | (s', Returned r) => F (L ++ [k]) s' /\ G L k r
    | (s', Raised _) => False
    end.
  Definition solo (c : cfg) : Prop :=
    (forall l1 k r l2, log c = l1 ++ (k, r) :: l2 -> exists r', r = Ok r' /\ G (map fst l1) k r') /\
    ((idle c /\ F (ended c) (shared c)) \/
     (exists t k a, current c t = Some (k, a) /\ (forall u, u <> t -> current c u = None) /\ mid (ended c) k a (shared c))).
  Lemma log_snoc (P : list Call -> Call -> res R -> Prop) (l : list (Call * res R)) k0 r0 :
    (forall l1 k r l2, l = l1 ++ (k, r) :: l2 -> P (map fst l1) k r) -> P (map fst l) k0 r0 ->
    forall l1 k r l2, l ++ [(k0, r0)] = l1 ++ (k, r) :: l2 -> P (map fst l1) k r.
  Proof.
    intros H H0 l1 k r l2 E. destruct (@exists_last _ ((k, r) :: l2)) as (q & [x y] & Q); [discriminate|].
    rewrite Q, app_assoc in E. apply app_inj_tail in E. destruct E as [E1 E2]. injection E2 as <- <-. destruct q as [|z q].
    - simpl in Q. injection Q as -> -> ->. rewrite app_nil_r in E1. subst l1. auto.
    - simpl in Q. injection Q as <- Q. eapply H. rewrite E1. reflexivity.
  Qed.
  Lemma solo_turn c t : (todo c t = [] /\ current c t = None \/ forall u, u <> t -> current c u = None) -> solo c -> solo (turn first exec c t).
  Proof.
    intros [[T0 T1]|O]; [unfold turn; rewrite T1, T0; auto|]. intros [L I]. unfold turn. destruct (current c t) as [[k a]|] eqn:E.
    - assert (M : mid (ended c) k a (shared c)).
      { destruct I as [[I _]|(t' & k' & a' & C & O' & M)]; [rewrite I in E; discriminate|]. destruct (Nat.eq_dec t' t) as [->|N]; [congruence|].
        rewrite O in C; auto. discriminate. }
      pose proof (goes_on M) as N. destruct (exec a (shared c)) as [s [a'|r|e]]; [| |destruct N].
      + split; auto. right. exists t, k, a'. unfold ended in *. simpl. rewrite put_eq. split; auto. split; auto. intros u U. rewrite put_neq; auto.
      + destruct N as [N1 N2]. split; simpl.
        * apply (@log_snoc (fun l k r => exists r', r = Ok r' /\ G l k r')); eauto.
        * left. unfold ended in *. simpl. rewrite map_app. split; auto. intros u. simpl. destruct (Nat.eq_dec u t) as [->|U]; [apply put_eq|rewrite put_neq; auto].
    - destruct (todo c t) as [|k r]; [split; auto|]. split; auto. right. exists t, k, (first k). unfold ended in *. simpl. rewrite put_eq. split; auto. split.
      + intros u U. rewrite put_neq; auto.
      + destruct I as [[_ I]|(t' & k' & a' & C & O' & M)]; auto. destruct (Nat.eq_dec t' t) as [->|N]; [congruence|]. rewrite O in C; auto. discriminate.
  Qed.
  Lemma solo_run schedule : forall c, one_at_a_time first exec c schedule -> solo c -> solo (run first exec c schedule).
  Proof. induction schedule as [|t r IH]; intros c O I; auto. destruct O as [O1 O2]. simpl. apply IH; auto. apply solo_turn; auto. Qed.
  Lemma solo_start s programs schedule : F [] s -> one_at_a_time first exec (start Code R s programs) schedule ->
    let c := run first exec (start Code R s programs) schedule in
    (forall l1 k r l2, log c = l1 ++ (k, r) :: l2 -> exists r', r = Ok r' /\ G (map fst l1) k r') /\ (idle c -> F (ended c) (shared c)).
  Proof.
    intros F0 O c. destruct (@solo_run schedule (start Code R s programs)) as [H1 H2]; auto.
    - split; simpl.
      + intros l1 k r l2 E. destruct l1; discriminate.
      + left. split; [intros t; reflexivity|auto].
    - split; auto. intros I. destruct H2 as [[_ H2]|(t & k & a & C & _)]; auto. rewrite I in C. discriminate.
  Qed.

  (** if only one thread calls anything, there is never more than one call *)
  Lemma only_one t programs : (forall u, u <> t -> programs u = []) -> forall schedule s,
    one_at_a_time first exec (start Code R s programs) schedule.
  Proof.
    intros H schedule s. assert (I : forall u, u <> t -> todo (start Code R s programs) u = [] /\ current (start Code R s programs) u = None) by (simpl; auto).
    revert I. generalize (start Code R s programs). induction schedule as [|u r IH]; intros c I; simpl; auto.
    destruct (Nat.eq_dec u t) as [->|N].
    - split; [right; intros v V; apply I; auto|]. apply IH. intros v V. destruct (I v V) as [I1 I2]. unfold turn. destruct (current c t) as [[k a]|].
      + destruct (exec a (shared c)) as [s' [a'|x|e]]; simpl; rewrite put_neq; auto.
      + destruct (todo c t); simpl; auto. rewrite !put_neq; auto.
    - destruct (I u N) as [I1 I2]. split; auto. assert (T : turn first exec c u = c) by (unfold turn; rewrite I2, I1; auto). rewrite T. auto.
  Qed.
End Generic.

(** ** what is kept is bounded by what was fed *)
Section Weigh.
  Variables S Call Code R : Type.
  Variable first : Call -> Code.
  Variable exec : Code -> S -> S * next Code R.
  Variable w : Call -> Z.                                  (* the weight of a call *)
  Variable pend : Code -> Z.                               (* of it, what the call has still to add *)
  Variable val : S -> Z.                                   (* the weight of what is kept *)
  Variable holds : Code -> Z -> Prop.                      (* what the call holds is at most that *)
  Hypothesis wfirst : forall k, pend (first k) = w k.
  Hypothesis hfirst : forall k b, 0 <= b -> holds (first k) b.
  Hypothesis hmono : forall a b b', b <= b' -> holds a b -> holds a b'.
  Hypothesis step : forall a s b, 0 <= val s <= b -> holds a b -> 0 <= pend a ->
    match exec a s with
    | (s', Next a') => 0 <= val s' <= b + pend a - pend a' /\ holds a' (b + pend a - pend a') /\ 0 <= pend a' <= pend a
    | (s', Returned _) | (s', Raised _) => 0 <= val s' <= b + pend a
    end.
  Let cfg := config S Call Code R.
  Definition left_of (c : cfg) (t : nat) : Z := total (map w (todo c t)) + match current c t with Some (_, a) => pend a | None => 0 end.
  Definition bounded (n : nat) (T : Z) (c : cfg) : Prop :=
    (forall t, (n <= t)%nat -> todo c t = [] /\ current c t = None) /\ (forall t k, In k (todo c t) -> 0 <= w k) /\
    0 <= val (shared c) <= T - over n (left_of c) /\
    forall t k a, current c t = Some (k, a) -> holds a (T - over n (left_of c)) /\ 0 <= pend a.
  Lemma bounded_turn n T c t : bounded n T c -> bounded n T (turn first exec c t).
  Proof.
    intros (I1 & I2 & I3 & I4). unfold turn. destruct (Nat.lt_ge_cases t n) as [Lt|Ge]; cycle 1.
    { destruct (I1 t Ge) as [-> ->]. split; auto. }
    destruct (current c t) as [[k a]|] eqn:E.
    - destruct (I4 _ _ _ E) as [H1 H2]. pose proof (@step a (shared c) _ I3 H1 H2) as St. destruct (exec a (shared c)) as [s [a'|r|e]].
      + set (c' := {| shared := s; todo := todo c; current := put (current c) t (Some (k, a')); log := log c |}).
        assert (Ov : over n (left_of c') = over n (left_of c) - pend a + pend a').
        { rewrite (@over_put n (left_of c) (left_of c') t Lt).
          - unfold left_of, c'; simpl. rewrite put_eq, E. lia.
          - intros u U. unfold left_of, c'; simpl. rewrite put_neq; auto. }
        destruct St as (St1 & St2 & St3). unfold bounded. rewrite Ov. split; [|split; [|split]]; auto.
        * intros u U. simpl. rewrite put_neq by lia. auto.
        * simpl. lia.
        * intros u k0 a0. simpl. destruct (Nat.eq_dec u t) as [->|N]; [rewrite put_eq|rewrite put_neq; auto].
          -- intros X. injection X as <- <-. split; [|lia]. eapply hmono; [|exact St2]. lia.
          -- intros X. destruct (I4 _ _ _ X) as [Y1 Y2]. split; auto. eapply hmono; [|exact Y1]. lia.
      + set (c' := {| shared := s; todo := todo c; current := put (current c) t None; log := log c ++ [(k, Ok r)] |}).
        assert (Ov : over n (left_of c') = over n (left_of c) - pend a).
        { rewrite (@over_put n (left_of c) (left_of c') t Lt).
          - unfold left_of, c'; simpl. rewrite put_eq, E. lia.
          - intros u U. unfold left_of, c'; simpl. rewrite put_neq; auto. }
        unfold bounded. rewrite Ov. split; [|split; [|split]]; auto.
        * intros u U. simpl. rewrite put_neq by lia. auto.
        * simpl. lia.
        * intros u k0 a0. simpl. destruct (Nat.eq_dec u t) as [->|N]; [rewrite put_eq; discriminate|rewrite put_neq; auto].
          intros X. destruct (I4 _ _ _ X) as [Y1 Y2]. split; auto. eapply hmono; [|exact Y1]. lia.
      + set (c' := {| shared := s; todo := todo c; current := put (current c) t None; log := log c ++ [(k, Err e)] |}).
        assert (Ov : over n (left_of c') = over n (left_of c) - pend a).
        { rewrite (@over_put n (left_of c) (left_of c') t Lt).
          - unfold left_of, c'; simpl. rewrite put_eq, E. lia.
          - intros u U. unfold left_of, c'; simpl. rewrite put_neq; auto. }
        unfold bounded. rewrite Ov. split; [|split; [|split]]; auto.
        * intros u U. simpl. rewrite put_neq by lia. auto.
        * simpl. lia.
        * intros u k0 a0. simpl. destruct (Nat.eq_dec u t) as [->|N]; [rewrite put_eq; discriminate|rewrite put_neq; auto].
          intros X. destruct (I4 _ _ _ X) as [Y1 Y2]. split; auto. eapply hmono; [|exact Y1]. lia.
    - destruct (todo c t) as [|k r] eqn:D; [split; auto|].
      set (c' := {| shared := shared c; todo := put (todo c) t r; current := put (current c) t (Some (k, first k)); log := log c |}).
      assert (Ov : over n (left_of c') = over n (left_of c)).
      { rewrite (@over_put n (left_of c) (left_of c') t Lt).
        - unfold left_of, c'; simpl. rewrite !put_eq, E, D, wfirst. simpl. lia.
        - intros u U. unfold left_of, c'; simpl. rewrite !put_neq; auto. }
      unfold bounded. rewrite Ov. split; [|split; [|split]]; auto.
      + intros u U. simpl. rewrite !put_neq by lia. auto.
      + intros u k0. simpl. destruct (Nat.eq_dec u t) as [->|N]; [rewrite put_eq|rewrite put_neq; eauto].
        intros X. apply (I2 t). rewrite D. right. auto.
      + intros u k0 a0. simpl. destruct (Nat.eq_dec u t) as [->|N]; [rewrite put_eq|rewrite put_neq; auto].
        * intros X. injection X as <- <-. split; [apply hfirst; lia|]. rewrite wfirst. apply (I2 t). rewrite D. left. auto.
        * apply I4.
  Qed.
  Lemma weigh n s programs schedule : threads_below n programs -> (forall t k, In k (programs t) -> 0 <= w k) -> val s = 0 ->
    let c := run first exec (start Code R s programs) schedule in
    0 <= val (shared c) /\ val (shared c) + total (map w (all_calls n (todo c))) <= total (map w (all_calls n programs)).
  Proof.
    intros B W Z0 c. assert (I : bounded n (total (map w (all_calls n programs))) c).
    { apply run_inv; [|intros c0 t; apply bounded_turn]. split; [|split; [|split]]; simpl; auto.
      - rewrite Z0. rewrite (over_ext (n := n) (fun t => total (map w (programs t)))).
        + rewrite over_flat. unfold all_calls. lia.
        + intros u _. unfold left_of. simpl. lia.
      - discriminate. }
    destruct I as (I1 & I2 & I3 & I4). split; [lia|]. unfold all_calls at 1. rewrite <- over_flat.
    enough (over n (fun t => total (map w (todo c t))) <= over n (left_of c)) by lia.
    apply over_le. intros u _. unfold left_of. destruct (current c u) as [[k a]|] eqn:E; [|lia]. destruct (I4 _ _ _ E). lia.
  Qed.
End Weigh.

(** ** the counter *)
Lemma counter_solo programs schedule : one_at_a_time CReadValue cexec (start ccode unit new_counter programs) schedule ->
  let c := count_run (start ccode unit new_counter programs) schedule in
  idle c -> value (shared c) = total (ended c) /\ calls (shared c) = Z.of_nat (length (ended c)).
Proof.
  intros O. pose (F := fun (L : list Z) s => value s = total L /\ calls s = Z.of_nat (length L)).
  pose (mid := fun (L : list Z) (k : Z) (a : ccode) s =>
    match a with
    | CReadValue d => d = k /\ F L s
    | CWriteValue d v => d = k /\ v = total L /\ F L s
    | CReadCalls => value s = total L + k /\ calls s = Z.of_nat (length L)
    | CWriteCalls n => value s = total L + k /\ n = Z.of_nat (length L)
    end).
  refine (proj2 (@solo_start _ _ _ _ CReadValue cexec F mid (fun _ _ _ => True) _ _ new_counter programs schedule _ O)).
  - intros L k s H. split; auto.
  - intros L k a s M. destruct a; simpl in *.
    + destruct M as (M1 & M2 & M3). repeat split; auto.
    + destruct M as (M1 & M2 & M3 & M4). subst. auto.
    + destruct M as (M1 & M2). auto.
    + destruct M as (M1 & M2). subst. unfold F. rewrite total_app, app_length, Nat2Z.inj_add. simpl. split; auto. split; lia.
  - split; reflexivity.
Qed.

Lemma counter_bounds n programs schedule : threads_below n programs -> (forall t d, In d (programs t) -> 0 <= d) ->
  let c := count_run (start ccode unit new_counter programs) schedule in
  (0 <= value (shared c) /\ value (shared c) + total (all_calls n (todo c)) <= total (all_calls n programs)) /\
  (0 <= calls (shared c) /\ calls (shared c) + Z.of_nat (length (all_calls n (todo c))) <= Z.of_nat (length (all_calls n programs))).
Proof.
  intros B P c. split.
  - rewrite <- (map_id (all_calls n (todo c))), <- (map_id (all_calls n programs)). apply (@weigh _ _ _ _ CReadValue cexec (fun d => d) (fun a => match a with CReadValue d | CWriteValue d _ => d | _ => 0 end) value
      (fun a b => match a with CWriteValue _ v => 0 <= v <= b | _ => True end)); auto.
    + intros [d|d v| |m] b b' L; auto. intros; lia.
    + intros [d|d v| |m] s b V H Q; simpl in *; repeat split; auto; lia.
  - assert (N : forall (A : Type) (l : list A), total (map (fun _ => 1) l) = Z.of_nat (length l)) by (induction l as [|y l IH]; auto; cbn [map total fold_right length] in *; unfold total in IH; rewrite IH; lia).
    rewrite <- !N. apply (@weigh _ _ _ _ CReadValue cexec (fun _ => 1) (fun a => 1) calls
      (fun a b => match a with CWriteCalls v => 0 <= v <= b | _ => True end)); auto.
    + intros [d|d v| |m] b b' L; auto. intros; lia.
    + intros [d|d v| |m] s b V H Q; simpl in *; repeat split; auto; lia.
    + intros; lia.
Qed.

Lemma counter_some m programs schedule : 0 <= m -> (forall t d, In d (programs t) -> m <= d) ->
  let c := count_run (start ccode unit new_counter programs) schedule in
  log c <> [] -> m <= value (shared c) /\ 1 <= calls (shared c).
Proof.
  intros M P c.
  enough (I : (forall t d, In d (todo c t) -> m <= d) /\ 0 <= value (shared c) /\ 0 <= calls (shared c) /\
    (log c <> [] -> m <= value (shared c) /\ 1 <= calls (shared c)) /\
    forall t k a, current c t = Some (k, a) -> match a with CReadValue d => m <= d | CWriteValue d v => m <= d /\ 0 <= v | CReadCalls => m <= value (shared c) | CWriteCalls n => m <= value (shared c) /\ 0 <= n end) by tauto.
  unfold c, count_run. apply run_inv; [|clear - M].
  { simpl. repeat split; auto; try lia; try congruence. }
  intros c t (I1 & I2 & I3 & I4 & I5). unfold turn. destruct (current c t) as [[k a]|] eqn:E.
  - specialize (I5 _ _ _ E) as A. destruct a as [d|d v| |n]; simpl in *.
    + split; auto. split; auto. split; auto. split; auto. intros u k0 a0. destruct (Nat.eq_dec u t) as [->|N]; [rewrite put_eq|rewrite put_neq by auto; apply I5]. intros X. injection X as <- <-. lia.
    + destruct A as [A1 A2]. assert (m <= v + d) by lia. assert (0 <= v + d) by lia. split; auto. split; auto. split; auto. split; [tauto|].
      intros u k0 a0. destruct (Nat.eq_dec u t) as [->|N]; [rewrite put_eq|rewrite put_neq; auto].
      * intros X. injection X as <- <-. auto.
      * intros X. specialize (I5 _ _ _ X). destruct a0; auto. tauto.
    + split; auto. split; auto. split; auto. split; auto. intros u k0 a0. destruct (Nat.eq_dec u t) as [->|N]; [rewrite put_eq|rewrite put_neq by auto; apply I5]. intros X. injection X as <- <-. lia.
    + destruct A as [A1 A2]. split; auto. split; auto. split; [lia|]. split; [intros _; lia|].
      intros u k0 a0. destruct (Nat.eq_dec u t) as [->|N]; [rewrite put_eq; discriminate|rewrite put_neq by auto; apply I5].
  - destruct (todo c t) as [|k r] eqn:D; [split; auto|]. simpl. split; [|split; [|split; [|split]]]; auto.
    + intros u d. destruct (Nat.eq_dec u t) as [->|N]; [rewrite put_eq|rewrite put_neq; eauto]. intros X. apply (I1 t). rewrite D. right. auto.
    + intros u k0 a0. destruct (Nat.eq_dec u t) as [->|N]; [rewrite put_eq|rewrite put_neq by auto; apply I5]. intros X. injection X as <- <-. apply (I1 t). rewrite D. left. auto.
Qed.

(** ** the summary *)
Lemma summary_solo last programs schedule : (1 <= last)%nat ->
  one_at_a_time SReadCalls (sexec last) (start scode unit new_summary programs) schedule ->
  let c := sum_run last (start scode unit new_summary programs) schedule in
  (forall e, In e (log c) -> snd e = Ok tt) /\
  (idle c -> tot_calls (shared c) = Z.of_nat (length (ended c)) /\ tot_time (shared c) = total (ended c) /\ queue (shared c) = firstn last (rev (ended c))).
Proof.
  intros Pos O. pose (F := fun (L : list Z) s => tot_calls s = Z.of_nat (length L) /\ tot_time s = total L /\ queue s = firstn last (rev L)).
  pose (mid := fun (L : list Z) (k : Z) (a : scode) s =>
    match a with
    | SReadCalls v => v = k /\ F L s
    | SWriteCalls v n => v = k /\ n = Z.of_nat (length L) /\ F L s
    | SReadTime v => v = k /\ tot_calls s = Z.of_nat (length L) + 1 /\ tot_time s = total L /\ queue s = firstn last (rev L)
    | SWriteTime v n => v = k /\ n = total L /\ tot_calls s = Z.of_nat (length L) + 1 /\ tot_time s = total L /\ queue s = firstn last (rev L)
    | SLength v => v = k /\ tot_calls s = Z.of_nat (length L) + 1 /\ tot_time s = total L + k /\ queue s = firstn last (rev L)
    | SPop v => v = k /\ tot_calls s = Z.of_nat (length L) + 1 /\ tot_time s = total L + k /\ queue s = firstn last (rev L) /\ length (queue s) = last
    | SAppend v => v = k /\ tot_calls s = Z.of_nat (length L) + 1 /\ tot_time s = total L + k /\ queue s = firstn (last - 1) (rev L)
    end).
  assert (E0 : last = S (last - 1)) by lia.
  destruct (@solo_start _ _ _ _ SReadCalls (sexec last) F mid (fun _ _ _ => True)) with (s := new_summary) (programs := programs) (schedule := schedule) as [H1 H2]; auto.
  - intros L k s H. split; auto.
  - intros L k a s M. destruct a; simpl in *.
    + destruct M as (M1 & M2 & M3 & M4). repeat split; auto.
    + destruct M as (M1 & M2 & M3 & M4 & M5). subst n v. auto.
    + destruct M as (M1 & M2 & M3 & M4). auto.
    + destruct M as (M1 & M2 & M3 & M4 & M5). subst n v. auto.
    + destruct M as (M1 & M2 & M3 & M4). destruct (Nat.eqb_spec (length (queue s)) last) as [E|E]; simpl; [auto|].
      repeat split; auto. rewrite M4 in E |- *. rewrite firstn_length in E. destruct (Nat.le_gt_cases (length (rev L)) (last - 1)).
      * rewrite !firstn_all2; auto. lia.
      * exfalso. apply E. lia.
    + destruct M as (M1 & M2 & M3 & M4 & M5). destruct (queue s) as [|x q] eqn:Q; [simpl in M5; lia|]. simpl. repeat split; auto.
      change (match q with [] => [] | _ :: _ => x :: removelast q end) with (removelast (x :: q)). rewrite M4, E0 at 1. apply removelast_firstn. rewrite M4, firstn_length in M5. lia.
    + destruct M as (M1 & M2 & M3 & M4). subst v. split; auto. unfold F. simpl. rewrite total_app, app_length, Nat2Z.inj_add, rev_app_distr. simpl.
      rewrite M4. split; [lia|]. split; [lia|]. rewrite E0 at 2. reflexivity.
  - split; [|split]; simpl; auto. rewrite firstn_nil. auto.
  - split; auto. intros [k r] I. apply in_split in I. destruct I as (l1 & l2 & I). destruct (H1 _ _ _ _ I) as ([] & -> & _). auto.
Qed.

Lemma firstn_count (x : Z) (l : list Z) n : (count_occ Z.eq_dec (firstn n l) x <= count_occ Z.eq_dec l x)%nat.
Proof. revert n. induction l as [|y l IH]; intros [|n]; simpl; try lia. destruct (Z.eq_dec y x); specialize (IH n); lia. Qed.
Lemma removelast_count (x : Z) (l : list Z) : (count_occ Z.eq_dec (removelast l) x <= count_occ Z.eq_dec l x)%nat.
Proof. rewrite removelast_firstn_len. apply firstn_count. Qed.
Lemma count_total (x : Z) (l : list Z) : total (map (fun d => if Z.eq_dec d x then 1 else 0) l) = Z.of_nat (count_occ Z.eq_dec l x).
Proof. induction l as [|y l IH]; simpl; auto. rewrite IH. destruct (Z.eq_dec y x); lia. Qed.

Lemma summary_made_of last n programs schedule x : threads_below n programs ->
  let c := sum_run last (start scode unit new_summary programs) schedule in
  (count_occ Z.eq_dec (queue (shared c)) x + count_occ Z.eq_dec (all_calls n (todo c)) x <= count_occ Z.eq_dec (all_calls n programs) x)%nat.
Proof.
  intros B c. pose (w := fun d => if Z.eq_dec d x then 1 else 0). assert (Wp : forall d, 0 <= w d) by (intros d; unfold w; destruct (Z.eq_dec d x); lia).
  enough (0 <= Z.of_nat (count_occ Z.eq_dec (queue (shared c)) x) /\
    Z.of_nat (count_occ Z.eq_dec (queue (shared c)) x) + total (map w (all_calls n (todo c))) <= total (map w (all_calls n programs))) as [_ H].
  { unfold w in H. rewrite !count_total in H. lia. }
  apply (@weigh _ _ _ _ SReadCalls (sexec last) w (fun a => match a with SReadCalls v | SWriteCalls v _ | SReadTime v | SWriteTime v _ | SLength v | SPop v | SAppend v => w v end)
    (fun s => Z.of_nat (count_occ Z.eq_dec (queue s) x)) (fun _ _ => True)); auto.
  intros [v|v m|v|v m|v|v|v] s b V _ Q; simpl.
  - repeat split; auto; lia.
  - repeat split; auto; lia.
  - repeat split; auto; lia.
  - repeat split; auto; lia.
  - destruct (length (queue s) =? last)%nat; repeat split; auto; lia.
  - pose proof (removelast_count x (queue s)) as RC. rewrite <- (Nat2Z.id (count_occ Z.eq_dec (removelast (queue s)) x)) in RC. destruct (queue s) as [|y q] eqn:E; simpl.
    + rewrite E. simpl in V |- *. lia.
    + repeat split; auto; try lia. change (match q with [] => [] | _ :: _ => y :: removelast q end) with (removelast (y :: q)). lia.
  - unfold w. destruct (Z.eq_dec v x); lia.
Qed.

(** *** the window grows *)
Section Grow.
  Variable last : nat.
  Let cfg := config summary Z scode unit.
  Lemma sum_run_app (c : cfg) l m : sum_run last c (l ++ m) = sum_run last (sum_run last c l) m.
  Proof. apply fold_left_app. Qed.
  (** the six turns of [t] up to and with the comparison of the length *)
  Lemma six (c : cfg) t v r : current c t = None -> todo c t = v :: r -> length (queue (shared c)) <> last ->
    let c' := sum_run last c (repeat t 6) in
    current c' t = Some (v, SAppend v) /\ todo c' t = r /\ queue (shared c') = queue (shared c) /\ log c' = log c /\
    forall u, u <> t -> current c' u = current c u /\ todo c' u = todo c u.
  Proof.
    intros C T N. apply Nat.eqb_neq in N. unfold sum_run, run. cbn [repeat fold_left].
    assert (T1 : turn SReadCalls (sexec last) c t = {| shared := shared c; todo := put (todo c) t r; current := put (current c) t (Some (v, SReadCalls v)); log := log c |})
      by (unfold turn; rewrite C, T; reflexivity). rewrite T1. clear T1.
    do 5 match goal with |- context [turn SReadCalls (sexec last) (Build_config ?s ?td ?cu ?lg) t] =>
      let H := fresh in eassert (H : turn SReadCalls (sexec last) (Build_config s td cu lg) t = _);
      [unfold turn; cbn [current]; rewrite put_eq; cbn [sexec shared todo log queue tot_calls tot_time]; rewrite ?N; reflexivity|rewrite H; clear H] end.
    cbn [current todo shared queue log]. rewrite !put_eq.
    repeat split; auto. all: intros; rewrite !put_neq; auto.
  Qed.
  Lemma append_turn (c : cfg) t v : current c t = Some (v, SAppend v) ->
    let c' := sum_run last c [t] in
    current c' t = None /\ todo c' t = todo c t /\ queue (shared c') = v :: queue (shared c) /\ log c' = log c ++ [(v, Ok tt)] /\
    forall u, u <> t -> current c' u = current c u /\ todo c' u = todo c u.
  Proof.
    intros C. unfold sum_run, run. cbn [fold_left]. unfold turn. rewrite C. cbn [sexec current todo shared queue log]. rewrite put_eq.
    repeat split; auto. intros. rewrite put_neq; auto.
  Qed.
  Lemma many (m : nat) : forall c : cfg, current c 0%nat = None -> (exists r, todo c 0%nat = repeat 0 m ++ r) ->
    (forall i, (i < m)%nat -> (length (queue (shared c)) + i)%nat <> last) ->
    let c' := sum_run last c (repeat 0%nat (7 * m)) in
    current c' 0%nat = None /\ repeat 0 m ++ todo c' 0%nat = todo c 0%nat /\ length (queue (shared c')) = (length (queue (shared c)) + m)%nat /\
    (forall e, In e (log c') -> In e (log c) \/ snd e = Ok tt) /\
    forall u, u <> 0%nat -> current c' u = current c u /\ todo c' u = todo c u.
  Proof.
    induction m as [|m IH]; intros c C [r T] N; cbv zeta in *; [simpl; repeat split; auto|].
    assert (S7 : repeat 0%nat (7 * S m) = repeat 0%nat 6 ++ [0%nat] ++ repeat 0%nat (7 * m)).
    { replace (7 * S m)%nat with (6 + (1 + 7 * m))%nat by lia. rewrite !repeat_app. reflexivity. }
    rewrite S7, !sum_run_app. clear S7. assert (N0 : length (queue (shared c)) <> last) by (specialize (N 0%nat); lia).
    generalize (@six c 0%nat 0 (repeat 0 m ++ r) C T N0). cbv zeta. generalize (sum_run last c (repeat 0%nat 6)). intros c1 (A1 & A2 & A3 & A4 & A5).
    generalize (@append_turn c1 0%nat 0 A1). cbv zeta. generalize (sum_run last c1 [0%nat]). intros c2 (B1 & B2 & B3 & B4 & B5).
    destruct (IH c2 B1) as (D1 & D2 & D3 & D4 & D5).
    { exists r. congruence. }
    { intros i I. rewrite B3. cbn [length]. rewrite A3. specialize (N (S i)). lia. }
    split; auto. split; [|split; [|split]].
    - rewrite T. cbn [repeat app]. f_equal. rewrite D2. congruence.
    - rewrite D3, B3. cbn [length]. rewrite A3. lia.
    - intros e I. apply D4 in I. rewrite B4, A4 in I. rewrite in_app_iff in I. destruct I as [[I|[<-|[]]]|I]; auto.
    - intros u U. destruct (A5 u U), (B5 u U), (D5 u U). split; congruence.
  Qed.
  Lemma window_grows n : (1 <= last)%nat -> exists programs schedule,
    threads_below 2 programs /\
    let c := sum_run last (start scode unit new_summary programs) schedule in
    finished c /\ (forall e, In e (log c) -> snd e = Ok tt) /\ length (queue (shared c)) = (last + 1 + n)%nat.
  Proof.
    intros Pos. pose (programs := fun t : nat => match t with O => repeat 0 (last - 1) ++ 0 :: repeat 0 n | 1%nat => [0] | _ => [] end).
    exists programs, (repeat 0%nat (7 * (last - 1)) ++ repeat 0%nat 6 ++ repeat 1%nat 6 ++ [0%nat] ++ [1%nat] ++ repeat 0%nat (7 * n)).
    split; [intros [|[|t]] T; try lia; reflexivity|]. cbv zeta. rewrite !sum_run_app.
    destruct (@many (last - 1)%nat (start scode unit new_summary programs)) as (A1 & A2 & A3 & A4 & A5); auto.
    { exists (0 :: repeat 0 n). reflexivity. }
    { simpl. intros. lia. }
    set (c1 := sum_run last (start scode unit new_summary programs) (repeat 0%nat (7 * (last - 1)))) in *. simpl in A3.
    cbn [start todo programs] in A2. apply app_inv_head in A2. destruct (A5 1%nat) as [A6 A7]; auto. cbn [start todo programs current] in A6, A7.
    destruct (@six c1 0%nat 0 (repeat 0 n) A1 A2) as (B1 & B2 & B3 & B4 & B5); [lia|]. set (c2 := sum_run last c1 (repeat 0%nat 6)) in *.
    destruct (B5 1%nat) as [B6 B7]; auto. rewrite A6 in B6. rewrite A7 in B7.
    destruct (@six c2 1%nat 0 [] B6 B7) as (C1 & C2 & C3 & C4 & C5); [rewrite B3; lia|]. set (c3 := sum_run last c2 (repeat 1%nat 6)) in *.
    destruct (C5 0%nat) as [C6 C7]; auto. rewrite B1 in C6.
    destruct (@append_turn c3 0%nat 0 C6) as (D1 & D2 & D3 & D4 & D5). set (c4 := sum_run last c3 [0%nat]) in *.
    destruct (D5 1%nat) as [D6 D7]; auto. rewrite C1 in D6.
    destruct (@append_turn c4 1%nat 0 D6) as (E1 & E2 & E3 & E4 & E5). set (c5 := sum_run last c4 [1%nat]) in *.
    destruct (E5 0%nat) as [E6 E7]; auto.
    assert (LQ : length (queue (shared c5)) = (last + 1)%nat) by (rewrite E3, D3, C3, B3; cbn [length]; lia).
    destruct (@many n c5) as (F1 & F2 & F3 & F4 & F5).
    { congruence. }
    { exists []. rewrite app_nil_r. congruence. }
    { intros. lia. }
    set (c6 := sum_run last c5 (repeat 0%nat (7 * n))) in *.
    assert (Oth : forall u, (2 <= u)%nat -> current c6 u = None /\ todo c6 u = []).
    { intros u U. destruct (F5 u), (E5 u), (D5 u), (C5 u), (B5 u), (A5 u); try lia. cbn [start todo current] in *. assert (programs u = []) by (destruct u as [|[|u]]; auto; lia). split; congruence. }
    split; [split|split].
    - intros [|[|u]]; auto; [|apply Oth; lia]. destruct (F5 1%nat); auto. congruence.
    - intros [|[|u]]; [| |apply Oth; lia].
      + assert (X : todo c5 0%nat = repeat 0 n) by congruence. rewrite X in F2. rewrite <- (app_nil_r (repeat 0 n)) in F2 at 2. apply app_inv_head in F2. auto.
      + destruct (F5 1%nat); auto. congruence.
    - intros e I. apply F4 in I. destruct I as [I|I]; auto. rewrite E4, D4, C4, B4 in I. rewrite !in_app_iff in I. destruct I as [[I|[<-|[]]]|[<-|[]]]; auto. apply A4 in I. destruct I as [[]|I]; auto.
    - rewrite F3, LQ. lia.
  Qed.
End Grow.

(** ** clicks *)
Lemma sorted_snoc (l : list Z) x : StronglySorted Z.le (l ++ [x]) <-> StronglySorted Z.le l /\ Forall (fun y => y <= x) l.
Proof.
  induction l as [|a l IH]; simpl.
  - split; [intros _; repeat constructor|intros _; repeat constructor].
  - split.
    + intros H. inversion H as [|? ? H1 H2]; subst. apply IH in H1. destruct H1 as [H1 H3]. apply Forall_app in H2. destruct H2 as [H2 H4]. split; constructor; auto. inversion H4; auto.
    + intros [H1 H2]. inversion H1 as [|? ? H3 H4]; subst. inversion H2 as [|? ? H5 H6]; subst. constructor; [apply IH; auto|]. apply Forall_app. auto.
Qed.
Lemma readings_app l m : readings (l ++ m) = readings l ++ readings m.
Proof. unfold readings. apply flat_map_app. Qed.
Lemma clicked_app l m : clicked (l ++ m) = clicked l ++ clicked m.
Proof. unfold clicked. apply flat_map_app. Qed.
Lemma last_time_app l k : last_time (l ++ [k]) = match k with Click m _ => Some m | Export _ => last_time l end.
Proof. unfold last_time. rewrite fold_left_app. simpl. destruct k; auto. Qed.
Lemma clicked_in l x : In x (clicked l) -> In x (readings l).
Proof.
  unfold clicked, readings. rewrite !in_flat_map. intros ([m a|m] & I & J); [|destruct J]. exists (Click m a). simpl in *. intuition.
Qed.
Lemma last_time_in l m : last_time l = Some m -> In m (readings l).
Proof.
  induction l as [|k l IH] using rev_ind; [discriminate|]. rewrite last_time_app, readings_app, in_app_iff. destruct k as [m' a|m']; simpl; intros E; auto.
  injection E as ->. auto.
Qed.
Lemma clock_snoc l k : clock_ok (l ++ [k]) -> clock_ok l.
Proof.
  unfold clock_ok. rewrite readings_app. destruct k as [m a|m]; simpl.
  - replace (readings l ++ [m; a]) with ((readings l ++ [m]) ++ [a]) by (rewrite <- app_assoc; auto). rewrite !sorted_snoc. tauto.
  - rewrite sorted_snoc. tauto.
Qed.
Lemma clock_click l m a : clock_ok (l ++ [Click m a]) -> m <= a /\ Forall (fun x => x <= m) (readings l).
Proof.
  unfold clock_ok. rewrite readings_app. simpl. replace (readings l ++ [m; a]) with ((readings l ++ [m]) ++ [a]) by (rewrite <- app_assoc; auto). rewrite !sorted_snoc.
  intros ((_ & H) & H2). apply Forall_app in H2. destruct H2 as [_ H2]. inversion H2. auto.
Qed.
Lemma clock_sorted l : clock_ok l -> StronglySorted Z.le (clicked l).
Proof.
  induction l as [|k l IH] using rev_ind; intros H; [constructor|]. specialize (IH (clock_snoc _ _ H)). rewrite clicked_app. destruct k as [m a|m]; simpl; [|rewrite app_nil_r; auto].
  apply sorted_snoc. split; auto. destruct (clock_click _ _ _ H) as [H1 H2]. rewrite Forall_forall in *. intros x X. apply clicked_in in X. apply H2 in X. lia.
Qed.
Lemma sorted_filter (p : Z -> bool) l : StronglySorted Z.le l -> StronglySorted Z.le (filter p l).
Proof.
  induction 1 as [|a l H IH F]; simpl; [constructor|]. destruct (p a); auto. constructor; auto. rewrite Forall_forall in *. intros x X. apply filter_In in X. apply F. tauto.
Qed.
Lemma filter_all (p : Z -> bool) l : (forall x, In x l -> p x = true) -> filter p l = l.
Proof. induction l as [|a l IH]; intros H; auto. simpl. rewrite H; [|left; auto]. f_equal. apply IH. intros x X. apply H. right. auto. Qed.
Lemma filter_twice (p q : Z -> bool) l : (forall x, p x = true -> q x = true) -> filter p (filter q l) = filter p l.
Proof.
  intros H. induction l as [|a l IH]; auto. simpl. destruct (q a) eqn:Q; simpl; rewrite IH; auto. destruct (p a) eqn:P; auto. apply H in P. congruence.
Qed.

Section Clicks.
  Variables (cutoff : Z) (vectors : list Z).
  Lemma within_snoc m v l x : within m v (l ++ [x]) = (if m - v <=? x then S (within m v l) else within m v l).
  Proof. unfold within. rewrite filter_app, app_length. simpl. destruct (m - v <=? x); simpl; lia. Qed.
  Lemma tally_ok m x l : tally (map (fun v => m - v) vectors) x (map (fun v => within m v l) vectors) = map (fun v => within m v (l ++ [x])) vectors.
  Proof. induction vectors as [|v vs IH]; simpl; auto. rewrite IH, within_snoc. auto. Qed.
  Lemma nth_firstn (l : list Z) i x : nth_error l i = Some x -> firstn (S i) l = firstn i l ++ [x].
  Proof. revert i. induction l as [|a l IH]; intros [|i] E; try discriminate; simpl in *; [congruence|]. f_equal. apply IH. auto. Qed.

  Lemma cps_solo programs schedule : one_at_a_time pfirst (pexec cutoff vectors) (start pcode (list nat) new_cps programs) schedule ->
    let c := cps_run cutoff vectors (start pcode (list nat) new_cps programs) schedule in
    (forall before k r after, log c = before ++ (k, r) :: after -> clock_ok (map fst before ++ [k]) ->
       match k with Export m => r = Ok (map (fun v => within m v (kept cutoff (map fst before))) vectors) | Click _ _ => r = Ok [] end) /\
    (idle c -> clock_ok (ended c) -> clicks (shared c) = kept cutoff (ended c)).
  Proof.
    intros O. pose (F := fun L s => clock_ok L -> clicks s = kept cutoff L).
    pose (ing := fun L m s => clock_ok L -> StronglySorted Z.le (clicks s) /\ filter (fun a => m - cutoff <? a) (clicks s) = filter (fun a => m - cutoff <? a) (clicked L)).
    pose (mid := fun L k a s =>
      match a with
      | PAppend m a => k = Click m a /\ F L s
      | PPeek m => (exists a, k = Click m a) /\ ing (L ++ [k]) m s
      | PPop m => (exists a, k = Click m a) /\ ing (L ++ [k]) m s /\ exists x q, clicks s = x :: q /\ x <= m - cutoff
      | PIter m => k = Export m /\ F L s
      | PNext cs v i counts => exists m, k = Export m /\ F L s /\ v = version s /\ cs = map (fun v => m - v) vectors /\
          counts = map (fun v => within m v (firstn i (clicks s))) vectors
      end).
    pose (G := fun L k (r : list nat) => clock_ok (L ++ [k]) -> match k with Export m => r = map (fun v => within m v (kept cutoff L)) vectors | Click _ _ => r = [] end).
    destruct (@solo_start _ _ _ _ pfirst (pexec cutoff vectors) F mid G) with (s := new_cps) (programs := programs) (schedule := schedule) as [H1 H2]; auto.
    - intros L [m a|m] s H; simpl; auto.
    - intros L k a s M. destruct a as [m a|m|m|m|cs v i counts]; simpl in *.
      + destruct M as [-> M]. split; [eauto|]. intros K. simpl. pose proof (clock_sorted K) as Srt. pose proof (clock_click _ _ _ K) as [K1 K2]. specialize (M (clock_snoc _ _ K)).
        rewrite clicked_app in *. simpl in *. rewrite M. unfold kept. destruct (last_time L) as [m'|] eqn:E.
        * split.
          -- apply sorted_snoc in Srt. destruct Srt as [S1 S2]. apply sorted_snoc. split; [apply sorted_filter; auto|]. rewrite Forall_forall in *. intros x X. apply filter_In in X. apply S2. tauto.
          -- rewrite !filter_app, filter_twice; auto. intros x X. apply Z.ltb_lt in X. apply Z.ltb_lt. apply last_time_in in E. rewrite Forall_forall in K2. apply K2 in E. lia.
        * assert (X : clicked L = []).
          { clear -E. induction L as [|k l IH] using rev_ind; auto. rewrite last_time_app in E. rewrite clicked_app. destruct k; [discriminate|]. rewrite IH; auto. }
          rewrite X. split; auto. repeat constructor.
      + destruct M as [[a ->] M]. destruct (clicks s) as [|x q] eqn:E.
        * split; [|intros _; auto]. intros K. specialize (M K). rewrite E in *. unfold kept. rewrite last_time_app. destruct M as [_ <-]. reflexivity.
        * destruct (x <=? m - cutoff) eqn:X.
          -- apply Z.leb_le in X. split; [eauto|]. split; auto. exists x, q. auto.
          -- apply Z.leb_gt in X. split; [|intros _; auto]. intros K. specialize (M K). unfold kept. rewrite last_time_app. destruct M as [S1 <-]. symmetry. apply filter_all.
             intros y Y. apply Z.ltb_lt. rewrite E in S1, Y. inversion S1 as [|? ? S2 S3]; subst. destruct Y as [<-|Y]; [lia|]. rewrite Forall_forall in S3. apply S3 in Y. lia.
      + destruct M as (M1 & M2 & x & q & E & X). rewrite E. split; auto. intros K. specialize (M2 K). rewrite E in M2. destruct M2 as [S1 S2]. simpl. inversion S1 as [|? ? S3 S4]; subst. split; auto.
        rewrite <- S2. simpl. replace (m - cutoff <? x) with false; auto. symmetry. apply Z.ltb_ge. lia.
      + destruct M as [-> M]. exists m. repeat split; auto.
      + destruct M as (m & -> & M & -> & -> & ->). rewrite Nat.eqb_refl. simpl. destruct (nth_error (clicks s) i) as [x|] eqn:E.
        * exists m. repeat split; auto. rewrite tally_ok, (nth_firstn _ _ E). auto.
        * split.
          -- intros K. pose proof (clock_snoc _ _ K) as K'. rewrite (M K'). unfold kept. rewrite last_time_app, clicked_app. simpl. rewrite app_nil_r. auto.
          -- intros K. pose proof (clock_snoc _ _ K) as K'. rewrite <- (M K'). rewrite firstn_all2; auto. apply nth_error_None. auto.
    - intros _. reflexivity.
    - split; auto. intros before k r after E K. destruct (H1 _ _ _ _ E) as (r' & -> & g). specialize (g K). destruct k; congruence.
  Qed.

  Lemma clicks_never_raise programs schedule m a r :
    In (Click m a, r) (log (cps_run cutoff vectors (start pcode (list nat) new_cps programs) schedule)) -> r = Ok [].
  Proof.
    set (c := cps_run _ _ _ _). enough (I : (forall m a r, In (Click m a, r) (log c) -> r = Ok []) /\
      forall t m a code, current c t = Some (Click m a, code) -> match code with PAppend _ _ | PPeek _ | PPop _ => True | _ => False end) by (apply I).
    unfold c, cps_run. apply run_inv; [simpl; split; [tauto|discriminate]|]. clear. intros c t [I1 I2]. unfold turn. destruct (current c t) as [[k code]|] eqn:E.
    - assert (P : forall x, (forall m a, k = Click m a -> match x with PAppend _ _ | PPeek _ | PPop _ => True | _ => False end) ->
        forall u m a code0, put (current c) t (Some (k, x)) u = Some (Click m a, code0) -> match code0 with PAppend _ _ | PPeek _ | PPop _ => True | _ => False end).
      { intros x X u m a code0. destruct (Nat.eq_dec u t) as [->|N]; [rewrite put_eq|rewrite put_neq by auto; apply I2]. intros Y. injection Y as -> <-. exact (X _ _ eq_refl). }
      assert (Q : forall u m a code0, put (current c) t None u = Some (Click m a, code0) -> match code0 with PAppend _ _ | PPeek _ | PPop _ => True | _ => False end).
      { intros u m a code0. destruct (Nat.eq_dec u t) as [->|N]; [rewrite put_eq; discriminate|rewrite put_neq by auto; apply I2]. }
      assert (L : forall x, (forall m a, k = Click m a -> x = Ok []) -> forall m a r, In (Click m a, r) (log c ++ [(k, x)]) -> r = Ok []).
      { intros x X m a r I. apply in_app_iff in I. destruct I as [I|[I|[]]]; eauto. injection I as -> ->. eauto. }
      destruct code as [m a|m|m|m|cs v i counts]; simpl.
      + split; auto. apply P. auto.
      + destruct (clicks (shared c)) as [|x q]; [split; simpl; auto; apply L; auto|]. destruct (x <=? m - cutoff); split; simpl; auto; [apply P; auto|apply L; auto].
      + destruct (clicks (shared c)) as [|x q]; split; simpl; auto; [apply L; auto|apply P; auto].
      + split; simpl; auto. apply P. intros m' a' ->. destruct (I2 _ _ _ _ E).
      + assert (X : forall m a, k <> Click m a) by (intros m a ->; destruct (I2 _ _ _ _ E)). destruct (negb _); [split; simpl; auto; apply L; intros; exfalso; eapply X; eauto|].
        destruct (nth_error (clicks (shared c)) i); split; simpl; auto.
        * apply P. intros; exfalso; eapply X; eauto.
        * apply L. intros; exfalso; eapply X; eauto.
    - destruct (todo c t) as [|k r] eqn:D; [split; auto|]. split; simpl; auto. intros u m a code. destruct (Nat.eq_dec u t) as [->|N]; [rewrite put_eq|rewrite put_neq by auto; apply I2].
      intros X. injection X as -> <-. simpl. auto.
  Qed.

  Lemma clicks_made_of n programs schedule x : threads_below n programs ->
    let c := cps_run cutoff vectors (start pcode (list nat) new_cps programs) schedule in
    (count_occ Z.eq_dec (clicks (shared c)) x + count_occ Z.eq_dec (clicked (all_calls n (todo c))) x <= count_occ Z.eq_dec (clicked (all_calls n programs)) x)%nat.
  Proof.
    intros B c. pose (w := fun k => match k with Click _ a => if Z.eq_dec a x then 1 else 0 | Export _ => 0 end).
    assert (Wp : forall d, 0 <= w d) by (intros [m a|m]; unfold w; [destruct (Z.eq_dec a x)|]; lia).
    assert (W : forall l, total (map w l) = Z.of_nat (count_occ Z.eq_dec (clicked l) x)).
    { induction l as [|[m a|m] l IH]; auto; cbn [map total fold_right clicked flat_map app count_occ w]; unfold total, clicked in IH; rewrite IH; try destruct (Z.eq_dec a x); lia. }
    enough (0 <= Z.of_nat (count_occ Z.eq_dec (clicks (shared c)) x) /\
      Z.of_nat (count_occ Z.eq_dec (clicks (shared c)) x) + total (map w (all_calls n (todo c))) <= total (map w (all_calls n programs))) as [_ H].
    { rewrite !W in H. lia. }
    apply (@weigh _ _ _ _ pfirst (pexec cutoff vectors) w (fun a => match a with PAppend _ a => w (Click 0 a) | _ => 0 end)
      (fun s => Z.of_nat (count_occ Z.eq_dec (clicks s) x)) (fun _ _ => True)); auto.
    - intros [m a|m]; reflexivity.
    - intros [m a|m|m|m|cs v i counts] s b V _ Q; cbn [pexec].
      + cbn [clicks]. rewrite count_occ_app. cbn [w count_occ] in *. destruct (Z.eq_dec a x); repeat split; auto; lia.
      + destruct (clicks s) as [|y q] eqn:E; rewrite ?E; [lia|]. destruct (y <=? m - cutoff); rewrite ?E; [repeat split; auto; lia|lia].
      + destruct (clicks s) as [|y q] eqn:E; rewrite ?E; [lia|]. cbn [clicks count_occ] in *. destruct (Z.eq_dec y x); repeat split; auto; lia.
      + repeat split; auto; lia.
      + destruct (negb _); [lia|]. destruct (nth_error (clicks s) i); [repeat split; auto; lia|lia].
  Qed.
End Clicks.

(** ** families *)
Lemma nth_upd_eq {A : Type} (l : list A) i x d : (i < length l)%nat -> nth i (upd l i x) d = x.
Proof. intros L. apply nth_error_nth. apply nth_error_upd_eq. auto. Qed.
Lemma nth_upd_neq {A : Type} (l : list A) i j x d : i <> j -> nth j (upd l i x) d = nth j l d.
Proof. intros N. revert i j N. induction l as [|a l IH]; intros [|i] [|j] N; simpl; auto; try congruence. Qed.
Lemma dmem_get (d : dict nat nat) k : dmem Nat.eqb d k = true <-> exists i, dget Nat.eqb d k = Some i.
Proof. unfold dmem. destruct (dget Nat.eqb d k); split; eauto; try discriminate; intros [i E]; discriminate. Qed.

Definition found (s : family) (k : nat) (ch : list (nat * nat)) (o : option Z) : option Z :=
  fold_left (fun found e => if Nat.eqb (fst e) k then Some (value (nth (snd e) (made s) new_counter)) else found) ch o.
Lemma found_none s k ch : ~ In k (map fst ch) -> forall o, found s k ch o = o.
Proof.
  induction ch as [|[k' i] ch IH]; intros N o; auto. simpl in *. destruct (Nat.eqb_spec k' k) as [->|]; [tauto|]. apply IH. tauto.
Qed.
Lemma found_one s k i ch : NoDup (map fst ch) -> In (k, i) ch -> forall o, found s k ch o = Some (value (nth i (made s) new_counter)).
Proof.
  induction ch as [|[k' i'] ch IH]; intros N I o; [destruct I|]. simpl in N. inversion N as [|? ? N1 N2]; subst. simpl. destruct I as [I|I].
  - injection I as -> ->. rewrite Nat.eqb_refl. apply found_none. auto.
  - apply IH; auto.
Qed.
Lemma found_some s k ch : In k (map fst ch) -> forall o, found s k ch o <> None.
Proof.
  induction ch as [|[k' i] ch IH] using rev_ind; intros I o; [destruct I|]. unfold found in *. rewrite fold_left_app. simpl. rewrite map_app, in_app_iff in I. simpl in I.
  destruct (Nat.eqb_spec k' k); [discriminate|]. apply IH. destruct I as [I|[I|[]]]; auto; congruence.
Qed.
Lemma fed_snoc k L k' d : fed k (L ++ [(k', d)]) = if Nat.eqb k' k then fed k L ++ [d] else fed k L.
Proof. unfold fed. rewrite filter_app, map_app. simpl. destruct (Nat.eqb k' k); simpl; auto. apply app_nil_r. Qed.

Definition well (L : list (nat * Z)) (s : family) (ch : list (nat * nat)) : Prop :=
  NoDup (map fst ch) /\ NoDup (map snd ch) /\ (forall k i, dget Nat.eqb (mapping s) k = Some i <-> In (k, i) ch) /\
  (forall k i, In (k, i) ch -> (i < length (made s))%nat /\ value (nth i (made s) new_counter) = total (fed k L)).
Lemma in_key (ch : list (nat * nat)) k : In k (map fst ch) <-> exists i, In (k, i) ch.
Proof. rewrite in_map_iff. split; [intros ([k' i] & <- & I); eauto|intros [i I]; exists (k, i); auto]. Qed.
Lemma pair_fun (ch : list (nat * nat)) k k' i i' : NoDup (map fst ch) -> NoDup (map snd ch) -> In (k, i) ch -> In (k', i') ch -> (k = k' <-> i = i').
Proof.
  induction ch as [|[a b] ch IH]; intros N1 N2 I I'; [destruct I|]. simpl in *. inversion N1 as [|? ? A1 A2]; subst. inversion N2 as [|? ? B1 B2]; subst.
  destruct I as [I|I], I' as [I'|I']; auto.
  - injection I as -> ->. injection I' as -> ->. tauto.
  - injection I as -> ->. split; intros ->; exfalso; [apply A1|apply B1]; [apply (in_map fst) in I'|apply (in_map snd) in I']; auto.
  - injection I' as -> ->. split; intros <-; exfalso; [apply A1|apply B1]; [apply (in_map fst) in I|apply (in_map snd) in I]; auto.
Qed.

Lemma family_solo programs schedule : one_at_a_time ffirst fexec (start fcode unit new_family programs) schedule ->
  let c := family_run (start fcode unit new_family programs) schedule in
  (forall e, In e (log c) -> snd e = Ok tt) /\
  (idle c -> one_child_each (shared c) /\ forall k, exported (shared c) k = match fed k (ended c) with [] => None | l => Some (total l) end).
Proof.
  intros O. pose (F := fun L s => well L s (children s) /\ forall k, In k (map fst (children s)) <-> fed k L <> []).
  pose (mid := fun L (c : nat * Z) a s =>
    match a with
    | FFind k d => c = (k, d) /\ F L s
    | FMap k d i => c = (k, d) /\ F L s /\ ~ In k (map fst (children s)) /\ ~ In i (map snd (children s)) /\ (i < length (made s))%nat /\ value (nth i (made s) new_counter) = 0
    | FChild k d i => c = (k, d) /\ well L s (children s ++ [(k, i)]) /\ (forall k', In k' (map fst (children s)) <-> fed k' L <> [])
    | FGet k d => c = (k, d) /\ well L s (children s) /\ (forall k', In k' (map fst (children s)) <-> fed k' L <> [] \/ k' = k)
    | FIn i a => (forall k', In k' (map fst (children s)) <-> fed k' L <> [] \/ k' = fst c) /\ In (fst c, i) (children s) /\
      match a with
      | CReadValue d => d = snd c /\ well L s (children s)
      | CWriteValue d v => d = snd c /\ v = total (fed (fst c) L) /\ well L s (children s)
      | _ => well (L ++ [c]) s (children s)
      end
    end).
  assert (Keys : forall L (c : nat * Z) (ch : list (nat * nat)), (forall k', In k' (map fst ch) <-> fed k' L <> [] \/ k' = fst c) -> forall k', In k' (map fst ch) <-> fed k' (L ++ [c]) <> []).
  { intros L [k d] ch H k'. rewrite H, fed_snoc. simpl. destruct (Nat.eqb_spec k k') as [->|N]; [|firstorder congruence]. split; [|tauto]. intros _ E. destruct (fed k' L); discriminate. }
  destruct (@solo_start _ _ _ _ ffirst fexec F mid (fun _ _ _ => True)) with (s := new_family) (programs := programs) (schedule := schedule) as [H1 H2]; auto.
  - intros L [k d] s H. simpl. auto.
  - intros L c a s M. destruct a as [k d|k d i|k d i|k d|i a]; cbn [fexec].
    + destruct M as [-> [M1 M2]]. destruct (dmem Nat.eqb (mapping s) k) eqn:E.
      * simpl. split; auto. split; auto. intros k'. rewrite M2. split; auto. intros [X|X]; auto. subst k'. apply M2. apply dmem_get in E. destruct E as [i E]. apply M1 in E. apply in_key. eauto.
      * simpl. destruct M1 as (W1 & W2 & W3 & W4). split; auto. split; [split|split; [|split; [|split]]]; simpl.
        -- split; auto. split; auto. split; auto. intros k0 i0 I. simpl. destruct (W4 _ _ I) as [X Y]. rewrite app_length, app_nth1; auto. simpl. split; auto. lia.
        -- auto.
        -- intros I. apply in_key in I. destruct I as [i I]. apply W3 in I. assert (dmem Nat.eqb (mapping s) k = true) by (apply dmem_get; eauto). congruence.
        -- intros I. apply in_map_iff in I. destruct I as ([k0 i0] & X & I). simpl in X. subst i0. apply W4 in I. lia.
        -- rewrite app_length. simpl. lia.
        -- rewrite app_nth2, Nat.sub_diag; auto.
    + destruct M as (-> & [(W1 & W2 & W3 & W4) M2] & M3 & M4 & M5 & M6). simpl. split; auto. split; auto. split; [|split; [|split]]; simpl.
      * rewrite map_app. apply NoDup_app_intro; auto; [repeat constructor; auto|]. intros x X [<-|[]]. auto.
      * rewrite map_app. apply NoDup_app_intro; auto; [repeat constructor; auto|]. intros x X [<-|[]]. auto.
      * intros k0 i0. rewrite in_app_iff. simpl. destruct (Nat.eq_dec k0 k) as [->|N].
        -- rewrite (dget_dset_eq nateqb_ok). split; [intros X; injection X as ->; auto|]. intros [X|[X|[]]]; [|congruence]. exfalso. apply M3. apply in_key. eauto.
        -- rewrite (dget_dset_neq nateqb_ok) by auto. rewrite W3. split; auto. intros [X|[X|[]]]; auto. congruence.
      * intros k0 i0. rewrite in_app_iff. intros [X|[X|[]]]; auto. injection X as <- <-. split; auto. rewrite M6. destruct (fed k L) eqn:E; auto. exfalso. apply M3. apply M2. rewrite E. discriminate.
    + destruct M as (-> & M & K). simpl. split; auto. split; [exact M|]. intros k'. rewrite map_app, in_app_iff, K. simpl. split; [intros [X|[X|[]]]; auto|intros [X|X]; auto].
    + destruct M as (-> & M & K). destruct (dget Nat.eqb (mapping s) k) as [i|] eqn:E.
      * simpl. split; auto. split; auto. apply M. auto.
      * assert (I : In k (map fst (children s))) by (apply K; auto). apply in_key in I. destruct I as [i I]. destruct M as (_ & _ & W3 & _). apply W3 in I. congruence.
    + destruct M as (K & I & M). destruct c as [k0 d0]. simpl in K, I, M. destruct a as [d|d v| |m]; simpl in *.
      * destruct M as [-> M]. destruct M as (W1 & W2 & W3 & W4). destruct (W4 _ _ I) as [X Y]. split; auto. split; auto. split; auto. split; auto. rewrite upd_same; [split; auto|].
        rewrite (nth_error_nth' _ new_counter X). auto.
      * destruct M as (-> & -> & W1 & W2 & W3 & W4). split; auto. split; auto. split; auto. split; auto. split; auto. intros k1 i1 I1. simpl. destruct (W4 _ _ I1) as [X Y]. rewrite upd_length. split; auto.
        rewrite fed_snoc. pose proof (@pair_fun (children s) k0 k1 i i1 W1 W2 I I1) as PF. destruct (Nat.eqb_spec k0 k1) as [->|N].
        -- assert (E : i = i1) by (apply PF; auto). subst i1. rewrite nth_upd_eq; auto. simpl. rewrite total_app. simpl. lia.
        -- rewrite nth_upd_neq; auto. intros E. apply N. apply PF. auto.
      * split; auto. split; auto. destruct M as (W1 & W2 & W3 & W4). destruct (W4 _ _ I) as [X Y]. rewrite upd_same; [split; auto|]. rewrite (nth_error_nth' _ new_counter X). auto.
      * split; auto. split; simpl.
        -- destruct M as (W1 & W2 & W3 & W4). split; auto. split; auto. split; auto. intros k1 i1 I1. simpl. destruct (W4 _ _ I1) as [X Y]. rewrite upd_length. split; auto. destruct (Nat.eq_dec i i1) as [->|N].
           ++ rewrite nth_upd_eq; auto.
           ++ rewrite nth_upd_neq; auto.
        -- intros k'. apply (Keys L (k0, d0)). auto.
  - split; [|simpl; tauto]. split; [constructor|]. split; [constructor|]. split; simpl; [|tauto]. intros k i. split; [discriminate|tauto].
  - split.
    + intros [k r] I. apply in_split in I. destruct I as (l1 & l2 & I). destruct (H1 _ _ _ _ I) as ([] & -> & _). auto.
    + intros I. destruct (H2 I) as [(W1 & W2 & W3 & W4) K]. split; [split; auto|]. intros k. change (exported ?s k) with (found s k (children s) None).
      destruct (fed k _) as [|x l] eqn:E.
      * apply found_none. intros X. apply K in X. apply X. exact E.
      * assert (X : In k (map fst (children (shared (run ffirst fexec (start fcode unit new_family programs) schedule))))) by (apply K; intros Y; unfold family_run in E; rewrite Y in E; discriminate).
        apply in_key in X. destruct X as [i X]. unfold exported. change (found (shared (run ffirst fexec (start fcode unit new_family programs) schedule)) k (children (shared (run ffirst fexec (start fcode unit new_family programs) schedule))) None = Some (total (x :: l))).
        rewrite (@found_one _ k i _ W1 X). destruct (W4 _ _ X) as [_ ->]. f_equal. f_equal. exact E.
Qed.

Lemma family_any programs schedule :
  let c := family_run (start fcode unit new_family programs) schedule in
  (forall e, In e (log c) -> snd e = Ok tt) /\ (idle c -> forall k, In k (map fst (ended c)) -> exported (shared c) k <> None).
Proof.
  intros c. enough (I : (forall e, In e (log c) -> snd e = Ok tt) /\ (forall e, In e (log c) -> dmem Nat.eqb (mapping (shared c)) (fst (fst e)) = true) /\
    (forall k, dmem Nat.eqb (mapping (shared c)) k = true -> In k (map fst (children (shared c))) \/ exists t d i x, current c t = Some (x, FChild k d i)) /\
    (forall t x a, current c t = Some (x, a) -> match a with FFind k _ | FMap k _ _ => k = fst x | FChild k _ _ | FGet k _ => k = fst x /\ dmem Nat.eqb (mapping (shared c)) (fst x) = true | FIn _ _ => dmem Nat.eqb (mapping (shared c)) (fst x) = true end)).
  { destruct I as (I1 & I2 & I3 & I4). split; auto. intros Id k K. unfold ended in K. rewrite map_map in K. apply in_map_iff in K. destruct K as (e & <- & K). apply I2 in K. apply I3 in K.
    destruct K as [K|(t & d & i & x & E)]; [apply found_some; auto|rewrite Id in E; discriminate]. }
  unfold c, family_run. apply run_inv; [simpl; repeat split; try tauto; try discriminate|]. clear. intros c t (I1 & I2 & I3 & I4). unfold turn. destruct (current c t) as [[x a]|] eqn:E.
  - pose proof (I4 _ _ _ E) as A.
    assert (Keep : forall (x' : (nat * Z) * fcode) (o : option ((nat * Z) * fcode)) k, (forall k d i, a <> FChild k d i) -> (exists t d i x, current c t = Some (x, FChild k d i)) -> exists u d i x, put (current c) t o u = Some (x, FChild k d i)).
    { intros _ o k NF (u & d & i & y & U). exists u, d, i, y. rewrite put_neq; auto. intros ->. rewrite E in U. injection U as <- ->. eapply NF; eauto. }
    destruct a as [k d|k d i|k d i|k d|i a]; cbn [fexec].
    + destruct (dmem Nat.eqb (mapping (shared c)) k) eqn:D; simpl.
      * repeat split; auto.
        -- intros k' K. apply I3 in K. destruct K as [K|K]; auto. right. apply (Keep (x, FGet k d)); auto. discriminate.
        -- intros u y a. destruct (Nat.eq_dec u t) as [->|N]; [rewrite put_eq|rewrite put_neq by auto; apply I4]. intros X. injection X as <- <-. subst k. auto.
      * repeat split; auto.
        -- intros k' K. apply I3 in K. destruct K as [K|K]; auto. right. apply (Keep (x, FGet k d)); auto. discriminate.
        -- intros u y a. destruct (Nat.eq_dec u t) as [->|N]; [rewrite put_eq|rewrite put_neq by auto; apply I4]. intros X. injection X as <- <-. auto.
    + simpl. assert (Mono : forall k', dmem Nat.eqb (mapping (shared c)) k' = true -> dmem Nat.eqb (dset Nat.eqb (mapping (shared c)) k i) k' = true).
      { intros k' K. apply dmem_get in K. apply dmem_get. destruct (Nat.eq_dec k' k) as [->|N]; [rewrite (dget_dset_eq nateqb_ok)|rewrite (dget_dset_neq nateqb_ok) by auto]; eauto. }
      assert (New : dmem Nat.eqb (dset Nat.eqb (mapping (shared c)) k i) k = true) by (apply dmem_get; rewrite (dget_dset_eq nateqb_ok); eauto).
      split; auto. split; auto. split.
      * intros k' K. destruct (Nat.eq_dec k' k) as [->|N].
        -- right. exists t, d, i, x. rewrite put_eq. auto.
        -- assert (K' : dmem Nat.eqb (mapping (shared c)) k' = true) by (apply dmem_get in K; apply dmem_get; rewrite (dget_dset_neq nateqb_ok) in K by auto; auto).
           apply I3 in K'. destruct K' as [K'|K']; auto. right. apply (Keep (x, FGet k d)); auto. discriminate.
      * intros u y a. destruct (Nat.eq_dec u t) as [->|N]; [rewrite put_eq|rewrite put_neq by auto].
        -- intros X. injection X as <- <-. subst k. auto.
        -- intros X. apply I4 in X. destruct a; auto; destruct X; auto.
    + simpl. destruct A as [-> A]. split; auto. split; auto. split.
      * intros k' K. rewrite map_app, in_app_iff. simpl. apply I3 in K. destruct K as [K|(u & d' & i' & y & U)]; auto. destruct (Nat.eq_dec u t) as [->|N].
        -- rewrite E in U. injection U as <- <- <- <-. auto.
        -- right. exists u, d', i', y. rewrite put_neq; auto.
      * intros u y a. destruct (Nat.eq_dec u t) as [->|N]; [rewrite put_eq|rewrite put_neq by auto; apply I4]. intros X. injection X as <- <-. auto.
    + destruct A as [-> A]. pose proof A as A'. apply dmem_get in A'. destruct A' as [i ->]. simpl. split; auto. split; auto. split.
      * intros k' K. apply I3 in K. destruct K as [K|K]; auto. right. apply (Keep (x, FGet 0%nat d)); auto. discriminate.
      * intros u y a. destruct (Nat.eq_dec u t) as [->|N]; [rewrite put_eq|rewrite put_neq by auto; apply I4]. intros X. injection X as <- <-. auto.
    + destruct (cexec a (nth i (made (shared c)) new_counter)) as [s n] eqn:Cx. assert (nr : forall e, n <> Raised e) by (intros e ->; destruct a; discriminate). destruct n as [a'|[]|e]; [| |destruct (nr e); auto]; simpl.
      * split; auto. split; auto. split.
        -- intros k' K. apply I3 in K. destruct K as [K|K]; auto. right. apply (Keep (x, FGet 0%nat 0)); auto. discriminate.
        -- intros u y a0. destruct (Nat.eq_dec u t) as [->|N]; [rewrite put_eq|rewrite put_neq by auto; apply I4]. intros X. injection X as <- <-. auto.
      * split; [intros e I; apply in_app_iff in I; destruct I as [I|[<-|[]]]; auto|]. split; [intros e I; apply in_app_iff in I; destruct I as [I|[<-|[]]]; auto|]. split.
        -- intros k' K. apply I3 in K. destruct K as [K|K]; auto. right. apply (Keep (x, FGet 0%nat 0)); auto. discriminate.
        -- intros u y a0. destruct (Nat.eq_dec u t) as [->|N]; [rewrite put_eq; discriminate|rewrite put_neq by auto; apply I4].
  - destruct (todo c t) as [|k r] eqn:D; [repeat split; auto|]. simpl. split; auto. split; auto. split.
    + intros k' K. apply I3 in K. destruct K as [K|(u & d' & i' & y & U)]; auto. right. exists u, d', i', y. rewrite put_neq; auto. intros ->. congruence.
    + intros u y a0. destruct (Nat.eq_dec u t) as [->|N]; [rewrite put_eq|rewrite put_neq by auto; apply I4]. intros X. injection X as <- <-. simpl. auto.
Qed.

Lemma family_known s programs schedule : (forall t e, In e (programs t) -> dmem Nat.eqb (mapping s) (fst e) = true) ->
  let c := family_run (start fcode unit s programs) schedule in
  mapping (shared c) = mapping s /\ children (shared c) = children s /\ length (made (shared c)) = length (made s).
Proof.
  intros P c. enough (I : (forall t e, In e (todo c t) -> dmem Nat.eqb (mapping s) (fst e) = true) /\
    (forall t x a, current c t = Some (x, a) -> match a with FFind k _ => dmem Nat.eqb (mapping s) k = true | FGet _ _ | FIn _ _ => True | _ => False end) /\
    mapping (shared c) = mapping s /\ children (shared c) = children s /\ length (made (shared c)) = length (made s)) by tauto.
  unfold c, family_run. apply run_inv; [simpl; repeat split; auto; discriminate|]. clear P c. intros c t (I1 & I2 & I3 & I4 & I5). unfold turn. destruct (current c t) as [[x a]|] eqn:E.
  - pose proof (I2 _ _ _ E) as A. destruct a as [k d|k d i|k d i|k d|i a]; cbn [fexec]; try tauto.
    + rewrite I3, A. simpl. split; auto. split; auto. intros u y a. destruct (Nat.eq_dec u t) as [->|N]; [rewrite put_eq|rewrite put_neq by auto; apply I2]. intros X. injection X as <- <-. auto.
    + destruct (dget Nat.eqb (mapping (shared c)) k) as [i|]; simpl; (split; [auto|]); (split; [|auto]).
      * intros u y a. destruct (Nat.eq_dec u t) as [->|N]; [rewrite put_eq|rewrite put_neq by auto; apply I2]. intros X. injection X as <- <-. auto.
      * intros u y a. destruct (Nat.eq_dec u t) as [->|N]; [rewrite put_eq; discriminate|rewrite put_neq by auto; apply I2].
    + destruct (cexec a (nth i (made (shared c)) new_counter)) as [s' n]. destruct n as [a'|r|e]; simpl; rewrite ?upd_length; (split; [auto|]); (split; [|auto]).
      * intros u y a0. destruct (Nat.eq_dec u t) as [->|N]; [rewrite put_eq|rewrite put_neq by auto; apply I2]. intros X. injection X as <- <-. auto.
      * intros u y a0. destruct (Nat.eq_dec u t) as [->|N]; [rewrite put_eq; discriminate|rewrite put_neq by auto; apply I2].
      * intros u y a0. destruct (Nat.eq_dec u t) as [->|N]; [rewrite put_eq; discriminate|rewrite put_neq by auto; apply I2].
  - destruct (todo c t) as [|k r] eqn:D; [split; auto|]. simpl. split; [|split; [|auto]].
    + intros u e. destruct (Nat.eq_dec u t) as [->|N]; [rewrite put_eq|rewrite put_neq by auto; apply I1]. intros X. apply (I1 t). rewrite D. right. auto.
    + intros u y a0. destruct (Nat.eq_dec u t) as [->|N]; [rewrite put_eq|rewrite put_neq by auto; apply I2]. intros X. injection X as <- <-. simpl. apply (I1 t). rewrite D. left. auto.
Qed.
