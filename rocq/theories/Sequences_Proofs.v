(** Proofs about the sequence helpers. *)
From Verif Require Import Prelude PreludeFacts MoreFacts Order_Spec PySeq_Model PyGen_Model Sequences_Model Sequences_Spec.

(** ** group_quantity *)
Lemma grouping_nil {T} n : is_grouping n (@nil T) [].
Proof. split; auto. intros [|] g a H; discriminate. Qed.

Lemma grouping_cons {T} n (g l : list T) gs :
  1 <= length g <= n -> (gs <> [] -> length g = n) -> is_grouping n l gs -> is_grouping n (g ++ l) (g :: gs).
Proof.
  intros Hg Hn [Hc Hi]. split; [simpl; congruence|].
  intros [|b before] g' after E; simpl in E; inversion E; subst.
  - split; auto.
  - eapply Hi; eauto.
Qed.

Lemma grouping_tail {T} n (g l : list T) gs : is_grouping n l (g :: gs) ->
  1 <= length g <= n /\ (gs <> [] -> length g = n) /\ l = g ++ concat gs /\ is_grouping n (concat gs) gs.
Proof.
  intros [Hc Hi]. destruct (Hi [] g gs eq_refl) as [H1 H2]. split; auto. split; auto. split; [auto|].
  split; auto. intros b g' a E. apply (Hi (g :: b) g' a). simpl. congruence.
Qed.

Lemma grouping_lastly {T} n (g : list T) gs : is_grouping n (concat (g :: gs)) (g :: gs) -> gs = [] -> length g <= n.
Proof. intros H _. destruct (grouping_tail _ _ _ _ H) as [H1 _]. lia. Qed.

Lemma concat_nonempty {T} n (gs : list (list T)) : is_grouping n (concat gs) gs -> gs <> [] -> concat gs <> [].
Proof.
  intros H Hn. destruct gs as [|g gs]; [congruence|].
  destruct (grouping_tail _ _ _ _ H) as [H1 _]. destruct g; simpl in *; [lia|discriminate].
Qed.

Lemma grouping_unique {T} n (gs gs' : list (list T)) l : is_grouping n l gs -> is_grouping n l gs' -> gs = gs'.
Proof.
  revert gs' l. induction gs as [|g gs IH]; intros gs' l H H'.
  - destruct gs' as [|g' gs']; auto. destruct H as [Hc _]. simpl in Hc. subst l.
    destruct (grouping_tail _ _ _ _ H') as [H1 [_ [E _]]]. destruct g'; simpl in *; [lia|discriminate].
  - destruct (grouping_tail _ _ _ _ H) as [H1 [H2 [E H3]]].
    destruct gs' as [|g' gs'].
    { destruct H' as [Hc _]. simpl in Hc. subst l. destruct g; simpl in *; [lia|discriminate]. }
    destruct (grouping_tail _ _ _ _ H') as [H1' [H2' [E' H3']]].
    assert (Hl : length g = length g').
    { assert (L : length g + length (concat gs) = length g' + length (concat gs')).
      { rewrite <- !app_length. congruence. }
      destruct gs as [|a gs]; destruct gs' as [|a' gs'].
      - simpl in L. lia.
      - assert (length g' = n) by (apply H2'; discriminate).
        pose proof (concat_nonempty _ _ H3') as Hne.
        destruct (concat (a' :: gs')) eqn:Ec; [exfalso; apply Hne; [discriminate|auto]|].
        cbn in L. lia.
      - assert (length g = n) by (apply H2; discriminate).
        pose proof (concat_nonempty _ _ H3) as Hne.
        destruct (concat (a :: gs)) eqn:Ec; [exfalso; apply Hne; [discriminate|auto]|].
        cbn in L. lia.
      - rewrite H2, H2'; auto; discriminate. }
    assert (Eg : g = g').
    { assert (X : firstn (length g) l = firstn (length g') l) by congruence.
      rewrite E in X at 1. rewrite E' in X. rewrite !firstn_app, !Nat.sub_diag, !firstn_all in X.
      simpl in X. rewrite !app_nil_r in X. auto. }
    subst g'. f_equal. apply (IH gs' (concat gs)); auto.
    rewrite E in E'. apply app_inv_head in E'. rewrite E'. auto.
Qed.

Lemma group_iter_ok {T} (n : nat) : 1 <= n -> forall (l entries : list T), length entries <= n ->
  ends (group_iter (Z.of_nat n) entries l) = None /\
  is_grouping n (entries ++ l) (map fst (yields (group_iter (Z.of_nat n) entries l))).
Proof.
  intros Hn. induction l as [|e t IH]; intros entries He; simpl.
  - destruct entries as [|x en]; simpl.
    + split; auto. apply grouping_nil.
    + split; auto. apply (grouping_cons n (x :: en) []); [simpl in *; lia|congruence|apply grouping_nil].
  - destruct (Z.eqb_spec (Z.of_nat (length entries)) (Z.of_nat n)) as [E|E]; simpl.
    + destruct (IH [e]) as [I1 I2]; [simpl; lia|]. split; auto.
      change (entries ++ e :: t) with (entries ++ [e] ++ t).
      apply grouping_cons; auto; lia.
    + destruct (IH (entries ++ [e])) as [I1 I2]; [rewrite app_length; simpl; lia|].
      split; auto. rewrite <- app_assoc in I2. auto.
Qed.

Lemma group_seq_ok {T} (n : nat) (s : list T) : 1 <= n -> forall fuel k, 0 < fuel -> length s < fuel + k ->
  ends (group_seq fuel (Z.of_nat n) s (Z.of_nat k)) = None /\
  is_grouping n (skipn k s) (map fst (yields (group_seq fuel (Z.of_nat n) s (Z.of_nat k)))).
Proof.
  intros Hn. induction fuel as [|f IH]; intros k H0 Hk; [lia|]. cbn [group_seq].
  destruct (Z.ltb_spec (Z.of_nat k) (Z.of_nat (length s))) as [L|L]; cbn [gyield gstop ends yields map fst].
  - destruct (IH (k + n)) as [I1 I2]; [lia|lia|].
    rewrite Nat2Z.inj_add in I1, I2. split; [exact I1|].
    assert (Es : py_slice s (Some (Z.of_nat k)) (Some (Z.of_nat k + Z.of_nat n)%Z) = firstn n (skipn k s)).
    { unfold py_slice, slice_start, slice_stop, slice_bound.
      destruct (Z.ltb_spec (Z.of_nat k) 0); [lia|]. destruct (Z.ltb_spec (Z.of_nat k + Z.of_nat n) 0); [lia|].
      rewrite <- Nat2Z.inj_add, !Nat2Z.id. rewrite (Nat.min_l k) by lia.
      destruct (Nat.le_gt_cases (k + n) (length s)).
      - rewrite Nat.min_l by lia. f_equal. lia.
      - rewrite Nat.min_r by lia. rewrite !firstn_all2; auto; rewrite skipn_length; lia. }
    rewrite Es.
    rewrite <- (firstn_skipn n (skipn k s)) at 1.
    assert (Hsk : skipn n (skipn k s) = skipn (k + n) s).
    { clear. revert s. induction k; intros s; [reflexivity|]. destruct s; simpl; [apply skipn_nil|apply IHk]. }
    rewrite Hsk. apply grouping_cons; auto.
    + rewrite firstn_length, skipn_length. lia.
    + intros Hne. rewrite firstn_length, skipn_length.
      destruct (Nat.le_gt_cases n (length s - k)); [lia|].
      exfalso. apply Hne. rewrite skipn_all2 in I2 by lia. destruct I2 as [Ic Ii].
      destruct (map fst (yields (group_seq f (Z.of_nat n) s (Z.of_nat k + Z.of_nat n)%Z))) as [|g gs] eqn:Eg; auto.
      destruct (Ii [] g gs eq_refl) as [? _]. destruct g; simpl in *; [lia|discriminate].
  - split; auto. rewrite skipn_all2 by lia. apply grouping_nil.
Qed.

Lemma group_quantity_ok {T} (b : bool) (n : nat) (l : list T) : 1 <= n ->
  exists gs, gen_list (group_quantity b (Z.of_nat n) l) = Ok gs /\ is_grouping n l gs.
Proof.
  intros Hn. unfold group_quantity, gen_list. destruct b.
  - destruct (group_seq_ok n l Hn (S (length l)) 0) as [H1 H2]; [lia|lia|].
    change (Z.of_nat 0) with 0%Z in *. simpl skipn in H2. rewrite H1. eauto.
  - destruct (group_iter_ok n Hn l [] (Nat.le_0_l _)) as [H1 H2]. rewrite H1. eauto.
Qed.

Lemma group_agree {T} (n : nat) (l : list T) : 1 <= n ->
  gen_list (group_quantity true (Z.of_nat n) l) = gen_list (group_quantity false (Z.of_nat n) l).
Proof.
  intros Hn. destruct (group_quantity_ok true n l Hn) as [g1 [E1 G1]].
  destruct (group_quantity_ok false n l Hn) as [g2 [E2 G2]].
  rewrite E1, E2. f_equal. eapply grouping_unique; eauto.
Qed.

(** laziness: one element ahead of what has been yielded, at most *)
Lemma group_iter_lazy {T} len : forall (l entries : list T) before g r after,
  yields (group_iter len entries l) = before ++ (g, r) :: after ->
  exists ahead, entries ++ l = concat (map fst before) ++ g ++ ahead ++ r /\ length ahead <= 1.
Proof.
  induction l as [|e t IH]; intros entries before g r after; simpl.
  - destruct entries as [|x en]; simpl.
    + destruct before; discriminate.
    + destruct before as [|b before]; simpl; intros E; inversion E; subst.
      * exists []. simpl. rewrite app_nil_r. split; auto.
      * destruct before; discriminate.
  - destruct (Z.of_nat (length entries) =? len)%Z.
    + simpl. destruct before as [|b before]; simpl; intros E; inversion E; subst.
      * exists [e]. simpl. auto.
      * destruct (IH [e] before g r after H1) as [ahead [Ha La]]. exists ahead.
        simpl in *. split; auto. rewrite <- !app_assoc. rewrite <- Ha. auto.
    + intros E. destruct (IH _ before g r after E) as [ahead [Ha La]].
      exists ahead. rewrite <- app_assoc in Ha. auto.
Qed.

Lemma group_seq_diverges {T} (len : Z) (s : list T) : (len <= 0)%Z ->
  forall fuel i, (i < Z.of_nat (length s))%Z -> ends (group_seq fuel len s i) = Some Diverges.
Proof.
  intros Hl. induction fuel as [|f IH]; intros i Hi; cbn [group_seq]; auto.
  destruct (Z.ltb_spec i (Z.of_nat (length s))); [|lia]. cbn. apply IH. lia.
Qed.

(** ** is_last and add_next *)
Lemma is_last_loop_ok {T} (l : list T) : forall x,
  ends (is_last_loop x l) = None /\
  described (map fst (yields (is_last_loop x l))) (S (length l)) (flagged (x :: l)) /\
  (forall k b r, nth_error (yields (is_last_loop x l)) k = Some (b, r) -> r = skipn (S k) l).
Proof.
  induction l as [|y t IH]; intros x; simpl.
  - split; auto. split; [split; auto|].
    + intros [|i] Hi; [reflexivity|lia].
    + intros [|k] b r H; simpl in H; [congruence|destruct k; discriminate].
  - destruct (IH y) as [I1 [[I2 I3] I4]]. split; auto. split; [split|].
    + simpl. f_equal. auto.
    + intros [|i] Hi; simpl; auto. rewrite I3 by (simpl; lia). unfold flagged. simpl. reflexivity.
    + intros [|k] b r H; simpl in H; [inversion H; auto|]. apply I4 in H. subst. reflexivity.
Qed.

Lemma is_last_ok {T} (l : list T) : l <> [] ->
  ends (is_last l) = None /\
  described (map fst (yields (is_last l))) (length l) (flagged l) /\
  (forall k b r, nth_error (yields (is_last l)) k = Some (b, r) -> r = skipn (S (S k)) l).
Proof. destruct l as [|x t]; [congruence|]. intros _. apply is_last_loop_ok. Qed.

Lemma add_next_loop_ok {T} w s (l : list T) : forall f x,
  let n := length l + (if negb w && s then 0 else 1) in
  let g := add_next_loop w s f x l in
  ends g = None /\
  described (map fst (yields g)) n (with_next (x :: l) (if w then Some f else None)) /\
  (forall k b r, nth_error (yields g) k = Some (b, r) -> r = skipn (S k) l).
Proof.
  induction l as [|y t IH]; intros f x; simpl.
  - destruct w; [|destruct s]; simpl; (split; [reflexivity|]); (split; [split; [reflexivity|]|]);
      try (intros [|i] Hi; [reflexivity|lia]); try (intros i Hi; lia);
      try (intros [|k] b r H; simpl in H; [congruence|destruct k; discriminate]).
  - destruct (IH f y) as [I1 [[I2 I3] I4]]. split; auto. split; [split|].
    + simpl. f_equal. auto.
    + intros [|i] Hi; [reflexivity|]. simpl. rewrite I3 by lia. reflexivity.
    + intros [|k] b r H; simpl in H; [inversion H; auto|]. apply I4 in H. subst. reflexivity.
Qed.

Lemma add_next_ok {T} w s (l : list T) :
  let n := length l - (if negb w && s then 1 else 0) in
  ends (add_next w s l) = None /\
  described (map fst (yields (add_next w s l))) n (with_next l (if w then hd_error l else None)) /\
  (forall k b r, nth_error (yields (add_next w s l)) k = Some (b, r) -> r = skipn (S (S k)) l).
Proof.
  destruct l as [|x t].
  - cbn. split; auto. split; [split; auto; intros i Hi; destruct (negb w && s); lia|].
    intros [|k] b r H; discriminate.
  - pose proof (add_next_loop_ok w s t x x) as H. cbn zeta in *. unfold add_next.
    replace (length (x :: t) - (if negb w && s then 1 else 0))
      with (length t + (if negb w && s then 0 else 1)) by (simpl; destruct (negb w && s); lia).
    destruct w; exact H.
Qed.

(** ** half_cartesian *)
Fixpoint half_pos_inner (same : bool) (i j n : nat) : list (nat * nat) :=
  match n with
  | O => []
  | S n' => (if (if same then Nat.leb i j else Nat.ltb i j) then [(i, j)] else []) ++ half_pos_inner same i (S j) n'
  end.
Fixpoint half_pos (same : bool) (m i n : nat) : list (nat * nat) :=
  match n with O => [] | S n' => half_pos_inner same i 0 m ++ half_pos same m (S i) n' end.

Lemma half_inner_pos {T} same (s : list T) i x : nth_error s i = Some x ->
  forall l j, skipn j s = l ->
  map Some (half_inner same i x j l) = map (at_positions s) (half_pos_inner same i j (length l)).
Proof.
  intros Hx. induction l as [|y t IH]; intros j Hj; simpl; auto.
  assert (Hn : nth_error s j = Some y /\ skipn (S j) s = t).
  { rewrite skipn_nth in Hj. destruct (nth_error s j); inversion Hj; auto. }
  destruct Hn as [Hn Hs]. rewrite !map_app, IH by auto. f_equal.
  destruct same; [destruct (Nat.leb i j)|destruct (Nat.ltb i j)]; simpl; auto;
    unfold at_positions; simpl; rewrite Hx, Hn; auto.
Qed.

Lemma half_outer_pos {T} same (s : list T) : forall l i, skipn i s = l ->
  map Some (half_outer same s i l) = map (at_positions s) (half_pos same (length s) i (length l)).
Proof.
  induction l as [|x t IH]; intros i Hi; simpl; auto.
  assert (Hn : nth_error s i = Some x /\ skipn (S i) s = t).
  { rewrite skipn_nth in Hi. destruct (nth_error s i); inversion Hi; auto. }
  destruct Hn as [Hn Hs]. rewrite !map_app, IH by auto. f_equal.
  apply half_inner_pos; auto.
Qed.

Lemma half_pos_inner_In same i n : forall j a b,
  In (a, b) (half_pos_inner same i j n) <-> a = i /\ j <= b < j + n /\ (if same then a <= b else a < b).
Proof.
  induction n as [|n IH]; intros j a b; cbn [half_pos_inner].
  - simpl. split; [tauto|lia].
  - rewrite in_app_iff, IH. split.
    + intros [H|H].
      * destruct same; [destruct (Nat.leb_spec i j)|destruct (Nat.ltb_spec i j)];
          simpl in H; try contradiction; destruct H as [H|H]; try contradiction; inversion H; subst; lia.
      * destruct same; lia.
    + intros [-> [H1 H2]].
      destruct (Nat.eq_dec b j) as [->|D].
      * left. destruct same; [destruct (Nat.leb_spec i j)|destruct (Nat.ltb_spec i j)]; simpl; auto; lia.
      * right. destruct same; lia.
Qed.

Lemma half_pos_In same m n : forall i a b,
  In (a, b) (half_pos same m i n) <-> i <= a < i + n /\ b < m /\ (if same then a <= b else a < b).
Proof.
  induction n as [|n IH]; intros i a b; cbn [half_pos].
  - simpl. split; [tauto|lia].
  - rewrite in_app_iff, IH, half_pos_inner_In. destruct same; split; lia.
Qed.

Lemma inc_app (l1 l2 : list (nat * nat)) : increasing l1 -> increasing l2 ->
  (forall p q, In p l1 -> In q l2 -> pos_lt p q) -> increasing (l1 ++ l2).
Proof.
  intros H1 H2 H. induction H1 as [|p|p q l Hpq Hl IH]; simpl; auto.
  - destruct l2 as [|q l2]; [constructor|]. constructor; auto. apply H; simpl; auto.
  - constructor; auto. apply IH. intros a b Ha Hb. apply H; simpl in *; tauto.
Qed.

Lemma half_pos_inner_inc same i n : forall j, increasing (half_pos_inner same i j n).
Proof.
  induction n as [|n IH]; intros j; cbn [half_pos_inner]; [constructor|].
  apply inc_app; auto.
  - match goal with |- increasing (if ?c then _ else _) => destruct c end; constructor.
  - intros p [a b] Hp Hq. apply half_pos_inner_In in Hq.
    match goal with H : In p (if ?c then _ else _) |- _ => destruct c end; simpl in Hp; [|contradiction]; destruct Hp as [Hp|Hp]; [|contradiction]; subst p.
    right. simpl. lia.
Qed.

Lemma half_pos_inc same m n : forall i, increasing (half_pos same m i n).
Proof.
  induction n as [|n IH]; intros i; cbn [half_pos]; [constructor|].
  apply inc_app; auto; [apply half_pos_inner_inc|].
  intros [a b] [c d] Hp Hq. apply half_pos_inner_In in Hp. apply half_pos_In in Hq. left. simpl. lia.
Qed.

Lemma half_cartesian_ok {T} (l : list T) same : is_half_square same l (half_cartesian l same).
Proof.
  exists (half_pos same (length l) 0 (length l)). split; [apply half_pos_inc|]. split.
  - intros i j. rewrite half_pos_In. split; intros; lia || (destruct same; lia).
  - unfold half_cartesian. apply half_outer_pos. reflexivity.
Qed.

Lemma half_inner_0 {T} (x : T) (t : list T) : forall j, half_inner true 0 x j t = map (fun y => (x, y)) t.
Proof. induction t as [|y t IH]; intros j; simpl; auto. rewrite IH. auto. Qed.

(** ** filters, index_of, index_of_max *)
Lemma filter_out_loop_ok {T} (keep : T -> bool) l : forall out, filter_out_loop keep l out = out ++ filter keep l.
Proof.
  induction l as [|x t IH]; intros out; simpl; [rewrite app_nil_r; auto|].
  rewrite IH. destruct (keep x); auto. rewrite <- app_assoc. auto.
Qed.

Lemma index_of_loop_ok {T} (p : T -> bool) l : forall k,
  match index_of_loop p l k with
  | Ok i => exists j, i = k + j /\ is_first p l j
  | Err e => e = ValueError /\ forall x, In x l -> p x = false
  end.
Proof.
  induction l as [|x t IH]; intros k; simpl.
  - split; auto. intros y [].
  - destruct (p x) eqn:Ep.
    + exists 0. split; [lia|]. split; [exists x; auto|]. intros j y Hj. lia.
    + specialize (IH (S k)). destruct (index_of_loop p t (S k)) as [i|e].
      * destruct IH as [j [-> [H1 H2]]]. exists (S j). split; [lia|]. split; auto.
        intros [|j'] y Hj Hy; simpl in Hy; [congruence|]. apply (H2 j' y); auto. lia.
      * destruct IH as [-> H]. split; auto. intros y [<-|Hy]; auto.
Qed.

Lemma index_of_ok {T} (p : T -> bool) l :
  match index_of p l with
  | Ok i => is_first p l i
  | Err e => e = ValueError /\ forall x, In x l -> p x = false
  end.
Proof.
  pose proof (index_of_loop_ok p l 0) as H. unfold index_of. destruct (index_of_loop p l 0); auto.
  destruct H as [j [-> H]]. auto.
Qed.

Section Max.
  Context {T : Type} (lt : T -> T -> bool).
  Hypothesis Hord : total_preorder lt.
  Let gt := fun a b => lt b a.

  Definition max_upto (done : list T) (mi : nat) (m : T) : Prop :=
    nth_error done mi = Some m /\
    (forall x, In x done -> lt m x = false) /\
    (forall j x, j < mi -> nth_error done j = Some x -> lt x m = true).

  Lemma max_loop_ok l : forall done mi m, max_upto done mi m ->
    exists m', max_upto (done ++ l) (index_of_max_loop gt l (length done) mi m) m'.
  Proof using Hord.
    destruct Hord as [Hasym Htrans].
    induction l as [|x t IH]; intros done mi m [H1 [H2 H3]]; simpl.
    - rewrite app_nil_r. exists m. split; auto.
    - assert (Hi : mi < length done) by (apply nth_error_Some; congruence).
      replace (done ++ x :: t) with ((done ++ [x]) ++ t) by (rewrite <- app_assoc; auto).
      replace (S (length done)) with (length (done ++ [x])) by (rewrite app_length; simpl; lia).
      unfold gt at 1. destruct (lt m x) eqn:E; apply IH.
      + split; [|split].
        * rewrite nth_error_app2, Nat.sub_diag; auto.
        * intros y Hy. apply in_app_or in Hy. destruct Hy as [Hy|[<-|[]]].
          -- apply (Htrans y m x); auto.
          -- destruct (lt x x) eqn:Ex; auto. pose proof (Hasym _ _ Ex). congruence.
        * intros j y Hj Hy. rewrite nth_error_app1 in Hy by auto.
          destruct (lt y x) eqn:Eyx; auto.
          assert (Hym : lt m y = false) by (apply H2; eapply nth_error_In; eauto).
          assert (lt m x = false) by (apply (Htrans x y m); auto). congruence.
      + split; [|split].
        * rewrite nth_error_app1; auto.
        * intros y Hy. apply in_app_or in Hy. destruct Hy as [Hy|[<-|[]]]; auto.
        * intros j y Hj Hy. rewrite nth_error_app1 in Hy by lia. eauto.
  Qed.

  Lemma index_of_max_ok l :
    match index_of_max gt l with
    | Ok i => exists m, nth_error l i = Some m /\
                (forall x, In x l -> lt m x = false) /\
                (forall j x, j < i -> nth_error l j = Some x -> lt x m = true)
    | Err e => e = ValueError /\ l = []
    end.
  Proof using Hord.
    destruct l as [|x t]; cbn [index_of_max]; auto.
    cbn [index_of_max_loop].
    assert (Hxx : lt x x = false).
    { destruct (lt x x) eqn:E; auto. destruct Hord as [Ha _]. pose proof (Ha _ _ E). congruence. }
    change (gt x x) with (lt x x). rewrite Hxx.
    apply (max_loop_ok t [x] 0 x). split; [reflexivity|]. split.
    - intros y [<-|[]]. auto.
    - intros j y Hj. lia.
  Qed.
End Max.

(** ** make_list and infinite_iterator *)
Lemma make_list_loop_ok {T} (cp : nat -> T -> T) e n : forall i out,
  make_list_loop cp e i n out = out ++ map (fun k => cp k e) (seq i n).
Proof.
  induction n as [|n IH]; intros i out; simpl; [rewrite app_nil_r; auto|].
  rewrite IH, <- app_assoc. reflexivity.
Qed.

Lemma infinite_iterator_ok {T} (r : option T) f n : forall i,
  infinite_iterator r f i n =
  map (fun k => match r with Some x => Some x | None => match f with Some g => g k | None => None end end) (seq i n).
Proof. induction n as [|n IH]; intros i; simpl; auto. rewrite IH. destruct r; auto. Qed.
