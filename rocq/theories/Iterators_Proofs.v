(** Proofs about the iterator helpers. *)
From Verif Require Import Prelude PreludeFacts MoreFacts PySeq_Model PyGen_Model Iterators_Model Iterators_Spec.

Lemma advance_ok {T} n : forall (l : list T),
  advance n l = if Nat.leb n (length l) then Some (skipn n l) else None.
Proof. induction n as [|n IH]; intros [|x t]; simpl; auto. Qed.

Lemma nth_skipn {T} n : forall (l : list T) k, nth_error (skipn n l) k = nth_error l (n + k).
Proof. induction n as [|n IH]; intros [|x t] k; simpl; auto. destruct k; auto. Qed.

Lemma skipn_skipn_add {T} n m : forall (l : list T), skipn n (skipn m l) = skipn (m + n) l.
Proof. induction m as [|m IH]; intros [|x t]; simpl; auto. apply skipn_nil. Qed.

(** a generator that follows its source one to one *)
Lemma draws_cons {T B} (x : T) (t : list T) (g : gen (list T) B) (f : nat -> T -> B) :
  draws g t (fun k => k) (fun k => f (S k)) -> draws (gyield (f 0 x) t g) (x :: t) (fun k => k) f.
Proof.
  intros [H1 H2]. split; auto. intros [|k]; simpl; auto. rewrite H2. reflexivity.
Qed.
Lemma draws_nil {T B} (f : nat -> T -> B) pos : draws (gstop []) [] pos f.
Proof. split; auto. intros k. simpl. destruct (pos k); destruct k; reflexivity. Qed.

Lemma draws_ext {T B} (g : gen (list T) B) l pos pos' f f' :
  (forall k, pos k = pos' k) -> (forall k x, f k x = f' k x) -> draws g l pos f -> draws g l pos' f'.
Proof.
  intros Hp Hf [H1 H2]. split; auto. intros k. rewrite H2, Hp.
  destruct (nth_error l (pos' k)); auto. rewrite Hf. auto.
Qed.

Lemma yield_from_draws {T} (l : list T) : draws (yield_from l) l (fun k => k) (fun _ x => x).
Proof.
  induction l as [|x t IH]; simpl; [apply (draws_nil (fun _ (x : T) => x))|].
  apply (draws_cons x t _ (fun _ x => x)). auto.
Qed.

Lemma to_iterator_draws {A B} (fn : A -> B) l : draws (to_iterator fn l) l (fun k => k) (fun _ x => fn x).
Proof.
  induction l as [|x t IH]; simpl; [apply draws_nil|]. apply (draws_cons x t _ (fun _ x => fn x)). auto.
Qed.

Lemma append_draws {T} (e : list T) l : draws (append_sequence e l) l (fun k => k) (fun _ x => x ++ e).
Proof.
  induction l as [|x t IH]; simpl; [apply draws_nil|]. apply (draws_cons x t _ (fun _ x => x ++ e)). auto.
Qed.

Lemma enumerate2_draws {T} (l : list T) step : forall v,
  draws (enumerate2 l v step) l (fun k => k) (fun k x => ((v + Z.of_nat k * step)%Z, x)).
Proof.
  induction l as [|x t IH]; intros v; cbn [enumerate2]; [apply draws_nil|].
  pose proof (draws_cons x t (enumerate2 t (v + step)%Z step) (fun k x => ((v + Z.of_nat k * step)%Z, x))) as H.
  cbv beta in H. replace (v + Z.of_nat 0 * step)%Z with v in H by lia. apply H.
  eapply draws_ext; [| |apply IH]; auto. intros k y. cbv beta. f_equal. lia.
Qed.

Lemma count_loop_draws {T} (l : list T) step : forall v,
  draws (count_loop v step l) l (fun k => k) (fun k _ => (v + Z.of_nat k * step)%Z).
Proof.
  induction l as [|x t IH]; intros v; cbn [count_loop]; [apply (draws_nil (fun k _ => (v + Z.of_nat k * step)%Z))|].
  pose proof (draws_cons x t (count_loop (v + step)%Z step t) (fun k _ => (v + Z.of_nat k * step)%Z)) as H.
  cbv beta in H. replace (v + Z.of_nat 0 * step)%Z with v in H by lia. apply H.
  eapply draws_ext; [| |apply IH]; auto. intros k y. cbv beta. lia.
Qed.

Lemma smart_enumerate_draws {T} (rows : list (list T)) step : forall v,
  draws (smart_enumerate (map Some rows) v step) (map Some rows) (fun k => k)
        (fun k r => ((v + Z.of_nat k * step)%Z, match r with Some row => row | None => [] end)).
Proof.
  induction rows as [|x t IH]; intros v; cbn [smart_enumerate map]; [apply draws_nil|].
  pose proof (draws_cons (Some x) (map Some t) (smart_enumerate (map Some t) (v + step)%Z step)
    (fun k r => ((v + Z.of_nat k * step)%Z, match r with Some row => row | None => [] end))) as H.
  cbv beta iota in H. replace (v + Z.of_nat 0 * step)%Z with v in H by lia. apply H.
  eapply draws_ext; [| |apply IH]; auto. intros k y. cbv beta. f_equal. lia.
Qed.

Lemma smart_enumerate_bad {T} (rows : list (list T)) rest step : forall v,
  let g := smart_enumerate (map Some rows ++ None :: rest) v step in
  ends g = Some TypeError /\ length (yields g) = length rows.
Proof.
  induction rows as [|x t IH]; intros v; cbn [smart_enumerate map app]; cbn zeta; [auto|].
  destruct (IH (v + step)%Z) as [I1 I2]. split; auto. simpl. f_equal. auto.
Qed.

(** two at a time *)
Lemma list_ind2 {T} (P : list T -> Prop) :
  P [] -> (forall x, P [x]) -> (forall x y l, P l -> P (x :: y :: l)) -> forall l, P l.
Proof.
  intros H0 H1 H2. assert (H : forall l, P l /\ forall x, P (x :: l)).
  { induction l as [|y t [I1 I2]]; split; auto. }
  intros l. apply H.
Qed.

Lemma even_draws {T} (l : list T) : draws (even l) l (fun k => 2 * k) (fun _ x => x).
Proof.
  induction l as [|x|x y l [I1 I2]] using list_ind2.
  - apply (draws_nil (fun _ (x : T) => x)).
  - split; auto. intros [|k]; auto. simpl. rewrite Nat.add_succ_r. simpl. destruct k; reflexivity.
  - split; auto. intros [|k]; auto. simpl even. cbn [gyield yields nth_error]. rewrite I2.
    replace (2 * S k) with (S (S (2 * k))) by lia. reflexivity.
Qed.

Lemma odd_draws {T} (l : list T) : draws (odd l) l (fun k => S (2 * k)) (fun _ x => x).
Proof.
  induction l as [|x|x y l [I1 I2]] using list_ind2.
  - split; auto. intros [|k]; reflexivity.
  - split; auto. intros [|k]; reflexivity.
  - split; auto. intros [|k]; auto. simpl odd. cbn [gyield yields nth_error]. rewrite I2.
    replace (2 * S k) with (S (S (2 * k))) by lia. reflexivity.
Qed.

(** skip_first, stop_after, n_th, take_n *)
Lemma skip_first_ok {T} (l : list T) n : n <= length l ->
  draws (skip_first l (Z.of_nat n)) l (fun k => n + k) (fun _ x => x).
Proof.
  intros H. unfold skip_first. rewrite Nat2Z.id, advance_ok.
  destruct (Nat.leb_spec n (length l)); [|lia].
  destruct (yield_from_draws (skipn n l)) as [H1 H2]. split; auto.
  intros k. rewrite H2, nth_skipn, skipn_skipn_add, Nat.add_succ_r. reflexivity.
Qed.

Lemma skip_first_short {T} (l : list T) n : (Z.of_nat (length l) < n)%Z ->
  skip_first l n = graise RuntimeError [].
Proof.
  intros H. unfold skip_first. rewrite advance_ok. destruct (Nat.leb_spec (Z.to_nat n) (length l)); auto. lia.
Qed.

Lemma stop_loop_ok {T} n : forall (l : list T), n <= length l ->
  ends (stop_loop n l) = None /\ source_left (stop_loop n l) = skipn n l /\
  length (yields (stop_loop n l)) = n /\
  (forall k, k < n -> nth_error (yields (stop_loop n l)) k =
     match nth_error l k with Some x => Some (x, skipn (S k) l) | None => None end).
Proof.
  induction n as [|n IH]; intros l H; simpl.
  - repeat split; auto. intros k Hk. lia.
  - destruct l as [|x t]; simpl in *; [lia|]. destruct (IH t) as [I1 [I2 [I3 I4]]]; [lia|].
    split; [auto|]. split; [auto|]. split; [congruence|].
    intros [|k] Hk; simpl; auto. apply I4. lia.
Qed.

Lemma stop_loop_short {T} n : forall (l : list T), length l < n ->
  ends (stop_loop n l) = Some RuntimeError /\ map fst (yields (stop_loop n l)) = l.
Proof.
  induction n as [|n IH]; intros l H; simpl; [lia|].
  destruct l as [|x t]; simpl in *; auto. destruct (IH t) as [I1 I2]; [lia|]. rewrite I2. auto.
Qed.

Lemma n_th_ok {T} (l : list T) n : (0 <= n)%Z ->
  n_th l n = match nth_error l (Z.to_nat n) with
             | Some x => (Ok x, skipn (S (Z.to_nat n)) l)
             | None => (Err IndexError, [])
             end.
Proof.
  intros Hn. unfold n_th. rewrite advance_ok.
  destruct (Nat.leb_spec (Z.to_nat n) (length l)) as [H|H].
  - rewrite skipn_nth. destruct (nth_error l (Z.to_nat n)); auto.
  - destruct (nth_error l (Z.to_nat n)) eqn:E; auto.
    assert (Z.to_nat n < length l) by (apply nth_error_Some; congruence). lia.
Qed.

Lemma take_loop_ok {T} n : forall (l out : list T), take_loop n l out = (out ++ firstn n l, skipn n l).
Proof.
  induction n as [|n IH]; intros [|x t] out; simpl; rewrite ?app_nil_r; auto.
  rewrite IH, <- app_assoc. auto.
Qed.

Lemma take_n_ok {T} (l : list T) n skip : (Z.to_nat skip <= length l) ->
  take_n l n skip = (Ok (firstn (Z.to_nat n) (skipn (Z.to_nat skip) l)), skipn (Z.to_nat skip + Z.to_nat n) l).
Proof.
  intros H. unfold take_n. rewrite advance_ok. destruct (Nat.leb_spec (Z.to_nat skip) (length l)); [|lia].
  rewrite take_loop_ok, skipn_skipn_add. reflexivity.
Qed.

Lemma take_n_short {T} (l : list T) n skip : (Z.of_nat (length l) < skip)%Z -> fst (take_n l n skip) = Err StopIteration.
Proof.
  intros H. unfold take_n. rewrite advance_ok. destruct (Nat.leb_spec (Z.to_nat skip) (length l)); auto. lia.
Qed.

Lemma no_longer_ok {T U} : forall (b : list U) (o : list T),
  gen_list (no_longer_than b o) = Ok (firstn (length b) o) /\
  source_left (no_longer_than b o) = (skipn (S (length o)) b, skipn (length b) o).
Proof.
  intros b. assert (H : forall o : list T, ends (no_longer_than b o) = None /\
     map fst (yields (no_longer_than b o)) = firstn (length b) o /\
     source_left (no_longer_than b o) = (skipn (S (length o)) b, skipn (length b) o)).
  { induction b as [|y b IH]; intros o; simpl; auto.
    destruct o as [|x o]; simpl; auto.
    destruct (IH o) as [I1 [I2 I3]]. rewrite I2, I3. auto. }
  intros o. destruct (H o) as [H1 [H2 H3]]. unfold gen_list. rewrite H1, H2. auto.
Qed.

(** shift *)
Lemma firstn_rev_rev {T} n (l : list T) : rev (firstn n (rev l)) = skipn (length l - n) l.
Proof.
  destruct (Nat.le_gt_cases n (length l)) as [H|H].
  - rewrite <- (firstn_skipn (length l - n) l) at 1. rewrite rev_app_distr.
    assert (E : n = length (rev (skipn (length l - n) l))) by (rewrite rev_length, skipn_length; lia).
    rewrite E at 1. rewrite firstn_app, Nat.sub_diag, firstn_all. simpl. rewrite app_nil_r, rev_involutive. auto.
  - rewrite firstn_all2 by (rewrite rev_length; lia). rewrite rev_involutive.
    replace (length l - n) with 0 by lia. reflexivity.
Qed.

Lemma shift_ok {T} rv (l : list T) f : (Z.abs f <= Z.of_nat (length l))%Z ->
  shift rv l f = Ok (rotation f l).
Proof.
  intros H. unfold shift, rotation, rotated. destruct (Z.leb_spec 0 f) as [Hf|Hf].
  - rewrite advance_ok. destruct (Nat.leb_spec (Z.to_nat f) (length l)); [auto|lia].
  - destruct rv.
    + rewrite take_n_ok by (simpl; lia). cbn [fst]. change (Z.to_nat 0) with 0. cbn [skipn].
      rewrite (proj1 (no_longer_ok l _)). f_equal.
      rewrite firstn_rev_rev, firstn_app.
      rewrite (firstn_all2 (skipn _ l)) by (rewrite skipn_length; lia).
      f_equal. f_equal. rewrite skipn_length. lia.
    + f_equal. unfold py_slice, slice_start, slice_stop, slice_bound.
      destruct (Z.ltb_spec f 0); [|lia].
      replace (Z.to_nat (Z.max 0 (f + Z.of_nat (length l)))) with (length l - Z.to_nat (- f)) by lia.
      rewrite Nat.sub_0_r. simpl skipn at 2. f_equal.
      rewrite firstn_all2; auto. rewrite skipn_length. lia.
Qed.

Lemma shift_too_far {T} rv (l : list T) f : (Z.of_nat (length l) < Z.abs f)%Z ->
  shift rv l f = if (0 <? f)%Z then Err StopIteration else Ok l.
Proof.
  intros H. unfold shift. destruct (Z.leb_spec 0 f) as [Hf|Hf].
  - rewrite advance_ok. destruct (Nat.leb_spec (Z.to_nat f) (length l)); [lia|].
    destruct (Z.ltb_spec 0 f); auto. lia.
  - destruct (Z.ltb_spec 0 f); [lia|]. destruct rv.
    + rewrite take_n_ok by (simpl; lia). cbn [fst]. change (Z.to_nat 0) with 0. cbn [skipn].
      rewrite (proj1 (no_longer_ok l _)). f_equal. rewrite firstn_rev_rev.
      replace (length l - Z.to_nat (- f)) with 0 by lia. simpl skipn.
      rewrite firstn_app, Nat.sub_diag, firstn_all. simpl. apply app_nil_r.
    + f_equal. unfold py_slice, slice_start, slice_stop, slice_bound.
      destruct (Z.ltb_spec f 0); [|lia].
      replace (Z.to_nat (Z.max 0 (f + Z.of_nat (length l)))) with 0 by lia.
      simpl skipn. rewrite Nat.sub_0_r, firstn_all. simpl. apply app_nil_r.
Qed.

(** zip *)
Lemma heads_ok {T} (ls : list (list T)) :
  match heads ls with
  | Some (hs, ts) => across ls 0 = Some hs /\ forall i, across ls (S i) = across ts i
  | None => forall i, across ls i = None
  end.
Proof.
  induction ls as [|l r IH]; simpl; auto.
  destruct l as [|x t].
  - intros i. destruct i; reflexivity.
  - destruct (heads r) as [[hs ts]|].
    + destruct IH as [I1 I2]. rewrite I1. split; auto. intros i. simpl. rewrite I2. auto.
    + intros i. rewrite IH. destruct (nth_error (x :: t) i); auto.
Qed.

Lemma zip_from_ok {T} (l : list T) : forall ls i, nth_error (zip_from l ls) i = across (l :: ls) i.
Proof.
  induction l as [|x t IH]; intros ls i; simpl.
  - destruct i; reflexivity.
  - pose proof (heads_ok ls) as H. destruct (heads ls) as [[hs ts]|].
    + destruct H as [H1 H2]. destruct i as [|i]; simpl.
      * rewrite H1. auto.
      * rewrite IH. simpl. rewrite H2. auto.
    + rewrite H. destruct i; simpl; [auto|]. destruct (nth_error t i); auto.
Qed.

Lemma py_zip_ok {T} (ls : list (list T)) i : ls <> [] -> nth_error (py_zip ls) i = across ls i.
Proof. destruct ls as [|l r]; [congruence|]. intros _. apply zip_from_ok. Qed.

Lemma shift_all_ok {T} (args : list (bool * list T * option Z)) : Forall shift_fits args ->
  shift_all args = Ok (map turned args).
Proof.
  induction args as [|[[rv l] [f|]] r IH]; intros H; simpl; auto; inversion H; subst.
  - rewrite shift_ok by auto. simpl. rewrite IH by auto. auto.
  - rewrite IH by auto. auto.
Qed.

(** smart_zip *)
Lemma smart_row_ok {T} (row : list (T + list T)) : smart_row row = flat_map components row.
Proof.
  unfold smart_row. assert (H : forall acc, fold_left (fun a elem => match elem with inr tpl => a ++ tpl | inl x => a ++ [x] end) row acc
     = acc ++ flat_map components row).
  { induction row as [|e r IH]; intros acc; simpl; [rewrite app_nil_r; auto|].
    rewrite IH. destruct e; simpl; rewrite <- app_assoc; auto. }
  apply (H []).
Qed.

(** unique *)
Section Unique.
  Context {T : Type} (eqb : T -> T -> bool).
  Hypothesis Heq : eqb_ok eqb.

  Lemma existsb_memb x l : existsb (eqb x) l = memb eqb x l.
  Proof using Heq.
    destruct (memb eqb x l) eqn:E.
    - apply existsb_exists. exists x. split; [apply (memb_In Heq); auto|]. apply Heq. auto.
    - destruct (existsb (eqb x) l) eqn:E2; auto. apply existsb_exists in E2. destruct E2 as [y [H1 H2]].
      apply Heq in H2. subst. apply (memb_In Heq) in H1. congruence.
  Qed.

  (** positions counted from the whole list [done ++ l] *)
  Lemma unique_loop_ok l : forall done seen, (forall x, In x seen <-> In x done) ->
    ends (unique_loop eqb seen l) = None /\
    map fst (yields (unique_loop eqb seen l)) =
    map snd (filter (fun p => negb (existsb (eqb (snd p)) (firstn (fst p) (done ++ l))))
                    (combine (seq (length done) (length l)) l)).
  Proof using Heq.
    induction l as [|x t IH]; intros done seen Hs; simpl; auto.
    assert (Hf : firstn (length done) (done ++ x :: t) = done).
    { rewrite firstn_app, Nat.sub_diag, firstn_all. simpl. apply app_nil_r. }
    rewrite Hf, existsb_memb.
    assert (Hm : memb eqb x seen = memb eqb x done).
    { destruct (memb eqb x seen) eqn:E1, (memb eqb x done) eqn:E2; auto.
      - apply (memb_In Heq) in E1. apply Hs in E1. apply (memb_In Heq) in E1. congruence.
      - apply (memb_In Heq) in E2. apply Hs in E2. apply (memb_In Heq) in E2. congruence. }
    rewrite Hm.
    replace (done ++ x :: t) with ((done ++ [x]) ++ t) by (rewrite <- app_assoc; auto).
    replace (S (length done)) with (length (done ++ [x])) by (rewrite app_length; simpl; lia).
    destruct (memb eqb x done) eqn:E; simpl.
    - apply IH. intros y. rewrite Hs, in_app_iff. split; [tauto|]. intros [H|[<-|[]]]; auto.
      apply (memb_In Heq). auto.
    - destruct (IH (done ++ [x]) (seen ++ [x])) as [I1 I2].
      { intros y. rewrite !in_app_iff, Hs. tauto. }
      split; auto. f_equal. auto.
  Qed.

  Lemma unique_ok l : gen_list (unique eqb l) = Ok (first_occurrences eqb l).
  Proof using Heq.
    destruct (unique_loop_ok l [] []) as [H1 H2]; [tauto|]. unfold gen_list, unique. rewrite H1, H2. reflexivity.
  Qed.

  (** each element once, and no element missing *)
  Lemma unique_loop_set l : forall seen out, map fst (yields (unique_loop eqb seen l)) = out ->
    NoDup out /\ (forall x, In x out <-> In x l /\ ~ In x seen).
  Proof using Heq.
    induction l as [|x t IH]; intros seen out; simpl.
    - intros <-. split; [constructor|]. simpl. tauto.
    - destruct (memb eqb x seen) eqn:E.
      + intros H. destruct (IH _ _ H) as [I1 I2]. split; auto. intros y. rewrite I2.
        split; [tauto|]. intros [[<-|Hy] Hn]; auto. exfalso. apply Hn. apply (memb_In Heq). auto.
      + simpl. intros <-. destruct (IH (seen ++ [x]) _ eq_refl) as [I1 I2].
        assert (Hx : ~ In x seen) by (rewrite <- (memb_In Heq); congruence).
        split.
        * constructor; auto. rewrite I2, in_app_iff. simpl. tauto.
        * intros y. simpl. rewrite I2, in_app_iff. simpl. split.
          -- intros [<-|[H1 H2]]; split; auto.
          -- intros [[<-|H1] H2]; auto.
             destruct (eqb x y) eqn:Exy; [left; apply Heq; auto|].
             right. split; auto. intros [H|[H|[]]]; auto. apply Heq in H. congruence.
  Qed.
End Unique.

(** f_range *)
Lemma f_range_up fuel : forall start stop step, (0 < step)%Z -> (stop - start < Z.of_nat fuel)%Z -> 0 < fuel ->
  exists n, ends (f_range_loop fuel start stop step) = None /\
    map fst (yields (f_range_loop fuel start stop step)) = map (fun i => (start + Z.of_nat i * step)%Z) (seq 0 n) /\
    (forall i, (i < n)%nat -> start + Z.of_nat i * step < stop)%Z /\ ~ (start + Z.of_nat n * step < stop)%Z.
Proof.
  induction fuel as [|f IH]; intros start stop step Hs Hf H0; [lia|]. cbn [f_range_loop].
  destruct (Z.ltb_spec 0 step); [|lia]. destruct (Z.ltb_spec start stop) as [L|L].
  - destruct (IH (start + step)%Z stop step) as [n [I1 [I2 [I3 I4]]]]; [lia|lia| |].
    { destruct f; [|lia]. lia. }
    exists (S n). cbn [gyield ends yields map fst]. split; [auto|]. rewrite I2. split; [|split].
    + cbn [seq map]. f_equal; [lia|]. rewrite <- seq_shift, map_map. apply map_ext. intros i. lia.
    + intros [|i] Hi; [lia|]. specialize (I3 i). lia.
    + lia.
  - exists 0. cbn. split; auto. split; auto. split; [lia|]. lia.
Qed.

Lemma f_range_down fuel : forall start stop step, (step < 0)%Z -> (start - stop < Z.of_nat fuel)%Z -> 0 < fuel ->
  exists n, ends (f_range_loop fuel start stop step) = None /\
    map fst (yields (f_range_loop fuel start stop step)) = map (fun i => (start + Z.of_nat i * step)%Z) (seq 0 n) /\
    (forall i, (i < n)%nat -> start + Z.of_nat i * step > stop)%Z /\ ~ (start + Z.of_nat n * step > stop)%Z.
Proof.
  induction fuel as [|f IH]; intros start stop step Hs Hf H0; [lia|]. cbn [f_range_loop].
  destruct (Z.ltb_spec 0 step); [lia|]. destruct (Z.ltb_spec stop start) as [L|L].
  - destruct (IH (start + step)%Z stop step) as [n [I1 [I2 [I3 I4]]]]; [lia|lia| |].
    { destruct f; [|lia]. lia. }
    exists (S n). cbn [gyield ends yields map fst]. split; [auto|]. rewrite I2. split; [|split].
    + cbn [seq map]. f_equal; [lia|]. rewrite <- seq_shift, map_map. apply map_ext. intros i. lia.
    + intros [|i] Hi; [lia|]. specialize (I3 i). lia.
    + lia.
  - exists 0. cbn. split; auto. split; auto. split; [lia|]. lia.
Qed.

Lemma f_range_ok start stop step : step <> 0%Z ->
  exists enough, forall fuel, enough <= fuel -> exists n,
    ends (f_range_loop fuel start stop step) = None /\
    map fst (yields (f_range_loop fuel start stop step)) = map (fun i => (start + Z.of_nat i * step)%Z) (seq 0 n) /\
    (forall i, i < n -> stays_before start stop step i) /\ ~ stays_before start stop step n.
Proof.
  intros Hs. exists (S (Z.to_nat (Z.abs (stop - start)))). intros fuel Hf. unfold stays_before.
  destruct (Z.ltb_spec 0 step).
  - apply f_range_up; lia.
  - apply f_range_down; lia.
Qed.

Lemma f_range_zero fuel : forall start stop, (stop < start)%Z -> ends (f_range_loop fuel start stop 0) = Some Diverges.
Proof.
  induction fuel as [|f IH]; intros start stop H; cbn [f_range_loop]; auto.
  change (0 <? 0)%Z with false. cbv iota. destruct (Z.ltb_spec stop start); [|lia].
  cbn [gyield ends]. apply IH. lia.
Qed.

Lemma iterate_ok {T} (clbl : Z -> res T) exc e : forall n start fuel (x : nat -> T),
  (forall i, i < n -> clbl (start + Z.of_nat i)%Z = Ok (x i)) -> clbl (start + Z.of_nat n)%Z = Err e -> n < fuel ->
  ends (iterate_callable fuel clbl exc start) = (if exc e then None else Some e) /\
  map fst (yields (iterate_callable fuel clbl exc start)) = map x (seq 0 n).
Proof.
  induction n as [|n IH]; intros start fuel x H He Hf; destruct fuel as [|f]; try lia; cbn [iterate_callable].
  - replace (start + Z.of_nat 0)%Z with start in He by lia. rewrite He. destruct (exc e); auto.
  - specialize (H 0) as H0. replace (start + Z.of_nat 0)%Z with start in H0 by lia. rewrite H0 by lia.
    destruct (IH (start + 1)%Z f (fun i => x (S i))) as [I1 I2].
    + intros i Hi. rewrite <- H by lia. f_equal. lia.
    + rewrite <- He. f_equal. lia.
    + lia.
    + cbn [gyield ends yields map fst]. rewrite I1, I2. split; auto. cbn [seq map]. f_equal.
      rewrite <- seq_shift, map_map. auto.
Qed.

Lemma infinite_counter_ok step n : forall i, infinite_counter i step n = map (fun k => (i + Z.of_nat k * step)%Z) (seq 0 n).
Proof.
  induction n as [|n IH]; intros i; cbn [infinite_counter seq map]; auto.
  rewrite IH. f_equal; [lia|]. rewrite <- seq_shift, map_map. apply map_ext. intros k. lia.
Qed.

Lemma length_loop_ok {T} (l : list T) : forall i, length_loop i l = (i + Z.of_nat (length l))%Z.
Proof. induction l as [|x t IH]; intros i; simpl length_loop; [simpl; lia|]. rewrite IH. cbn [length]. lia. Qed.

Lemma iter_dict_ok {K U} (d : list (K * list U)) :
  iter_dict_of_list d = concat (map (fun e => map (pair (fst e)) (snd e)) d).
Proof. induction d as [|[k vs] t IH]; simpl; auto. rewrite IH. auto. Qed.

(** choose *)
Lemma choose_plain {T} (p : T -> bool) (l : list T) :
  match choose_loop p false None l with
  | (Ok x, rest) => exists before, l = before ++ x :: rest /\ p x = true /\ Forall (fun y => p y = false) before
  | (Err e, rest) => e = ValueError /\ rest = [] /\ Forall (fun y => p y = false) l
  end.
Proof.
  induction l as [|x t IH]; simpl; auto.
  destruct (p x) eqn:E.
  - exists []. auto.
  - destruct (choose_loop p false None t) as [[y|e] rest].
    + destruct IH as [b [-> [Hy Hb]]]. exists (x :: b). auto.
    + destruct IH as [-> [-> H]]. auto.
Qed.

Lemma choose_multi {T} (p : T -> bool) (l : list T) : forall c,
  fst (choose_loop p true c l) =
  match (match c with Some x => [x] | None => [] end) ++ filter p l with
  | [x] => Ok x
  | _ => Err ValueError
  end.
Proof.
  induction l as [|x t IH]; intros c; simpl.
  - destruct c; reflexivity.
  - destruct (p x) eqn:E; auto.
    destruct c as [y|]; simpl; auto. apply (IH (Some x)).
Qed.

Lemma choose_multi_left {T} (p : T -> bool) (l : list T) : forall c x,
  fst (choose_loop p true c l) = Ok x -> snd (choose_loop p true c l) = [].
Proof.
  induction l as [|y t IH]; intros c x; simpl.
  - destruct c; auto.
  - destruct (p y); [destruct c|]; simpl; try discriminate; eauto.
Qed.

Lemma choose_index_ok {T} (p : T -> bool) (l : list T) : forall i,
  match choose_with_index_loop p i l with
  | (Ok (x, j), rest) => exists before, l = before ++ x :: rest /\ j = i + length before /\ p x = true /\
                                        Forall (fun y => p y = false) before
  | (Err e, rest) => e = ValueError /\ rest = [] /\ Forall (fun y => p y = false) l
  end.
Proof.
  induction l as [|x t IH]; intros i; simpl; auto.
  destruct (p x) eqn:E.
  - exists []. simpl. rewrite Nat.add_0_r. auto.
  - specialize (IH (S i)). destruct (choose_with_index_loop p (S i) t) as [[[y j]|e] rest].
    + destruct IH as [b [-> [-> [Hy Hb]]]]. exists (x :: b). simpl. repeat (split; [solve [auto; lia]|]). auto.
    + destruct IH as [-> [-> H]]. auto.
Qed.
