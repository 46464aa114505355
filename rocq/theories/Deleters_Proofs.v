From Verif Require Import Prelude PreludeFacts Deleters_Model Deleters_Spec MoreFacts.

(** ** Keeping the unmarked *)
Fixpoint keep {A} (m : nat -> bool) (i : nat) (l : list A) : list A :=
  match l with [] => [] | x :: t => if m i then keep m (S i) t else x :: keep m (S i) t end.

Lemma unmarked_keep {A} m (l : list A) : unmarked m l = keep m 0 l.
Proof.
  unfold unmarked.
  assert (H : forall n, map snd (filter (fun p => negb (m (fst p))) (combine (seq n (length l)) l)) = keep m n l).
  { induction l as [|x t IH]; intros n; simpl; auto. destruct (m n); simpl; rewrite IH; reflexivity. }
  apply H.
Qed.

Lemma keep_ext {A} m m' (l : list A) : forall i,
  (forall j, (i <= j < i + length l)%nat -> m j = m' j) -> keep m i l = keep m' i l.
Proof.
  induction l as [|x t IH]; intros i H; simpl; auto.
  rewrite (H i) by (simpl; lia). rewrite (IH (S i)); auto.
  intros j Hj. apply H. simpl. lia.
Qed.

Lemma keep_filter {A} (m : nat -> bool) (p : A -> bool) (l : list A) : forall i,
  (forall j x, nth_error l j = Some x -> m (i + j)%nat = p x) ->
  keep m i l = filter (fun x => negb (p x)) l.
Proof.
  induction l as [|x t IH]; intros i H; simpl; auto.
  pose proof (H O x eq_refl) as E. rewrite Nat.add_0_r in E. rewrite E.
  rewrite (IH (S i)).
  - destruct (p x); reflexivity.
  - intros j y Hj. rewrite <- (H (S j) y Hj). f_equal. lia.
Qed.

(** ** DictDeleter *)
Section Dict.
  Context {K V : Type}.
  Variable eqb : K -> K -> bool.
  Hypothesis Heqb : eqb_ok eqb.

  Lemma distinct_NoDup l : distinct eqb l = true -> NoDup l.
  Proof.
    induction l as [|h t IH]; simpl; [constructor|].
    rewrite andb_true_iff, negb_true_iff. intros [H1 H2].
    constructor; auto. apply (memb_false Heqb). exact H1.
  Qed.

  Lemma ddel_filter (d : list (K * V)) k :
    NoDup (dkeys d) -> ddel eqb d k = filter (fun e => negb (eqb (fst e) k)) d.
  Proof.
    induction d as [|[k' v'] t IH]; simpl; auto. intros H. inversion H; subst.
    destruct (eqb k' k) eqn:E; simpl.
    - apply Heqb in E. subst k'. symmetry. clear IH H H3.
      induction t as [|[k2 v2] t IH]; simpl; auto. simpl in H2.
      destruct (eqb k2 k) eqn:E2; simpl.
      + apply Heqb in E2. subst. exfalso. auto.
      + f_equal. auto.
    - f_equal. auto.
  Qed.

  Lemma NoDup_keys_filter (f : K * V -> bool) d : NoDup (dkeys d) -> NoDup (dkeys (filter f d)).
  Proof.
    induction d as [|e t IH]; simpl; intros H; auto. inversion H; subst.
    destruct (f e); simpl; auto. constructor; auto.
    intros Hin. apply H2. unfold dkeys in *. apply in_map_iff in Hin. destruct Hin as (e' & <- & He).
    apply filter_In in He. apply in_map. tauto.
  Qed.

  Lemma del_all_ok ks : forall d : list (K * V),
    NoDup ks -> NoDup (dkeys d) -> (forall k, In k ks -> In k (dkeys d)) ->
    dd_del_all eqb ks d = (filter (fun e => negb (memb eqb (fst e) ks)) d, None).
  Proof.
    induction ks as [|k t IH]; intros d HN HD HI; cbn [dd_del_all].
    - f_equal. simpl. symmetry. clear. induction d as [|e d IH]; simpl; congruence.
    - inversion HN; subst.
      assert (M : dmem eqb d k = true).
      { unfold dmem. destruct (dget eqb d k) eqn:E; auto.
        apply (dget_None Heqb) in E. exfalso. apply E, HI. simpl. auto. }
      rewrite M, (ddel_filter d k HD), IH; auto.
      + f_equal. rewrite filter_filter. apply filter_ext. intros e. cbn [memb].
        destruct (eqb (fst e) k) eqn:E1; destruct (eqb k (fst e)) eqn:E2; auto; exfalso.
        * apply Heqb in E1. rewrite <- E1 in E2. rewrite (proj2 (Heqb _ _) eq_refl) in E2. discriminate.
        * apply Heqb in E2. rewrite <- E2 in E1. rewrite (proj2 (Heqb _ _) eq_refl) in E1. discriminate.
      + apply NoDup_keys_filter; auto.
      + intros k' Hk'. assert (Hd : In k' (dkeys d)) by (apply HI; simpl; auto).
        unfold dkeys in *. apply in_map_iff in Hd. destruct Hd as (e & <- & He).
        apply in_map, filter_In. split; auto.
        destruct (eqb (fst e) k) eqn:E; auto. apply Heqb in E. subst k. contradiction.
  Qed.

  Variable d : list (K * V).
  Hypothesis Hd : NoDup (dkeys d).

  Definition dd_rel (s : dd K V) (p : pass) : Prop :=
    dd_dict s = d /\
    dd_iter s = option_map (fun n => skipn n d) (passed p) /\
    (forall n, passed p = Some n -> (n <= length d)%nat) /\
    dd_mode s = showing p /\
    (match at_entry p with
     | None => dd_key s = None
     | Some n => exists k, dd_key s = Some k /\ nth_error (dkeys d) n = Some k
     end) /\
    NoDup (dd_marks s) /\
    (forall k, In k (dd_marks s) <-> exists n, In n (to_delete p) /\ nth_error (dkeys d) n = Some k).

  Ltac conj_auto := repeat (split; [solve [auto]|]); auto.
  Lemma dd_step_ok s p o : dd_rel s p ->
    snd (dd_step eqb s o) = dd_answer d p o /\ dd_rel (fst (dd_step eqb s o)) (dd_after d p o).
  Proof.
    intros (R1 & R2 & R3 & R4 & R5 & R6 & R7). destruct o; simpl.
    - split; auto. unfold dd_rel; simpl. rewrite R1. split; [auto|]. split; [auto|]. split; [intros n E; inversion E; lia|].
      conj_auto.
    - unfold dd_next. rewrite R2. destruct (passed p) as [n|] eqn:P; simpl.
      2:{ split; auto. unfold dd_rel. rewrite P. conj_auto. }
      rewrite skipn_nth. destruct (nth_error d n) as [[k v]|] eqn:N.
      + assert (L : (n < length d)%nat) by (apply nth_error_Some; congruence).
        apply Nat.ltb_lt in L as L'. rewrite L'. simpl. split.
        * rewrite R4. destruct (showing p); reflexivity.
        * unfold dd_rel; simpl. split; [auto|]. split; [auto|]. split; [intros m E; inversion E; lia|].
          split; [auto|]. split; [|auto]. exists k. split; auto. unfold dkeys. rewrite nth_error_map, N. reflexivity.
      + assert (L : (length d <= n)%nat) by (apply nth_error_None; auto).
        apply Nat.ltb_ge in L as L'. rewrite L'. simpl. split; auto.
        unfold dd_rel. rewrite P. conj_auto.
    - split; auto. unfold dd_rel; simpl. conj_auto.
    - unfold dd_delete. destruct (at_entry p) as [n|] eqn:A.
      + destruct R5 as (k & Hk & Hn). rewrite Hk. simpl. split; auto.
        unfold dd_rel; simpl. rewrite ?A. do 4 (split; [auto|]). split; [exists k; auto|].
        split.
        * destruct (memb eqb k (dd_marks s)) eqn:M; auto.
          apply NoDup_app_intro; auto; [constructor; [simpl; tauto|constructor]|].
          intros y Hy [<-|[]]. apply (memb_false Heqb) in M. auto.
        * intros k'.
          assert (Q : In k' (if memb eqb k (dd_marks s) then dd_marks s else dd_marks s ++ [k]) <-> k' = k \/ In k' (dd_marks s)).
          { destruct (memb eqb k (dd_marks s)) eqn:M.
            - apply (memb_In Heqb) in M. split; auto. intros [->|]; auto.
            - rewrite in_app_iff. simpl. intuition congruence. }
          rewrite Q, R7. split.
          -- intros [->|(m & Hm & Hm')]; [exists n; simpl; auto|exists m; simpl; auto].
          -- intros (m & [->|Hm] & Hm'); [left; congruence|right; exists m; auto].
      + rewrite R5. simpl. split; auto. unfold dd_rel. rewrite A. conj_auto.
  Qed.

  Lemma dd_run_ok ops : forall s p, dd_rel s p ->
    dd_session d p ops (fst (dd_run eqb s ops)) /\ dd_rel (snd (dd_run eqb s ops)) (fold_left (dd_after d) ops p).
  Proof.
    induction ops as [|o t IH]; intros s p R; simpl; auto.
    destruct (dd_step_ok s p o R) as [H1 H2].
    destruct (dd_step eqb s o) as [s1 out]. simpl in *.
    specialize (IH s1 _ H2). destruct (dd_run eqb s1 t) as [outs s']. simpl in *. tauto.
  Qed.

  Lemma nth_keys_inj i j k : nth_error (dkeys d) i = Some k -> nth_error (dkeys d) j = Some k -> i = j.
  Proof.
    intros Hi Hj. apply (proj1 (NoDup_nth_error (dkeys d)) Hd); [|congruence].
    apply nth_error_Some. congruence.
  Qed.

  Lemma dd_with_ok body order :
    dd_session d pass0 body (fst (dd_with eqb d body order)) /\
    snd (dd_with eqb d body order) = (unmarked (dd_marked d body) d, None).
  Proof.
    unfold dd_with.
    assert (R : dd_rel (dd_enter d) pass0).
    { unfold dd_rel; simpl. split; [auto|]. split; [auto|]. split; [discriminate|]. split; [auto|]. split; [auto|].
      split; [constructor|]. intros k. split; [tauto|]. intros (n & [] & _). }
    destruct (dd_run_ok body _ _ R) as [H1 H2].
    destruct (dd_run eqb (dd_enter d) body) as [outs s]. simpl in *. split; auto.
    destruct H2 as (R1 & _ & _ & _ & _ & R6 & R7).
    unfold dd_exit. rewrite R1.
    set (ks := if enumerates eqb order (dd_marks s) then order else dd_marks s).
    assert (KS : NoDup ks /\ forall k, In k ks <-> In k (dd_marks s)).
    { unfold ks. destruct (enumerates eqb order (dd_marks s)) eqn:E; [|split; [auto|tauto]].
      unfold enumerates in E. rewrite !andb_true_iff, !forallb_forall in E. destruct E as [[E1 E2] E3].
      split; [apply distinct_NoDup; auto|]. intros k.
      split; intros H; [apply (memb_In Heqb), E2|apply (memb_In Heqb), E3]; auto. }
    destruct KS as [KN KI].
    rewrite del_all_ok; auto.
    2:{ intros k Hk. apply KI, R7 in Hk. destruct Hk as (n & _ & Hn). eapply nth_error_In; eauto. }
    f_equal. rewrite unmarked_keep. symmetry. apply keep_filter.
    intros j e Hj. simpl. unfold dd_marked.
    assert (HK : nth_error (dkeys d) j = Some (fst e)) by (unfold dkeys; rewrite nth_error_map, Hj; reflexivity).
    apply eq_true_iff_eq. rewrite existsb_exists, (memb_In Heqb), KI, R7. split.
    - intros (n & Hn & En). apply Nat.eqb_eq in En. subst n. exists j. auto.
    - intros (n & Hn & En). exists n. split; auto. apply Nat.eqb_eq. eapply nth_keys_inj; eauto.
  Qed.
End Dict.

(** ** ListDeleter *)
Section Lists.
  Context {T : Type}.
  Open Scope Z_scope.

  Lemma del_nth_app (pre : list T) x t : del_nth (length pre) (pre ++ x :: t) = pre ++ t.
  Proof. induction pre; simpl; congruence. Qed.

  Lemma remove_loop_ok marks (copy : list T) : forall index delta pre,
    length pre = (index - delta)%nat -> (delta <= index)%nat ->
    ld_remove_loop marks index delta copy (pre ++ copy) =
    pre ++ keep (fun i => existsb (Z.eqb (Z.of_nat i)) marks) index copy.
  Proof.
    assert (M : forall z, memb Z.eqb z marks = existsb (Z.eqb z) marks).
    { intros z. induction marks as [|h t IH]; simpl; auto. rewrite Z.eqb_sym.
      destruct (z =? h); simpl; auto. }
    induction copy as [|x t IH]; intros index delta pre HL HD; simpl; auto.
    rewrite M. destruct (existsb (Z.eqb (Z.of_nat index)) marks).
    - rewrite <- HL, del_nth_app. apply IH; lia.
    - change (pre ++ x :: t) with (pre ++ [x] ++ t). rewrite app_assoc.
      rewrite IH; [|rewrite app_length; cbn [length]; lia|lia].
      rewrite <- app_assoc. reflexivity.
  Qed.

  Lemma remove_ok marks (l : list T) :
    ld_remove_loop marks 0 0 l l = unmarked (fun i => existsb (Z.eqb (Z.of_nat i)) marks) l.
  Proof. rewrite unmarked_keep. apply (remove_loop_ok marks l 0 0 []); reflexivity. Qed.

  Definition abs (s : ld T) : cur T :=
    {| contents := ld_list s; forward := ld_fwd s; cursor := ld_idx s; marked := ld_marks s; done := ld_removed s |}.

  Lemma py_index_plain (l : list T) i : 0 <= i -> py_index l i = nth_error l (Z.to_nat i).
  Proof.
    intros H. unfold py_index. destruct (i <? 0) eqn:E; [apply Z.ltb_lt in E; lia|].
    rewrite E. reflexivity.
  Qed.

  Lemma py_index_nil i : py_index ([] : list T) i = None.
  Proof.
    unfold py_index, zlen. simpl. destruct (i <? 0) eqn:E.
    - apply Z.ltb_lt in E. destruct (i + 0 <? 0) eqn:E2; auto. apply Z.ltb_ge in E2. lia.
    - rewrite E. destruct (Z.to_nat i); reflexivity.
  Qed.

  Lemma elem_at_ok (s : ld T) i e : -1 <= i -> (ld_list s = [] \/ i <> -1) ->
    match py_index (ld_list s) i with Some x => LOElem x | None => LORaise e end = or_raise (elem_at (abs s) i) e.
  Proof.
    intros Hi [H|H]; unfold elem_at; simpl.
    - rewrite H, py_index_nil. destruct (i <? 0); auto. destruct (Z.to_nat i); reflexivity.
    - rewrite py_index_plain by lia. destruct (i <? 0) eqn:E; [apply Z.ltb_lt in E; lia|]. reflexivity.
  Qed.

  Lemma step_pos (s : ld T) o : -1 <= ld_idx s -> -1 <= ld_idx (fst (ld_step s o)).
  Proof.
    intros H. destruct o; simpl; auto;
      unfold ld_origin, zlen, ld_next, ld_prev, ld_remove, ld_reversed, ld_init, ld_origin, zlen;
      repeat match goal with |- context [if ?b then _ else _] => destruct b eqn:? end; simpl; try lia;
      repeat match goal with
      | E : ld_fwd s = _ |- _ => rewrite E in *; clear E
      | E : (_ && _) = false |- _ => apply andb_false_iff in E
      | E : (_ && _) = true |- _ => apply andb_true_iff in E
      end; simpl in *;
      repeat match goal with E : _ \/ _ |- _ => destruct E; try discriminate end;
      repeat match goal with E : (_ =? _) = false |- _ => apply Z.eqb_neq in E end; try lia.
  Qed.

  Lemma ld_step_ok (s : ld T) o : -1 <= ld_idx s ->
    (ld_documented (abs s) o -> snd (ld_step s o) = ld_answer (abs s) o) /\
    abs (fst (ld_step s o)) = ld_after (abs s) o.
  Proof.
    intros Hpos. pose proof (step_pos s o Hpos) as Hpos'.
    destruct o; cbn [ld_step fst snd] in *.
    - split; reflexivity.
    - unfold ld_next in *. unfold ld_answer, ld_after, ld_documented, target, goes_up. simpl.
      unfold zlen in *.
      destruct (ld_fwd s) eqn:F; simpl in *.
      + destruct (ld_idx s =? Z.of_nat (length (ld_list s))) eqn:E; simpl in *.
        * split; [|unfold abs; rewrite F; reflexivity]. intros _. apply Z.eqb_eq in E.
          unfold elem_at; simpl. rewrite E. destruct (Z.of_nat (length (ld_list s)) <? 0); auto.
          rewrite Nat2Z.id, (proj2 (nth_error_None _ _)); auto.
        * unfold ld_at, ld_move; simpl. split; [|unfold abs; simpl; rewrite F; reflexivity].
          intros _. apply elem_at_ok; lia.
      + destruct (ld_idx s =? -1) eqn:E; simpl in *.
        * split; [reflexivity|]. apply Z.eqb_eq in E. unfold abs. rewrite F, E. reflexivity.
        * unfold ld_at, ld_move; simpl. replace (ld_idx s + -1) with (ld_idx s - 1) in * by lia.
          split; [|unfold abs; simpl; rewrite F; reflexivity].
          apply Z.eqb_neq in E. intros [H|[H|H]]; [|lia|]; apply elem_at_ok; auto; lia.
    - unfold ld_prev in *. unfold ld_answer, ld_after, ld_documented, target, goes_up. simpl.
      unfold zlen in *.
      destruct (ld_fwd s) eqn:F; simpl in *.
      + destruct (ld_idx s =? -1) eqn:E; simpl in *.
        * split; [reflexivity|]. apply Z.eqb_eq in E. unfold abs. rewrite F, E. reflexivity.
        * unfold ld_at, ld_move; simpl. replace (ld_idx s + -1) with (ld_idx s - 1) in * by lia.
          split; [|unfold abs; simpl; rewrite F; reflexivity].
          apply Z.eqb_neq in E. intros [H|[H|H]]; [|lia|]; apply elem_at_ok; auto; lia.
      + destruct (ld_idx s =? Z.of_nat (length (ld_list s))) eqn:E; simpl in *.
        * split; [|unfold abs; rewrite F; reflexivity]. intros _. apply Z.eqb_eq in E.
          unfold elem_at; simpl. rewrite E. destruct (Z.of_nat (length (ld_list s)) <? 0); auto.
          rewrite Nat2Z.id, (proj2 (nth_error_None _ _)); auto.
        * unfold ld_at, ld_move; simpl. split; [|unfold abs; simpl; rewrite F; reflexivity].
          intros _. apply elem_at_ok; lia.
    - split; [|reflexivity]. simpl. intros H. unfold ld_at. apply elem_at_ok; auto.
    - split; reflexivity.
    - split; [reflexivity|]. unfold ld_remove. simpl. destruct (ld_removed s) eqn:E; [unfold abs; rewrite E; reflexivity|].
      unfold abs; simpl. rewrite remove_ok. reflexivity.
    - split; reflexivity.
    - split; reflexivity.
    - split; reflexivity.
  Qed.

  Lemma ld_session_ok ops : forall s : ld T, -1 <= ld_idx s ->
    ld_session false (abs s) ops (fst (ld_run s ops)).
  Proof.
    induction ops as [|o t IH]; intros s H; simpl; auto.
    destruct (ld_step_ok s o H) as [H1 H2]. pose proof (step_pos s o H) as H3.
    destruct (ld_step s o) as [s1 out]. simpl in *. specialize (IH s1 H3).
    destruct (ld_run s1 t) as [outs s']. simpl in *. rewrite <- H2. split; auto.
    intros [E|E]; [discriminate|auto].
  Qed.

  Lemma init_pos (l : list T) fwd : -1 <= ld_idx (ld_init l fwd).
  Proof. unfold ld_init, ld_origin, zlen. simpl. destruct fwd; lia. Qed.

  (** *** the loop *)
  Lemma for_forward p (l : list T) rm fuel : forall n marks,
    (n <= length l)%nat -> (length l - n < fuel)%nat ->
    exists marks' i, ld_for fuel p {| ld_list := l; ld_fwd := true; ld_idx := Z.of_nat n - 1; ld_marks := marks; ld_removed := rm |}
      = Some (skipn n l, {| ld_list := l; ld_fwd := true; ld_idx := i; ld_marks := marks'; ld_removed := rm |}) /\
      forall j x, nth_error l j = Some x ->
        (In (Z.of_nat j) marks' <-> In (Z.of_nat j) marks \/ ((n <= j)%nat /\ p x = true)).
  Proof.
    induction fuel as [|fuel IH]; intros n marks Hn Hf; [lia|].
    cbn [ld_for]. unfold ld_next, zlen, ld_at, ld_move; simpl.
    destruct (Z.of_nat n - 1 =? Z.of_nat (length l)) eqn:E; [apply Z.eqb_eq in E; lia|].
    rewrite py_index_plain by lia. replace (Z.to_nat (Z.of_nat n - 1 + 1)) with n by lia.
    rewrite skipn_nth. destruct (nth_error l n) as [x|] eqn:N.
    - assert (L : (n < length l)%nat) by (apply nth_error_Some; congruence).
      set (marks1 := if p x then Z.of_nat n :: marks else marks).
      destruct (IH (S n) marks1) as (marks' & i & H1 & H2); [lia|lia|].
      exists marks', i. split.
      + replace (if p x then _ else _) with
          {| ld_list := l; ld_fwd := true; ld_idx := Z.of_nat (S n) - 1; ld_marks := marks1; ld_removed := rm |}.
        * rewrite H1. reflexivity.
        * unfold marks1, ld_delete; cbn [ld_list ld_fwd ld_idx ld_marks ld_removed].
          replace (Z.of_nat n - 1 + 1) with (Z.of_nat n) by lia.
          replace (Z.of_nat (S n) - 1) with (Z.of_nat n) by lia.
          destruct (p x); reflexivity.
      + intros j y Hj. rewrite (H2 j y Hj). unfold marks1.
        destruct (Nat.eq_dec j n) as [->|Ne].
        * rewrite N in Hj. inversion Hj; subst y. destruct (p x) eqn:P; simpl.
          -- split; intros _; [right|left]; auto.
          -- split; [intros [H|[H _]]; [auto|lia]|intros [H|[_ H]]; [auto|discriminate]].
        * assert (Q : In (Z.of_nat j) (if p x then Z.of_nat n :: marks else marks) <-> In (Z.of_nat j) marks).
          { destruct (p x); [|tauto]. simpl. split; [intros [H|H]; [lia|auto]|auto]. }
          rewrite Q. split; (intros [H|[H1' H2']]; [auto|right; split; [lia|auto]]).
    - assert (L : (length l <= n)%nat) by (apply nth_error_None; auto).
      exists marks, (Z.of_nat n - 1 + 1). split; [reflexivity|].
      intros j x Hj. assert ((j < length l)%nat) by (apply nth_error_Some; congruence).
      split; auto. intros [H'|[H' _]]; [auto|lia].
  Qed.

  (** going back past the first element, the loop sees the last one again *)
  Lemma for_backward p (l : list T) rm y fuel : forall n marks,
    nth_error l (length l - 1) = Some y ->
    (n <= length l)%nat -> (n + 1 < fuel)%nat ->
    exists marks' i, ld_for fuel p {| ld_list := l; ld_fwd := false; ld_idx := Z.of_nat n; ld_marks := marks; ld_removed := rm |}
      = Some (rev (firstn n l) ++ [y], {| ld_list := l; ld_fwd := false; ld_idx := i; ld_marks := marks'; ld_removed := rm |}) /\
      forall j x, nth_error l j = Some x ->
        (In (Z.of_nat j) marks' <-> In (Z.of_nat j) marks \/ ((j < n)%nat /\ p x = true)).
  Proof.
    induction fuel as [|fuel IH]; intros n marks Hy Hn Hf; [lia|].
    assert (L0 : (length l <> 0)%nat) by (destruct l; simpl in *; [discriminate|lia]).
    cbn [ld_for]. unfold ld_next, zlen, ld_at, ld_move; simpl.
    destruct (Z.of_nat n =? -1) eqn:E; [apply Z.eqb_eq in E; lia|]. simpl.
    destruct n as [|n].
    - assert (P : py_index l (-1) = Some y).
      { unfold py_index, zlen. change (-1 <? 0) with true. cbv iota zeta.
        destruct (-1 + Z.of_nat (length l) <? 0) eqn:E2; [apply Z.ltb_lt in E2; lia|].
        replace (Z.to_nat (-1 + Z.of_nat (length l))) with (length l - 1)%nat by lia. exact Hy. }
      change (Z.of_nat 0 + -1) with (-1). rewrite P. destruct fuel as [|fuel]; [lia|].
      destruct (p y); simpl.
      + exists (-1 :: marks), (-1). split; [reflexivity|].
        intros j x Hj. simpl. split; [intros [H|H]; [lia|auto]|intros [H|[H _]]; [auto|lia]].
      + exists marks, (-1). split; [reflexivity|].
        intros j x Hj. split; [auto|intros [H|[H _]]; [auto|lia]].
    - destruct (nth_error l n) as [x|] eqn:N; [|apply nth_error_None in N; lia].
      replace (Z.of_nat (S n) + -1) with (Z.of_nat n) by lia.
      rewrite py_index_plain by lia. rewrite Nat2Z.id, N.
      set (marks1 := if p x then Z.of_nat n :: marks else marks).
      destruct (IH n marks1) as (marks' & i & H1 & H2); auto; try lia.
      exists marks', i. split.
      + replace (if p x then _ else _) with
          {| ld_list := l; ld_fwd := false; ld_idx := Z.of_nat n; ld_marks := marks1; ld_removed := rm |}.
        * rewrite H1. rewrite (firstn_snoc l n x N), rev_app_distr. reflexivity.
        * unfold marks1, ld_delete; simpl. destruct (p x); reflexivity.
      + intros j z Hj. rewrite (H2 j z Hj). unfold marks1.
        destruct (Nat.eq_dec j n) as [->|Ne].
        * rewrite N in Hj. inversion Hj; subst z. destruct (p x) eqn:P; simpl.
          -- split; intros _; [right; split; [lia|auto]|left; auto].
          -- split; [intros [H|[H _]]; [auto|lia]|intros [H|[_ H]]; [auto|discriminate]].
        * assert (Q : In (Z.of_nat j) (if p x then Z.of_nat n :: marks else marks) <-> In (Z.of_nat j) marks).
          { destruct (p x); [|tauto]. simpl. split; [intros [H|H]; [lia|auto]|auto]. }
          rewrite Q. split; (intros [H|[H1' H2']]; [auto|right; split; [lia|auto]]).
  Qed.

  Lemma removed_by p (l : list T) marks i fwd :
    (forall j x, nth_error l j = Some x -> (In (Z.of_nat j) marks <-> p x = true)) ->
    ld_list (ld_remove {| ld_list := l; ld_fwd := fwd; ld_idx := i; ld_marks := marks; ld_removed := false |})
    = filter (fun x => negb (p x)) l.
  Proof.
    intros H. unfold ld_remove; simpl. rewrite remove_ok, unmarked_keep. apply keep_filter.
    intros j x Hj. simpl. apply eq_true_iff_eq. rewrite existsb_exists, <- (H j x Hj). split.
    - intros (z & Hz & E). apply Z.eqb_eq in E. subst z. exact Hz.
    - intros Hz. exists (Z.of_nat j). split; auto. apply Z.eqb_refl.
  Qed.

  Lemma with_forward (l : list T) p : ld_with l true p = Some (l, filter (fun x => negb (p x)) l).
  Proof.
    unfold ld_with, ld_iter, ld_init, ld_origin. simpl.
    destruct (for_forward p l false (length l + 2) 0 []) as (marks & i & H1 & H2); [lia|lia|].
    simpl in H1. rewrite H1. do 2 f_equal. apply removed_by.
    intros j x Hj. rewrite (H2 j x Hj). simpl. split; [intros [[]|[_ H]]; auto|intros H; right; split; [lia|auto]].
  Qed.

  Lemma with_backward (l : list T) x p :
    ld_with (l ++ [x]) false p = Some (rev (l ++ [x]) ++ [x], filter (fun x => negb (p x)) (l ++ [x])).
  Proof.
    unfold ld_with, ld_iter, ld_init, ld_origin, zlen. cbn [ld_list ld_fwd ld_removed].
    destruct (for_backward p (l ++ [x]) false x (length (l ++ [x]) + 2) (length (l ++ [x])) []) as (marks & i & H1 & H2).
    - rewrite app_length. simpl. rewrite nth_error_app2 by lia.
      replace (length l + 1 - 1 - length l)%nat with 0%nat by lia. reflexivity.
    - lia.
    - lia.
    - rewrite H1, firstn_all. do 2 f_equal. apply removed_by.
      intros j z Hj. rewrite (H2 j z Hj). simpl.
      assert (j < length (l ++ [x]))%nat by (apply nth_error_Some; congruence).
      split; [intros [[]|[_ H']]; auto|intros H'; right; split; auto].
  Qed.
End Lists.
