From Verif Require Import Prelude PreludeFacts MoreFacts PySeq_Model Iterators_Proofs Parser_Model Parser_Spec.
Local Open Scope Z_scope.

Section P.
  Context {B V : Type}.
  Variable stream : list B.

  Lemma slice_ok (a b : nat) : (a <= b <= length stream)%nat -> slice stream (Z.of_nat a) (Z.of_nat b) = firstn (b - a) (skipn a stream).
  Proof.
    intros H. unfold slice, py_slice, slice_stop, slice_start, slice_bound.
    destruct (Z.of_nat a <? 0) eqn:E1; [apply Z.ltb_lt in E1; lia|].
    destruct (Z.of_nat b <? 0) eqn:E2; [apply Z.ltb_lt in E2; lia|].
    rewrite !Nat2Z.id. replace (Nat.min b (length stream)) with b by lia. replace (Nat.min a (length stream)) with a by lia. reflexivity.
  Qed.

  Definition same (p : parser) (r : reader B) : Prop :=
    init_ofs p = Z.of_nat (origin r) /\ len p = Z.of_nat (length (window r)) /\
    pointer p = Z.of_nat (origin r + consumed r) /\ (consumed r <= length (window r))%nat /\
    (origin r + length (window r) <= length stream)%nat /\
    window r = firstn (length (window r)) (skipn (origin r) stream).

  Lemma same_enough p r n : same p r -> has_bytes p n = enough r n.
  Proof.
    intros (H1 & H2 & H3 & H4 & H5 & H6). unfold has_bytes, enough, left_to_read. rewrite skipn_length.
    destruct (len p + init_ofs p <? pointer p + n) eqn:E, (n <=? Z.of_nat (length (window r) - consumed r)) eqn:E2; auto; exfalso.
    - apply Z.ltb_lt in E. apply Z.leb_le in E2. lia.
    - apply Z.ltb_ge in E. apply Z.leb_gt in E2. lia.
  Qed.

  Lemma same_slice p r n : same p r -> 0 <= n -> enough r n = true ->
    slice stream (pointer p) (pointer p + n) = next_bytes r n.
  Proof.
    intros (H1 & H2 & H3 & H4 & H5 & H6) Hn He. unfold enough, left_to_read in He. rewrite skipn_length in He. apply Z.leb_le in He.
    unfold next_bytes, left_to_read. rewrite H3.
    replace (Z.of_nat (origin r + consumed r) + n) with (Z.of_nat (origin r + consumed r + Z.to_nat n)) by lia.
    rewrite slice_ok by lia.
    replace (origin r + consumed r + Z.to_nat n - (origin r + consumed r))%nat with (Z.to_nat n) by lia.
    rewrite H6. rewrite skipn_firstn_comm, firstn_firstn.
    replace (Nat.min (Z.to_nat n) (length (window r) - consumed r)) with (Z.to_nat n) by lia.
    rewrite skipn_skipn_add. first [reflexivity|f_equal; f_equal; lia].
  Qed.

  Lemma same_advance p r n : same p r -> 0 <= n -> enough r n = true ->
    same (set_pointer p (pointer p + n)) (advance r n).
  Proof.
    intros (H1 & H2 & H3 & H4 & H5 & H6) Hn He. unfold enough, left_to_read in He. rewrite skipn_length in He. apply Z.leb_le in He.
    unfold same, set_pointer, advance. simpl. repeat split; auto; lia.
  Qed.

  Lemma next_bytes_length (r : reader B) n : 0 <= n -> enough r n = true -> length (next_bytes r n) = Z.to_nat n.
  Proof. intros Hn He. unfold next_bytes. rewrite firstn_length. unfold enough in He. apply Z.leb_le in He. lia. Qed.

  Lemma same_sub p r n : same p r -> 0 < n -> enough r n = true ->
    exists q, new_parser stream (pointer p) (Some n) = Ok q /\ same q (mk_reader (next_bytes r n) (origin r + consumed r) 0).
  Proof.
    intros S Hn He. pose proof (next_bytes_length r n ltac:(lia) He) as Hl.
    pose proof (same_slice p r n S ltac:(lia) He) as Hs.
    destruct S as (H1 & H2 & H3 & H4 & H5 & H6). unfold enough, left_to_read in He. rewrite skipn_length in He. apply Z.leb_le in He.
    unfold new_parser, stream_len. destruct (n =? 0) eqn:E0; [apply Z.eqb_eq in E0; lia|].
    destruct (Z.of_nat (length stream) <? pointer p) eqn:E; [apply Z.ltb_lt in E; lia|].
    eexists. split; [reflexivity|]. unfold same. simpl. rewrite Hl. repeat split; auto; try lia.
    rewrite <- Hs, H3. replace (Z.of_nat (origin r + consumed r) + n) with (Z.of_nat (origin r + consumed r + Z.to_nat n)) by lia.
    rewrite slice_ok by lia. f_equal. lia.
  Qed.

  Lemma Forall2_upd {X Y} (R : X -> Y -> Prop) l1 l2 i x y : Forall2 R l1 l2 -> R x y -> Forall2 R (upd l1 i x) (upd l2 i y).
  Proof.
    intros H Hr. revert i. induction H as [|a b l1 l2 Hab H IH]; intros [|i]; simpl; constructor; auto.
  Qed.
  Lemma Forall2_nth {X Y} (R : X -> Y -> Prop) l1 l2 i : Forall2 R l1 l2 ->
    match nth_error l1 i, nth_error l2 i with Some x, Some y => R x y | None, None => True | _, _ => False end.
  Proof.
    intros H. revert i. induction H as [|a b l1 l2 Hab H IH]; intros [|i]; simpl; auto. apply IH.
  Qed.
  Lemma upd_id {X} (l : list X) i x : nth_error l i = Some x -> upd l i x = l.
  Proof. apply upd_same. Qed.

  Lemma step_ok ps rs i (o : parser_op B V) : Forall2 same ps rs -> (forall r, nth_error rs i = Some r -> proper_op 1 r o) ->
    snd (parser_step stream ps i o) = snd (readers_step rs i o) /\
    Forall2 same (fst (parser_step stream ps i o)) (fst (readers_step rs i o)).
  Proof.
    intros F Hp. pose proof (Forall2_nth same ps rs i F) as N. unfold parser_step, readers_step.
    destruct (nth_error ps i) as [p|] eqn:Ep, (nth_error rs i) as [r|] eqn:Er; try contradiction; [|split; auto].
    specialize (Hp r eq_refl).
    assert (K : forall q s, same q s -> Forall2 same (upd ps i q) (upd rs i s ++ [])).
    { intros q s Hs. rewrite app_nil_r. apply Forall2_upd; auto. }
    assert (K0 : Forall2 same ps (upd rs i r ++ [])).
    { rewrite app_nil_r, upd_id; auto. }
    assert (K1 : Forall2 same (upd ps i p) (upd rs i r ++ [])) by (apply K; auto).
    destruct o as [n|n|n|n| |st|st| | | | | |k]; cbn [reader_call proper_op] in *.
    - unfold get_bytes. rewrite (same_enough p r n N). destruct (enough r n) eqn:E; simpl; split; auto.
      + rewrite (same_slice p r n N Hp E). reflexivity.
      + apply K. apply same_advance; auto.
    - unfold skip. rewrite (same_enough p r n N). destruct (enough r n) eqn:E; simpl; split; auto.
      apply K. apply same_advance; auto.
    - rewrite (same_enough p r n N). simpl. split; auto.
    - unfold get_parser. rewrite (same_enough p r n N). destruct (enough r n) eqn:E; simpl; [|split; auto].
      destruct (same_sub p r n N ltac:(lia) E) as (q & Eq & Sq). rewrite Eq. simpl. split; auto.
      apply Forall2_app; [apply Forall2_upd; auto; apply same_advance; auto; lia|constructor; auto].
    - simpl. split; auto. apply K. destruct N as (H1 & H2 & H3 & H4 & H5 & H6). unfold same, reset. simpl. repeat split; auto; lia.
    - unfold get_struct. destruct (single st); simpl; [|split; auto].
      rewrite (same_enough p r _ N). destruct (enough r (Z.of_nat (size st))) eqn:E; simpl; split; auto.
      + rewrite (same_slice p r _ N (Nat2Z.is_nonneg _) E). reflexivity.
      + apply K. apply same_advance; auto. lia.
    - unfold get_structs.
      rewrite (same_enough p r _ N). destruct (enough r (Z.of_nat (size st))) eqn:E; simpl; split; auto.
      + rewrite (same_slice p r _ N (Nat2Z.is_nonneg _) E). reflexivity.
      + apply K. apply same_advance; auto. lia.
    - simpl. split; auto. destruct N as (H1 & H2 & H3 & H4 & H5 & H6). unfold get_remaining_bytes_count, left_to_read.
      rewrite skipn_length. f_equal. lia.
    - simpl. split; auto. unfold get_remaining_bytes. destruct N as (H1 & H2 & H3 & H4 & H5 & H6).
      assert (E : enough r (Z.of_nat (length (window r) - consumed r)) = true).
      { unfold enough, left_to_read. rewrite skipn_length. apply Z.leb_le. lia. }
      replace (len p - (pointer p - init_ofs p)) with (Z.of_nat (length (window r) - consumed r)) by lia.
      rewrite (same_slice p r); [|unfold same; auto 10|lia|exact E].
      unfold next_bytes, left_to_read. rewrite Nat2Z.id. rewrite firstn_all2; auto. rewrite skipn_length. lia.
    - simpl. split; auto. unfold to_bytes. destruct N as (H1 & H2 & H3 & H4 & H5 & H6). rewrite H1, H2.
      rewrite <- Nat2Z.inj_add, slice_ok by lia.
      replace (origin r + length (window r) - origin r)%nat with (length (window r)) by lia. rewrite <- H6. reflexivity.
    - simpl. split; auto. destruct N as (H1 & H2 & _). rewrite H2. reflexivity.
    - simpl. split; auto. destruct N as (H1 & H2 & H3 & _). rewrite H3. reflexivity.
    - simpl. split; auto. apply K. destruct N as (H1 & H2 & H3 & H4 & H5 & H6). unfold same. simpl. repeat split; auto; lia.
  Qed.

  Lemma run_ok (ops : list (nat * parser_op B V)) : forall ps rs, Forall2 same ps rs -> proper 1 rs ops ->
    fst (parser_run stream ps ops) = readers_run rs ops.
  Proof.
    induction ops as [|[i o] t IH]; intros ps rs F H; simpl; auto. destruct H as [Hp Ht].
    destruct (step_ok ps rs i o F Hp) as [E F']. destruct (parser_step stream ps i o) as [ps' out], (readers_step rs i o) as [rs' out'].
    simpl in *. subst out'. specialize (IH ps' rs' F' Ht). destruct (parser_run stream ps' t). simpl in *. congruence.
  Qed.

  Lemma new_ok offset len : proper_window stream offset len -> (offset <= length stream)%nat ->
    exists p r, new_parser stream (Z.of_nat offset) (option_map Z.of_nat len) = Ok p /\ new_reader stream offset len = Ok r /\ same p r.
  Proof.
    intros H Ho. unfold new_parser, new_reader, stream_len.
    destruct (Z.of_nat (length stream) <? Z.of_nat offset) eqn:E; [apply Z.ltb_lt in E; lia|].
    destruct (length stream <? offset)%nat eqn:E2; [apply Nat.ltb_lt in E2; lia|].
    do 2 eexists. split; [reflexivity|]. split; [reflexivity|]. unfold same. simpl. destruct len as [l|]; simpl in *.
    - destruct (Z.of_nat l =? 0) eqn:E0; [apply Z.eqb_eq in E0; lia|].
      assert (El : length (firstn l (skipn offset stream)) = l) by (rewrite firstn_length, skipn_length; lia).
      rewrite El. repeat split; auto; lia.
    - subst offset. simpl. rewrite firstn_all. repeat split; auto; lia.
  Qed.

  Lemma session_ok offset len (ops : list (nat * parser_op B V)) p r :
    proper_window stream offset len ->
    new_parser stream (Z.of_nat offset) (option_map Z.of_nat len) = Ok p -> new_reader stream offset len = Ok r ->
    proper 1 [r] ops -> fst (parser_run stream [p] ops) = readers_run [r] ops.
  Proof.
    intros Hw Hp Hr Hops.
    assert (Ho : (offset <= length stream)%nat).
    { unfold new_reader in Hr. destruct (length stream <? offset)%nat eqn:E; [discriminate|]. apply Nat.ltb_ge in E. exact E. }
    destruct (new_ok offset len Hw Ho) as (p' & r' & E1 & E2 & S). rewrite Hp in E1. rewrite Hr in E2. injection E1 as <-. injection E2 as <-.
    apply run_ok; auto.
  Qed.
  Lemma new_same offset len : proper_window stream offset len ->
    (new_parser stream (Z.of_nat offset) (option_map Z.of_nat len) = Err NotEnoughBytes <-> new_reader stream offset len = Err NotEnoughBytes).
  Proof.
    intros _. unfold new_parser, new_reader, stream_len.
    destruct (Z.of_nat (length stream) <? Z.of_nat offset) eqn:E, (length stream <? offset)%nat eqn:E2; try tauto.
    - apply Z.ltb_lt in E. apply Nat.ltb_ge in E2. lia.
    - apply Z.ltb_ge in E. apply Nat.ltb_lt in E2. lia.
    - split; discriminate.
  Qed.
End P.

(** the specification does not lose bytes *)
Lemma reader_counts {B V} (rs : list (reader B)) ops : Forall (fun r => (consumed r <= length (window r))%nat) rs -> @proper B V 0 rs ops ->
  Forall (fun r => (consumed r <= length (window r))%nat) (fold_left (fun rs io => fst (readers_step rs (fst io) (snd io))) ops rs).
Proof.
  revert rs. induction ops as [|[i o] t IH]; intros rs F H; simpl; auto. destruct H as [Hp Ht]. apply IH; auto.
  unfold readers_step. destruct (nth_error rs i) as [r|] eqn:E; auto. specialize (Hp r eq_refl).
  assert (Hr : (consumed r <= length (window r))%nat) by (rewrite Forall_forall in F; apply F; eapply nth_error_In; eauto).
  destruct (reader_call r o) as [[r' out] new] eqn:Ec. simpl. apply Forall_app.
  assert (G : (consumed r' <= length (window r'))%nat /\ Forall (fun r => (consumed r <= length (window r))%nat) new).
  { assert (A : forall n, enough r n = true -> (consumed (advance r n) <= length (window (advance r n)))%nat).
    { intros n En. unfold enough, left_to_read in En. rewrite skipn_length in En. apply Z.leb_le in En. unfold advance. simpl. lia. }
    destruct o; cbn [reader_call] in Ec;
      try (destruct (enough r n) eqn:En); try (destruct (single st)); cbn [negb] in Ec; try (destruct (enough r (Z.of_nat (size st))) eqn:En);
      injection Ec as <- _ <-; split; auto; try (constructor; simpl; auto; lia); simpl; simpl in Hp; try lia. }
  destruct G as [G1 G2]. split; auto. clear - F G1. revert i.
  induction F as [|a l Ha F IH]; intros [|i]; simpl; constructor; auto.
Qed.
