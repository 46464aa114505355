From Verif Require Import Prelude PreludeFacts Order_Spec Heapq_Model.

Set Implicit Arguments.

Section Heapq.
  Context {A : Type}.
  Variable lt : A -> A -> bool.
  Hypothesis Hord : total_preorder lt.
  Implicit Types (h l : list A).

  Local Notation le a b := (lt b a = false).

  Lemma le_trans a b c : le a b -> le b c -> le a c.
  Proof. destruct Hord as [_ H]. apply H. Qed.
  Lemma lt_le a b : lt a b = true -> le a b.
  Proof. destruct Hord as [H _]. apply H. Qed.
  Lemma le_refl a : le a a.
  Proof. destruct (lt a a) eqn:E; auto. pose proof (lt_le E). congruence. Qed.

  Definition par (i : nat) := Nat.div2 (i - 1).
  Lemma par_lt i : 0 < i -> par i < i.
  Proof.
    unfold par. intros H. assert (Nat.div2 (i-1) <= i - 1).
    { apply Nat.div2_decr. lia. } lia.
  Qed.
  Lemma par_child_iff p i : 0 < i -> (par i = p <-> i = 2*p+1 \/ i = 2*p+2).
  Proof.
    intros H. unfold par. rewrite Nat.div2_div.
    pose proof (Nat.div_mod (i-1) 2). pose proof (Nat.mod_upper_bound (i-1) 2).
    lia.
  Qed.

  (** descendants: the parent chain from j reaches s *)
  Inductive desc (s : nat) : nat -> Prop :=
  | desc_refl : desc s s
  | desc_step j : 0 < j -> desc s (par j) -> desc s j.

  Lemma desc_ge s j : desc s j -> s <= j.
  Proof.
    induction 1 as [|j H1 H2 IH]; auto. pose proof (par_lt H1). lia.
  Qed.

  Lemma desc_inv s j : desc s j -> s < j -> desc s (par j).
  Proof. intros H Hlt. inversion H; subst; auto. lia. Qed.

  Lemma desc_0 j : desc 0 j.
  Proof.
    induction j as [j IH] using lt_wf_ind. destruct j as [|j].
    - constructor.
    - apply desc_step; [lia|]. apply IH. apply par_lt. lia.
  Qed.

  (** ** contents *)
  Lemma swap_perm h i j a b :
    i <> j -> i < length h -> nth_error h j = Some b ->
    Permutation (upd (upd h i b) j a) (upd h i a).
  Proof.
    intros Hij Hi Hj.
    destruct (nth_error h i) as [c|] eqn:Ei.
    2: { apply nth_error_None in Ei. lia. }
    assert (H1 : Permutation (c :: upd h i b) (b :: h)) by (apply upd_perm; auto).
    assert (H2 : Permutation (b :: upd (upd h i b) j a) (a :: upd h i b)).
    { apply upd_perm. rewrite nth_error_upd_neq; auto. }
    assert (H3 : Permutation (c :: upd h i a) (a :: h)) by (apply upd_perm; auto).
    apply Permutation_cons_inv with (a := c).
    rewrite H3.
    apply Permutation_cons_inv with (a := b).
    rewrite perm_swap. rewrite H2. rewrite perm_swap. rewrite H1. apply perm_swap.
  Qed.

  Lemma siftdown_loop_perm fuel h s pos x :
    pos < fuel -> pos < length h ->
    Permutation (siftdown_loop lt fuel h s pos x) (upd h pos x).
  Proof.
    revert h pos. induction fuel as [|f IH]; intros h pos Hf Hp; [lia|].
    cbn [siftdown_loop]. destruct (Nat.ltb_spec s pos) as [Hs|Hs]; auto.
    fold (par pos). assert (Hpp : par pos < pos) by (apply par_lt; lia).
    destruct (nth_error h (par pos)) as [p|] eqn:Ep.
    2: { apply nth_error_None in Ep. lia. }
    destruct (lt x p) eqn:El; auto.
    rewrite IH; [|lia|rewrite upd_length; lia].
    apply swap_perm; auto. lia.
  Qed.

  Lemma siftdown_perm h s pos :
    pos < length h -> Permutation (siftdown lt h s pos) h.
  Proof.
    intros H. unfold siftdown. destruct (nth_error h pos) as [x|] eqn:E.
    2: { apply nth_error_None in E. lia. }
    rewrite siftdown_loop_perm; auto. rewrite upd_same; auto.
  Qed.

  (** heap-ordered edges *)
  Definition edge h (p i : nat) : Prop :=
    forall a b, nth_error h p = Some a -> nth_error h i = Some b -> le a b.

  Definition heapFrom (s : nat) h : Prop :=
    forall i, 0 < i -> s <= par i -> edge h (par i) i.

  Lemma edge_upd_other h p i k x : k <> p -> k <> i -> edge h p i -> edge (upd h k x) p i.
  Proof. unfold edge. intros H1 H2 H a b. rewrite !nth_error_upd_neq; auto. Qed.

  (** loop invariant of _siftdown *)
  Definition sdInv (s : nat) h (pos : nat) : Prop :=
    (forall i, 0 < i -> s <= par i -> i <> pos -> edge h (par i) i) /\
    (s < pos -> forall i, 0 < i -> par i = pos -> edge h (par pos) i).

  Lemma siftdown_loop_heap fuel h s pos x :
    pos < fuel -> pos < length h -> desc s pos ->
    sdInv s (upd h pos x) pos ->
    heapFrom s (siftdown_loop lt fuel h s pos x).
  Proof.
    revert h pos. induction fuel as [|f IH]; intros h pos Hf Hp Hd [I1 I2]; [lia|].
    cbn [siftdown_loop]. destruct (Nat.ltb_spec s pos) as [Hs|Hs].
    2: {
      assert (s = pos) by (pose proof (desc_ge Hd); lia). subst s.
      intros i Hi Hpi. apply I1; auto. intros ->. pose proof (par_lt Hi). lia. }
    fold (par pos). assert (Hpp : par pos < pos) by (apply par_lt; lia).
    destruct (nth_error h (par pos)) as [p|] eqn:Ep.
    2: { apply nth_error_None in Ep. lia. }
    assert (Ep' : nth_error (upd h pos x) (par pos) = Some p).
    { rewrite nth_error_upd_neq; auto. lia. }
    assert (Ex' : nth_error (upd h pos x) pos = Some x) by (apply nth_error_upd_eq; auto).
    destruct (lt x p) eqn:El.
    - apply IH; try (rewrite ?upd_length; lia); [apply desc_inv; auto|].
      set (h2 := upd (upd h pos p) (par pos) x).
      assert (G1 : nth_error h2 (par pos) = Some x).
      { apply nth_error_upd_eq. rewrite upd_length. lia. }
      assert (G2 : nth_error h2 pos = Some p).
      { unfold h2. rewrite nth_error_upd_neq by lia. apply nth_error_upd_eq. lia. }
      assert (G3 : forall i, i <> pos -> i <> par pos ->
                        nth_error h2 i = nth_error (upd h pos x) i).
      { intros i H1 H2. unfold h2. rewrite !nth_error_upd_neq by auto. reflexivity. }
      split.
      + intros i Hi Hpi Hne a b Ha Hb.
        destruct (Nat.eq_dec i pos) as [->|Hi1].
        * rewrite G1 in Ha. rewrite G2 in Hb. injection Ha as <-. injection Hb as <-.
          apply lt_le; auto.
        * rewrite G3 in Hb by auto.
          destruct (Nat.eq_dec (par i) pos) as [E|E].
          -- (* child of pos: its parent is now p *)
             rewrite E in *. rewrite G2 in Ha. injection Ha as <-.
             apply (I2 Hs i Hi E p b); auto.
          -- destruct (Nat.eq_dec (par i) (par pos)) as [E2|E2].
             ++ rewrite E2 in Ha. rewrite G1 in Ha. injection Ha as <-.
                apply le_trans with p; [apply lt_le; auto|].
                assert (HI := I1 i Hi Hpi Hi1). unfold edge in HI. rewrite E2 in HI. apply (HI p b); auto.
             ++ rewrite G3 in Ha by auto. apply (I1 i Hi Hpi Hi1 a b); auto.
      + intros Hs2 i Hi Epar a b Ha Hb.
        (* i is a child of par pos; its grandparent is par (par pos) *)
        assert (Hpp2 : par (par pos) < par pos) by (apply par_lt; lia).
        rewrite G3 in Ha by lia.
        assert (Hgp : edge (upd h pos x) (par (par pos)) (par pos)).
        { apply I1; [lia| |lia]. assert (desc s (par (par pos))).
          { apply desc_inv; auto. apply desc_inv; auto. }
          apply (desc_ge H). }
        destruct (Nat.eq_dec i pos) as [->|Hi1].
        * rewrite G2 in Hb. injection Hb as <-. apply (Hgp a p); auto.
        * rewrite G3 in Hb by (auto; pose proof (par_lt Hi); lia).
          apply le_trans with p; [apply (Hgp a p); auto|].
          assert (HI := I1 i Hi). rewrite Epar in HI.
          apply (HI ltac:(apply desc_ge; apply desc_inv; auto) Hi1 p b); auto.
    - intros i Hi Hpi. destruct (Nat.eq_dec i pos) as [->|Hi1].
      + intros a b Ha Hb. rewrite Ep' in Ha. rewrite Ex' in Hb. congruence.
      + apply I1; auto.
  Qed.

  Lemma siftdown_heap h s pos :
    pos < length h -> desc s pos -> sdInv s h pos -> heapFrom s (siftdown lt h s pos).
  Proof.
    intros Hp Hd HI. unfold siftdown. destruct (nth_error h pos) as [x|] eqn:E.
    2: { apply nth_error_None in E. lia. }
    apply siftdown_loop_heap; auto. rewrite upd_same; auto.
  Qed.

  (** ** _siftup *)
  (* invariant of the leaf-sinking loop; contents at the hole are irrelevant *)
  Definition suInv (s : nat) h (pos : nat) : Prop :=
    (forall i, 0 < i -> s <= par i -> i <> pos -> par i <> pos -> edge h (par i) i) /\
    (s < pos -> forall i, 0 < i -> par i = pos -> edge h (par pos) i).

  Lemma siftup_loop_spec fuel h s pos x :
    length h < fuel + pos -> pos < length h -> desc s pos -> suInv s h pos ->
    let '(h', p') := siftup_loop lt fuel h pos in
    length h' = length h /\ p' < length h /\ desc s p' /\
    Permutation (upd h' p' x) (upd h pos x) /\ sdInv s (upd h' p' x) p'.
  Proof.
    revert h pos. induction fuel as [|f IH]; intros h pos Hf Hp Hd [I1 I2]; [lia|].
    cbn [siftup_loop].
    destruct (Nat.ltb_spec (2*pos+1) (length h)) as [Hc|Hc].
    - set (cp := if 2*pos+1+1 <? length h then _ else _).
      assert (Hcp : (cp = 2*pos+1 \/ cp = 2*pos+2) /\ cp < length h /\
                    forall i c b, (i = 2*pos+1 \/ i = 2*pos+2) ->
                       nth_error h cp = Some c -> nth_error h i = Some b -> le c b).
      { unfold cp. destruct (Nat.ltb_spec (2*pos+1+1) (length h)) as [Hr|Hr].
        - destruct (nth_error h (2*pos+1)) as [c|] eqn:Ec.
          2: { apply nth_error_None in Ec. lia. }
          destruct (nth_error h (2*pos+1+1)) as [r|] eqn:Er.
          2: { apply nth_error_None in Er. lia. }
          assert (E22 : 2*pos+2 = 2*pos+1+1) by lia.
          destruct (lt c r) eqn:El; cbn [negb].
          + split; [auto|split; [lia|]]. intros i c0 b Hi Hc0 Hb.
            rewrite Ec in Hc0. injection Hc0 as <-. destruct Hi as [->| ->].
            * rewrite Ec in Hb. injection Hb as <-. apply le_refl.
            * rewrite E22, Er in Hb. injection Hb as <-. apply lt_le; auto.
          + split; [lia|split; [lia|]]. intros i c0 b Hi Hc0 Hb.
            rewrite Er in Hc0. injection Hc0 as <-. destruct Hi as [->| ->].
            * rewrite Ec in Hb. injection Hb as <-. exact El.
            * rewrite E22, Er in Hb. injection Hb as <-. apply le_refl.
        - split; [auto|split; [lia|]]. intros i c0 b Hi Hc0 Hb.
          destruct Hi as [->| ->].
          + rewrite Hc0 in Hb. injection Hb as <-. apply le_refl.
          + assert (2*pos+2 < length h) by (apply nth_error_Some; congruence). lia. }
      clearbody cp. destruct Hcp as (Hcp & Hcl & Hmin).
      destruct (nth_error h cp) as [c|] eqn:Ec.
      2: { apply nth_error_None in Ec. lia. }
      assert (Hpc : par cp = pos) by (apply par_child_iff; lia).
      assert (Hspos := desc_ge Hd).
      assert (Hup : forall i, i <> pos -> nth_error (upd h pos c) i = nth_error h i)
        by (intros; apply nth_error_upd_neq; auto).
      assert (Hat : nth_error (upd h pos c) pos = Some c) by (apply nth_error_upd_eq; auto).
      specialize (IH (upd h pos c) cp).
      destruct (siftup_loop lt f (upd h pos c) cp) as [h' p'] eqn:Eloop.
      rewrite upd_length in IH.
      destruct IH as (J1 & J2 & J3 & J4 & J5).
      + lia.
      + lia.
      + apply desc_step; [lia|]. rewrite Hpc; auto.
      + split.
        * intros i Hi Hpi Hne Hpne a b Ha Hb.
          destruct (Nat.eq_dec i pos) as [->|E1].
          -- rewrite Hat in Hb. injection Hb as <-.
             rewrite Hup in Ha by (pose proof (par_lt Hi); lia).
             refine (I2 _ cp _ Hpc a c Ha Ec); [|lia]. pose proof (par_lt Hi); lia.
          -- rewrite Hup in Hb by auto.
             destruct (Nat.eq_dec (par i) pos) as [E2|E2].
             ++ rewrite E2, Hat in Ha. injection Ha as <-.
                apply (Hmin i c b); auto. apply par_child_iff; auto.
             ++ rewrite Hup in Ha by auto. apply (I1 i Hi Hpi E1 E2 a b); auto.
        * intros Hs i Hi Epi a b Ha Hb. rewrite Hpc, Hat in Ha. injection Ha as <-.
          pose proof (par_lt Hi) as Hlti.
          rewrite Hup in Hb by lia.
          assert (HI := I1 i Hi). rewrite Epi in HI.
          apply (HI ltac:(lia) ltac:(lia) ltac:(lia) c b); auto.
      + split; [auto|split; [auto|split; [auto|split; [|auto]]]].
        rewrite J4. apply swap_perm; auto. lia.
    - split; [auto|split; [auto|split; [auto|split; [reflexivity|]]]].
      split.
      + intros i Hi Hpi Hne a b Ha Hb.
        destruct (Nat.eq_dec (par i) pos) as [E|E].
        * exfalso. apply par_child_iff in E; auto.
          assert (i < length (upd h pos x)) by (apply nth_error_Some; congruence).
          rewrite upd_length in *. lia.
        * rewrite nth_error_upd_neq in Ha, Hb by auto. apply (I1 i Hi Hpi Hne E a b); auto.
      + intros Hs i Hi Epi a b Ha Hb. exfalso.
        apply par_child_iff in Epi; auto.
        assert (i < length (upd h pos x)) by (apply nth_error_Some; congruence).
        rewrite upd_length in *. lia.
  Qed.

  Lemma siftup_spec h s :
    s < length h -> heapFrom (S s) h ->
    Permutation (siftup lt h s) h /\ heapFrom s (siftup lt h s).
  Proof.
    intros Hs HF. unfold siftup. destruct (nth_error h s) as [x|] eqn:E.
    2: { apply nth_error_None in E. lia. }
    pose proof (@siftup_loop_spec (S (length h)) h s s x) as Hl.
    destruct (siftup_loop lt (S (length h)) h s) as [h' p'].
    destruct Hl as (J1 & J2 & J3 & J4 & J5); auto.
    - lia.
    - constructor.
    - split.
      + intros i Hi Hpi H1 H2. apply HF; auto. lia.
      + intros; lia.
    - rewrite <- J1 in J2. split.
      + rewrite siftdown_perm by (rewrite upd_length; auto).
        rewrite J4. rewrite upd_same; auto.
      + apply siftdown_heap; auto. rewrite upd_length; auto.
  Qed.

  Lemma heapify_from_spec i h :
    i <= length h -> heapFrom i h ->
    Permutation (heapify_from lt i h) h /\ heapFrom 0 (heapify_from lt i h).
  Proof.
    revert h. induction i as [|i IH]; intros h Hi HF; simpl.
    - split; auto.
    - destruct (@siftup_spec h i) as [P1 P2]; auto.
      destruct (IH (siftup lt h i)) as [Q1 Q2]; auto.
      + rewrite (Permutation_length P1). lia.
      + split; auto. rewrite Q1. exact P1.
  Qed.

  Lemma heapify_spec h :
    Permutation (heapify lt h) h /\ heapFrom 0 (heapify lt h).
  Proof.
    unfold heapify. apply heapify_from_spec.
    - apply Nat.div2_decr. lia.
    - intros i Hi Hpi a b Ha Hb. exfalso.
      assert (i < length h) by (apply nth_error_Some; congruence).
      unfold par in Hpi. rewrite !Nat.div2_div in *.
      pose proof (Nat.div_mod (i-1) 2). pose proof (Nat.mod_upper_bound (i-1) 2).
      pose proof (Nat.div_mod (length h) 2). pose proof (Nat.mod_upper_bound (length h) 2).
      lia.
  Qed.

  Lemma nth_error_app_last l x i b :
    nth_error (l ++ [x]) i = Some b -> i <> length l -> nth_error l i = Some b /\ i < length l.
  Proof.
    intros H Hi. assert (i < length (l ++ [x])) by (apply nth_error_Some; congruence).
    rewrite app_length in *. simpl in *. rewrite nth_error_app1 in H by lia. split; auto. lia.
  Qed.

  Lemma heappush_spec h x :
    heapFrom 0 h ->
    Permutation (heappush lt h x) (x :: h) /\ heapFrom 0 (heappush lt h x).
  Proof.
    intros HF. unfold heappush. split.
    - rewrite siftdown_perm by (rewrite app_length; simpl; lia).
      rewrite Permutation_app_comm. reflexivity.
    - apply siftdown_heap.
      + rewrite app_length; simpl; lia.
      + apply desc_0.
      + split.
        * intros i Hi Hpi Hne a b Ha Hb.
          apply nth_error_app_last in Hb; auto. destruct Hb as [Hb Hlt].
          pose proof (par_lt Hi).
          rewrite nth_error_app1 in Ha by lia. apply (HF i Hi Hpi a b); auto.
        * intros _ i Hi Ep a b Ha Hb. exfalso.
          apply par_child_iff in Ep; auto.
          assert (i < length (h ++ [x])) by (apply nth_error_Some; congruence).
          rewrite app_length in *. simpl in *. lia.
  Qed.

  Lemma heap_root_min h m :
    heapFrom 0 h -> nth_error h 0 = Some m -> minimum_of lt m h.
  Proof.
    intros HF Hm x Hx. apply In_nth_error in Hx. destruct Hx as [i Hi].
    revert x Hi. induction i as [i IH] using lt_wf_ind. intros x Hi.
    destruct i as [|i].
    - rewrite Hm in Hi. injection Hi as <-. apply le_refl.
    - assert (Hlt : par (S i) < S i) by (apply par_lt; lia).
      assert (S i < length h) by (apply nth_error_Some; congruence).
      destruct (nth_error h (par (S i))) as [y|] eqn:Ey.
      2: { apply nth_error_None in Ey. lia. }
      apply le_trans with y.
      + apply (IH _ Hlt); auto.
      + apply (HF (S i) ltac:(lia) ltac:(lia) y x); auto.
  Qed.

  Lemma rev_eq_cons l x r : rev l = x :: r -> l = rev r ++ [x].
  Proof. intros H. rewrite <- (rev_involutive l), H. reflexivity. Qed.

  Lemma heappop_None h : heappop lt h = None <-> h = [].
  Proof.
    unfold heappop. destruct (rev h) as [|x r] eqn:E.
    - split; auto. intros _. destruct h; auto. apply (f_equal (@length A)) in E.
      rewrite rev_length in E. discriminate.
    - split.
      + destruct (rev r); discriminate.
      + intros ->. discriminate.
  Qed.

  Lemma heappop_spec h m h' :
    heapFrom 0 h -> heappop lt h = Some (m, h') ->
    Permutation h (m :: h') /\ heapFrom 0 h' /\ minimum_of lt m h /\ nth_error h 0 = Some m.
  Proof.
    intros HF. unfold heappop. destruct (rev h) as [|x r] eqn:E; [discriminate|].
    apply rev_eq_cons in E. destruct (rev r) as [|m0 t] eqn:Er.
    - intros H. injection H as <- <-. subst h. simpl.
      split; [auto|split].
      + intros i Hi Hpi a b Ha Hb. destruct i; [lia|]. simpl in Hb. destruct i; discriminate.
      + split; auto. intros y [<-|[]]. apply le_refl.
    - intros H. injection H as <- <-. subst h. simpl upd.
      assert (H0 : nth_error ((m0 :: t) ++ [x]) 0 = Some m0) by reflexivity.
      destruct (@siftup_spec (x :: t) 0) as [P1 P2]; [simpl; lia| |].
      { intros i Hi Hpi a b Ha Hb.
        assert (i < length (x :: t)) by (apply nth_error_Some; congruence).
        pose proof (par_lt Hi).
        apply (HF i Hi ltac:(lia) a b).
        - rewrite nth_error_app1 by (simpl in *; lia). destruct (par i); [lia|]. auto.
        - rewrite nth_error_app1 by (simpl in *; lia). destruct i; [lia|]. auto. }
      split; [|split; [auto|split; [|auto]]].
      + rewrite P1. simpl. constructor. rewrite Permutation_app_comm. reflexivity.
      + apply heap_root_min; auto.
  Qed.

  Lemma heappop_length h m h' :
    heapFrom 0 h -> heappop lt h = Some (m, h') -> length h = S (length h').
  Proof. intros HF H. destruct (heappop_spec HF H) as [P _]. apply (Permutation_length P). Qed.

  Lemma minimum_of_perm m l l' : Permutation l l' -> minimum_of lt m l -> minimum_of lt m l'.
  Proof. unfold minimum_of. intros P H x Hx. apply H. apply (Permutation_in _ (Permutation_sym P) Hx). Qed.

  Lemma ascending_cons x l : ascending lt (x :: l) <-> minimum_of lt x l /\ ascending lt l.
  Proof.
    unfold ascending, minimum_of. split.
    - intros H. split.
      + intros y Hy. apply In_nth_error in Hy. destruct Hy as [n Hn].
        apply (H 0 (S n) x y); auto. lia.
      + intros i j a b Hij Ha Hb. apply (H (S i) (S j) a b); auto. lia.
    - intros [H1 H2] [|i] [|j] a b Hij Ha Hb; try lia; simpl in *.
      + injection Ha as <-. apply H1. eapply nth_error_In; eauto.
      + apply (H2 i j a b); auto. lia.
  Qed.

  Lemma ascending_nil : ascending lt [].
  Proof. intros [|i] j a b Hij Ha; discriminate. Qed.
End Heapq.
