From Verif Require Import Prelude PreludeFacts MoreFacts Pool_Model Pool_Spec.

Lemma nth_upd_cases (l : list pthread) i x t th : nth_error (upd l i x) t = Some th ->
  (t = i /\ th = x) \/ (t <> i /\ nth_error l t = Some th).
Proof.
  intros H. destruct (Nat.eq_dec t i) as [->|N].
  - left. split; auto. assert (i < length l) by (rewrite <- (upd_length l i x); apply nth_error_Some; rewrite H; discriminate).
    rewrite nth_error_upd_eq in H by auto. congruence.
  - right. split; auto. rewrite nth_error_upd_neq in H; auto.
Qed.
Lemma nth_lt {X} (l : list X) t x : nth_error l t = Some x -> t < length l.
Proof. intros H. apply nth_error_Some. rewrite H. discriminate. Qed.

(** ** counting *)
Definition occ (x : nat) (l : list nat) : nat := length (filter (Nat.eqb x) l).
Definition own (th : pthread) : list nat := held th ++ moving (at_ th).
Fixpoint owned (x : nat) (l : list pthread) : nat := match l with [] => 0 | th :: r => occ x (own th) + owned x r end.
Lemma occ_app x a b : occ x (a ++ b) = occ x a + occ x b.
Proof. unfold occ. rewrite filter_app, app_length. reflexivity. Qed.
Lemma occ_cons x a l : occ x (a :: l) = (if Nat.eqb x a then 1 else 0) + occ x l.
Proof. unfold occ. simpl. destruct (Nat.eqb x a); reflexivity. Qed.
Lemma occ_In x l : In x l <-> 1 <= occ x l.
Proof.
  unfold occ. split.
  - intros H. assert (In x (filter (Nat.eqb x) l)) as K by (apply filter_In; rewrite Nat.eqb_refl; auto). destruct (filter (Nat.eqb x) l); [destruct K|simpl; lia].
  - intros H. destruct (filter (Nat.eqb x) l) as [|y r] eqn:E; [simpl in H; lia|]. assert (In y (filter (Nat.eqb x) l)) as K by (rewrite E; left; auto).
    apply filter_In in K. destruct K as [K1 K2]. apply Nat.eqb_eq in K2. subst. auto.
Qed.
Lemma occ_perm x a b : Permutation a b -> occ x a = occ x b.
Proof. induction 1; auto; rewrite ?occ_cons; lia. Qed.
Lemma occ_count x l : occ x l = count_occ Nat.eq_dec l x.
Proof. induction l as [|a l IH]; auto. rewrite occ_cons, IH. simpl. destruct (Nat.eq_dec a x) as [->|N]; [rewrite Nat.eqb_refl|destruct (Nat.eqb_spec x a); [congruence|]]; reflexivity. Qed.
Lemma owned_upd x (l : list pthread) t th th' : nth_error l t = Some th -> owned x (upd l t th') + occ x (own th) = owned x l + occ x (own th').
Proof. revert t. induction l as [|a l IH]; intros [|t] E; simpl in *; try discriminate; [injection E as ->; lia|specialize (IH _ E); lia]. Qed.
Lemma owned_ge x (l : list pthread) t th : nth_error l t = Some th -> occ x (own th) <= owned x l.
Proof. revert t. induction l as [|a l IH]; intros [|t] E; simpl in *; try discriminate; [injection E as ->; lia|specialize (IH _ E); lia]. Qed.
Lemma owned_two x (l : list pthread) t u th uth : t <> u -> nth_error l t = Some th -> nth_error l u = Some uth -> occ x (own th) + occ x (own uth) <= owned x l.
Proof.
  revert t u. induction l as [|a l IH]; intros [|t] [|u] N Et Eu; simpl in *; try discriminate; try congruence.
  - injection Et as ->. pose proof (owned_ge x _ _ _ Eu). lia.
  - injection Eu as ->. pose proof (owned_ge x _ _ _ Et). lia.
  - assert (t <> u) as N' by congruence. specialize (IH _ _ N' Et Eu). lia.
Qed.
Lemma occ_flat x (l : list pthread) : occ x (flat_map held l ++ flat_map (fun th => moving (at_ th)) l) = owned x l.
Proof. induction l as [|a l IH]; auto. simpl. rewrite <- IH. unfold own. rewrite !occ_app. lia. Qed.

(** ** history *)
Definition marked (l : list act) (x : nat) : Prop := In (Marked x) l.
Lemma torn_snoc l a : torn (l ++ [a]) = torn l ++ match a with Tore c => [c] | _ => [] end.
Proof. unfold torn. rewrite flat_map_app. simpl. rewrite app_nil_r. reflexivity. Qed.
Lemma taken_snoc l a x : taken (l ++ [a]) x = taken l x + match a with Took c => if Nat.eqb x c then 1 else 0 | _ => 0 end.
Proof.
  unfold taken, took. rewrite flat_map_app, count_occ_app. simpl. rewrite app_nil_r. destruct a; simpl; auto.
  destruct (Nat.eq_dec c x) as [->|N]; [rewrite Nat.eqb_refl; auto|destruct (Nat.eqb_spec x c); [congruence|auto]].
Qed.
Lemma marked_snoc l a x : marked (l ++ [a]) x <-> marked l x \/ a = Marked x.
Proof. unfold marked. rewrite in_app_iff. simpl. tauto. Qed.

Section PoolProofs.
  Variables maxn maxc : Z.
  Notation cap := (Z.max 1 maxc).
  Definition Qpool (cs : list (nat * Z)) (tr : list act) (x : nat) : Prop :=
    exists n, dget Nat.eqb cs x = Some n /\ n = Z.of_nat (taken tr x) /\ (n < maxc)%Z /\ ~ marked tr x.
  Definition Qnew (cs : list (nat * Z)) (tr : list act) (x : nat) : Prop := dget Nat.eqb cs x = None /\ taken tr x = 0 /\ ~ marked tr x.
  Definition Qheld (cs : list (nat * Z)) (tr : list act) (x : nat) : Prop :=
    exists n, dget Nat.eqb cs x = Some n /\ (Z.of_nat (taken tr x) <= cap)%Z /\ (marked tr x -> (maxc <= n)%Z) /\ ((n < maxc)%Z -> n = Z.of_nat (taken tr x)).
  Definition Qdying (cs : list (nat * Z)) (tr : list act) (x : nat) : Prop := (exists n, dget Nat.eqb cs x = Some n) /\ (Z.of_nat (taken tr x) <= cap)%Z.
  Definition Qgone (cs : list (nat * Z)) (tr : list act) (x : nat) : Prop := dget Nat.eqb cs x = None /\ (Z.of_nat (taken tr x) <= cap)%Z.
  Definition same_view (cs : list (nat * Z)) tr (cs' : list (nat * Z)) tr' (x : nat) : Prop := dget Nat.eqb cs' x = dget Nat.eqb cs x /\ taken tr' x = taken tr x /\ (marked tr' x <-> marked tr x).
  Lemma view_Qpool cs tr cs' tr' x : same_view cs tr cs' tr' x -> Qpool cs tr x -> Qpool cs' tr' x.
  Proof. intros (V1 & V2 & V3). unfold Qpool. rewrite V1, V2. intros (n & H1 & H2 & H3 & H4). exists n. rewrite V3. auto. Qed.
  Lemma view_Qnew cs tr cs' tr' x : same_view cs tr cs' tr' x -> Qnew cs tr x -> Qnew cs' tr' x.
  Proof. intros (V1 & V2 & V3). unfold Qnew. rewrite V1, V2, V3. auto. Qed.
  Lemma view_Qheld cs tr cs' tr' x : same_view cs tr cs' tr' x -> Qheld cs tr x -> Qheld cs' tr' x.
  Proof. intros (V1 & V2 & V3). unfold Qheld. rewrite V1, V2. intros (n & H1 & H2 & H3 & H4). exists n. rewrite V3. auto. Qed.
  Lemma view_Qdying cs tr cs' tr' x : same_view cs tr cs' tr' x -> Qdying cs tr x -> Qdying cs' tr' x.
  Proof. intros (V1 & V2 & V3). unfold Qdying. rewrite V1, V2. auto. Qed.
  Lemma view_Qgone cs tr cs' tr' x : same_view cs tr cs' tr' x -> Qgone cs tr x -> Qgone cs' tr' x.
  Proof. intros (V1 & V2 & V3). unfold Qgone. rewrite V1, V2. auto. Qed.
  Lemma view_refl cs tr x : same_view cs tr cs tr x.
  Proof. repeat split; auto. Qed.

  Definition place_info cs tr (th : pthread) : Prop :=
    match at_ th with
    | ACountLock x | ACount x => Qpool cs tr x \/ Qnew cs tr x
    | RCheck x => Qheld cs tr x
    | RPut x | ITear x => Qpool cs tr x
    | RKillLock x | RKill x => Qdying cs tr x
    | RTear x => Qgone cs tr x
    | FLock x | FMark x => In x (held th)
    | _ => True
    end.
  Lemma view_place cs tr cs' tr' th : (forall x, In x (own th) -> same_view cs tr cs' tr' x) -> place_info cs tr th -> place_info cs' tr' th.
  Proof.
    unfold own, place_info. intros H. destruct (at_ th) eqn:E; auto; simpl in H;
      try (assert (same_view cs tr cs' tr' c) as Hv by (apply H; apply in_or_app; right; left; auto));
      eauto using view_Qpool, view_Qheld, view_Qdying, view_Qgone.
    all: intros [K|K]; [left; eapply view_Qpool; eauto|right; eapply view_Qnew; eauto].
  Qed.

  Definition holds (p : place) : bool := match p with ACheck | AGet | ACreate | ACount _ | RKill _ | FMark _ | ILoop | IGet | ITear _ => true | _ => false end.
  Definition LInv (l : option nat) (ths : list pthread) : Prop :=
    (forall t th, nth_error ths t = Some th -> (holds (at_ th) = true <-> l = Some t)) /\ (forall t, l = Some t -> t < length ths).
  Definition lock_step (l l' : option nat) (t : nat) (th th' : pthread) : Prop :=
    (holds (at_ th') = holds (at_ th) /\ l' = l) \/ (holds (at_ th) = true /\ holds (at_ th') = false /\ l' = None) \/
    (l = None /\ holds (at_ th') = true /\ l' = Some t).
  Lemma LInv_upd l ths t th th' l' : LInv l ths -> nth_error ths t = Some th -> lock_step l l' t th th' -> LInv l' (upd ths t th').
  Proof.
    intros (Hh & Hb) E HL. pose proof (Hh _ _ E) as HhE. pose proof (nth_lt _ _ _ E) as Hlt. split.
    - intros u uth Eu. apply nth_upd_cases in Eu. destruct Eu as [[-> ->]|[N Eu]].
      + destruct HL as [[-> ->]|[(H1 & H2 & ->)|(H1 & H2 & ->)]]; auto; rewrite H2; split; congruence.
      + specialize (Hh _ _ Eu). destruct HL as [[H1 ->]|[(H1 & H2 & ->)|(H1 & H2 & ->)]]; auto.
        * apply HhE in H1. split; [intros Q; apply Hh in Q; congruence|congruence].
        * split; [intros Q; apply Hh in Q; congruence|congruence].
    - rewrite upd_length. intros u Hu. destruct HL as [[H1 ->]|[(H1 & H2 & ->)|(H1 & H2 & ->)]]; auto; congruence.
  Qed.

  Definition balance (q : list nat) (ths : list pthread) (tr : list act) (nx : nat) : Prop :=
    forall x, occ x q + owned x ths + occ x (torn tr) = if Nat.ltb x nx then 1 else 0.
  Definition small (q : list nat) : Prop := (0 < maxn)%Z -> (Z.of_nat (length q) <= maxn)%Z.
  Definition Inv (c : pool) : Prop :=
    LInv (plock c) (pthreads c) /\ dwf (counters c) /\ balance (idle c) (pthreads c) (trace c) (next c) /\
    (forall x, In x (idle c) -> Qpool (counters c) (trace c) x) /\
    (forall t th, nth_error (pthreads c) t = Some th -> (forall x, In x (held th) -> Qheld (counters c) (trace c) x) /\ place_info (counters c) (trace c) th /\ ~ In KeyErr (results th)) /\
    (forall x, In x (torn (trace c)) -> Qgone (counters c) (trace c) x) /\ (forall x, next c <= x -> Qnew (counters c) (trace c) x) /\ small (idle c).

  Lemma Inv_upd c t th th' l q cs tm fin nx tr :
    Inv c -> nth_error (pthreads c) t = Some th -> lock_step (plock c) l t th th' -> dwf cs ->
    ((cs = counters c /\ tr = trace c) \/ (exists x, In x (own th) /\ forall y, y <> x -> same_view (counters c) (trace c) cs tr y)) ->
    next c <= nx ->
    (forall x, occ x q + occ x (own th') + occ x (torn tr) + (if Nat.ltb x (next c) then 1 else 0) =
               occ x (idle c) + occ x (own th) + occ x (torn (trace c)) + if Nat.ltb x nx then 1 else 0) ->
    (forall x, In x q -> In x (idle c) \/ Qpool cs tr x) ->
    (forall x, In x (held th') -> (In x (held th) /\ same_view (counters c) (trace c) cs tr x) \/ Qheld cs tr x) ->
    place_info cs tr th' -> ~ In KeyErr (results th') ->
    (forall x, In x (torn tr) -> In x (torn (trace c)) \/ Qgone cs tr x) -> small q ->
    Inv (mk_pool l q cs tm fin nx tr (upd (pthreads c) t th')).
  Proof.
    intros (I1 & I2 & I3 & I4 & I5 & I6 & I7 & I8) E HL Hw Hv Hnx Hb Hq Hh Hp Hk Ht Hs.
    destruct (I5 _ _ E) as (J1 & J2 & J3).
    assert (forall y, ~ In y (own th) -> same_view (counters c) (trace c) cs tr y) as Hview.
    { intros y Ny. destruct Hv as [[-> ->]|(x & Hx & Hv)]; [apply view_refl|]. apply Hv. congruence. }
    assert (forall y, occ y (idle c) + occ y (torn (trace c)) >= 1 -> ~ In y (own th)) as Hnot.
    { intros y Hy K. apply occ_In in K. pose proof (owned_ge y _ _ _ E). specialize (I3 y). destruct (Nat.ltb y (next c)); lia. }
    split; [eapply LInv_upd; eauto|]. split; [auto|]. split; [|split; [|split; [|split; [|split]]]]; simpl; auto.
    - intros x. pose proof (owned_upd x _ _ _ th' E) as Ho. specialize (I3 x). specialize (Hb x). unfold balance in *. lia.
    - intros x Hx. destruct (Hq _ Hx) as [K|K]; auto. eapply view_Qpool; [apply Hview, Hnot|apply I4; auto]. apply occ_In in K. lia.
    - intros u uth Eu. apply nth_upd_cases in Eu. destruct Eu as [[-> ->]|[N Eu]].
      + split; [|auto]. intros x Hx. destruct (Hh _ Hx) as [[K1 K2]|K]; auto. eapply view_Qheld; eauto.
      + destruct (I5 _ _ Eu) as (K1 & K2 & K3).
        assert (forall y, In y (own uth) -> same_view (counters c) (trace c) cs tr y) as Hvu.
        { intros y Hy. apply Hview. intros K. apply occ_In in K. apply occ_In in Hy. pose proof (owned_two y _ _ _ _ _ N Eu E). specialize (I3 y). destruct (Nat.ltb y (next c)); lia. }
        split; [|split; [eapply view_place; eauto|auto]]. intros x Hx. eapply view_Qheld; [apply Hvu|apply K1; auto]. unfold own. apply in_or_app. auto.
    - intros x Hx. destruct (Ht _ Hx) as [K|K]; auto. eapply view_Qgone; [apply Hview, Hnot|apply I6; auto]. apply occ_In in K. lia.
    - intros x Hx. assert (next c <= x) as Hx' by lia. eapply view_Qnew; [apply Hview|apply I7; auto]. intros K. apply occ_In in K. pose proof (owned_ge x _ _ _ E). specialize (I3 x).
      destruct (Nat.ltb_spec x (next c)); lia.
  Qed.

  Ltac occs := let y := fresh "y" in intros y; unfold own; simpl; rewrite ?torn_snoc, ?occ_app, ?occ_cons; simpl; rewrite ?occ_app, ?occ_cons; simpl; unfold occ at 1; simpl; try lia.

  Lemma view_other_set cs tr x n y a : y <> x -> (forall z, a = Took z -> z = x) -> (forall z, a = Marked z -> z = x) -> same_view cs tr (dset Nat.eqb cs x n) (tr ++ [a]) y.
  Proof.
    intros N H1 H2. split; [apply (dget_dset_neq nateqb_ok); auto|]. rewrite taken_snoc, marked_snoc. split.
    - destruct a; try lia. rewrite (H1 _ eq_refl). destruct (Nat.eqb_spec y x); [congruence|lia].
    - split; [|auto]. intros [K|K]; auto. specialize (H2 _ K). congruence.
  Qed.
  Lemma view_tore cs tr x y : same_view cs tr cs (tr ++ [Tore x]) y.
  Proof. split; [auto|]. rewrite taken_snoc, marked_snoc. split; [lia|]. split; [intros [K|K]; [auto|discriminate]|auto]. Qed.
  Lemma view_del cs tr x y : y <> x -> same_view cs tr (ddel Nat.eqb cs x) tr y.
  Proof. intros N. split; [apply (dget_ddel_neq nateqb_ok); auto|]. split; [auto|tauto]. Qed.
  Lemma view_trans a b a' b' a'' b'' y : same_view a b a' b' y -> same_view a' b' a'' b'' y -> same_view a b a'' b'' y.
  Proof. intros (X1 & X2 & X3) (Y1 & Y2 & Y3). split; [congruence|]. split; [congruence|]. rewrite Y3. auto. Qed.
  Lemma view_del_tore cs tr x y : y <> x -> same_view cs tr (ddel Nat.eqb cs x) (tr ++ [Tore x]) y.
  Proof. intros N. exact (view_trans _ _ _ _ _ _ _ (view_del cs tr x y N) (view_tore _ tr x y)). Qed.
  Lemma occ_nil x : occ x [] = 0. Proof. reflexivity. Qed.

  Lemma Inv_turn c t ok : Inv c -> Inv (pturn maxn maxc c t ok).
  Proof.
    intros HI. pose proof HI as (I1 & I2 & I3 & I4 & I5 & I6 & I7 & I8). unfold pturn.
    destruct (nth_error (pthreads c) t) as [th|] eqn:E; auto. destruct (I5 _ _ E) as (J1 & J2 & J3). unfold place_info in J2.
    assert (forall th' l tm fin, lock_step (plock c) l t th th' -> (forall x, occ x (own th') = occ x (own th)) ->
      (forall x, In x (held th') -> In x (held th)) -> place_info (counters c) (trace c) th' -> ~ In KeyErr (results th') ->
      Inv (mk_pool l (idle c) (counters c) tm fin (next c) (trace c) (upd (pthreads c) t th'))) as Hsame.
    { intros th' l tm fin HL Ho Hh Hp Hk. eapply Inv_upd; eauto. }
    assert (forall r, r <> KeyErr -> ~ In KeyErr (results th ++ [r])) as Hres.
    { intros r Hr K. apply in_app_or in K. destruct K as [K|[K|[]]]; auto. }
    assert (forall p, holds p = true -> holds (at_ th) = false -> moving p = moving (at_ th) -> place_info (counters c) (trace c) (goto th p) ->
      Inv (match plock c with None => mk_pool (Some t) (idle c) (counters c) (terminating c) (finalized c) (next c) (trace c) (upd (pthreads c) t (goto th p)) | Some _ => c end)) as Hlock.
    { intros p H1 H2 H3 H4. destruct (plock c) as [u|] eqn:El; [exact HI|]. apply Hsame; auto.
      - right. right. simpl. auto.
      - unfold own. simpl. rewrite H3. auto. }
    destruct (at_ th) as [| | | | | |x|x|x|x|x|x|x|x|x| | | | |x] eqn:Ea; simpl in *;
      try (apply Hlock; rewrite ?Ea; auto; unfold place_info; simpl; auto; fail).
    - (* Outside *)
      destruct (todo th) as [|op rest]; auto.
      assert (forall p rr, moving p = [] -> holds p = false -> (forall r, In KeyErr rr -> In KeyErr (results th) \/ r) -> place_info (counters c) (trace c) (mk_pthread rest (held th) p rr) ->
        forall tm fin, Inv (mk_pool (plock c) (idle c) (counters c) tm fin (next c) (trace c) (upd (pthreads c) t (mk_pthread rest (held th) p rr)))) as Hgo.
      { intros p rr Hm Hh Hr Hp tm fin. apply Hsame; simpl; auto.
        - left. rewrite Ea. auto.
        - unfold own. simpl. rewrite Hm, Ea. auto.
        - intros K. destruct (Hr False K); auto. }
      assert (forall r, r <> KeyErr -> forall Q : Prop, In KeyErr (results th ++ [r]) -> In KeyErr (results th) \/ Q) as Hr2.
      { intros r Nr Q K. apply in_app_or in K. destruct K as [K|[K|[]]]; auto. congruence. }
      destruct op as [|k|k| |].
      + destruct (terminating c); apply Hgo; simpl; auto; try exact I. apply Hr2. discriminate.
      + destruct (nth_error (held th) k) as [x|] eqn:Ek; [|apply Hgo; simpl; auto; try (apply Hr2; discriminate); exact I].
        assert (In x (held th)) as Hin by (eapply nth_error_In; eauto).
        assert (forall y, occ y (held th) = (if Nat.eqb y x then 1 else 0) + occ y (del_nth k (held th))) as Hd.
        { intros y. rewrite <- occ_cons. apply occ_perm. symmetry. apply del_nth_perm. auto. }
        apply Hsame; simpl; auto.
        * left. rewrite Ea. auto.
        * intros y. unfold own. simpl. rewrite Ea. simpl. rewrite !occ_app, occ_cons, !occ_nil, Hd. lia.
        * intros y Hy. apply occ_In. apply occ_In in Hy. rewrite Hd. lia.
        * unfold place_info. simpl. auto.
      + destruct (nth_error (held th) k) as [x|] eqn:Ek; apply Hgo; simpl; auto; try (apply Hr2; discriminate); try exact I; unfold place_info; simpl; eapply nth_error_In; eauto.
      + apply Hgo; simpl; auto; exact I.
      + destruct (finalized c); apply Hgo; simpl; auto; try exact I. apply Hr2; discriminate.
    - (* AFirst *)
      destruct (idle c) as [|x q] eqn:Ei; [apply Hsame; simpl; auto; try exact I; try (left; rewrite Ea; auto; fail); try (right; left; rewrite Ea; auto; fail); try (unfold own; simpl; rewrite Ea; auto; fail); try (apply Hres; discriminate; fail)|].
      eapply Inv_upd; [exact HI|exact E|..]; auto.
      + left. rewrite Ea. auto.
      + intros y. rewrite Ei. unfold own. simpl. rewrite Ea. simpl. rewrite !occ_app, !occ_cons, !occ_nil. lia.
      + intros y Hy. left. rewrite Ei. right. auto.
      + unfold place_info. simpl. left. apply I4. left. auto.
      + intros Hp. specialize (I8 Hp). simpl in *. lia.
    - (* ACheck *)
      destruct (maxn <=? Z.of_nat (length (idle c)))%Z; apply Hsame; simpl; auto; try (left; rewrite Ea; auto; fail); try (unfold own; simpl; rewrite Ea; auto; fail); try exact I.
    - (* AGet *)
      destruct (idle c) as [|x q] eqn:Ei; [apply Hsame; simpl; auto; try exact I; try (left; rewrite Ea; auto; fail); try (right; left; rewrite Ea; auto; fail); try (unfold own; simpl; rewrite Ea; auto; fail); try (apply Hres; discriminate; fail)|].
      eapply Inv_upd; [exact HI|exact E|..]; auto.
      + right. left. rewrite Ea. auto.
      + intros y. rewrite Ei. unfold own. simpl. rewrite Ea. simpl. rewrite !occ_app, !occ_cons, !occ_nil. lia.
      + intros y Hy. left. rewrite Ei. right. auto.
      + unfold place_info. simpl. left. apply I4. left. auto.
      + intros Hp. specialize (I8 Hp). simpl in *. lia.
    - (* ACreate *)
      destruct ok; [|apply Hsame; simpl; auto; try exact I; try (left; rewrite Ea; auto; fail); try (right; left; rewrite Ea; auto; fail); try (unfold own; simpl; rewrite Ea; auto; fail); try (apply Hres; discriminate; fail)].
      eapply Inv_upd; [exact HI|exact E|..]; auto.
      + right. left. rewrite Ea. auto.
      + intros y. unfold own. simpl. rewrite Ea. simpl. rewrite !occ_app, !occ_cons, !occ_nil. destruct (Nat.eqb_spec y (next c)); destruct (Nat.ltb_spec y (next c)); destruct (Nat.ltb_spec y (S (next c))); lia.
      + unfold place_info. simpl. right. apply I7. auto.
    - (* ACount *)
      assert (In x (own th)) as Hx by (unfold own; rewrite Ea; apply in_or_app; right; left; auto).
      set (n' := match dget Nat.eqb (counters c) x with Some n => (n + 1)%Z | None => 1%Z end).
      eapply Inv_upd; [exact HI|exact E|..]; auto.
      + right. left. rewrite Ea. auto.
      + apply (dset_wf nateqb_ok); auto.
      + right. exists x. split; auto. intros y Hy. apply view_other_set; auto; congruence.
      + intros y. rewrite torn_snoc. unfold own. simpl. rewrite Ea. simpl. rewrite !app_nil_r, !occ_app, !occ_cons, !occ_nil. lia.
      + simpl. intros y Hy. apply in_app_or in Hy. destruct (Nat.eq_dec y x) as [->|N].
        * right. exists n'. split; [apply (dget_dset_eq nateqb_ok)|]. unfold marked. rewrite taken_snoc. fold (marked (trace c ++ [Took x]) x). rewrite marked_snoc, Nat.eqb_refl.
          destruct J2 as [(n & G1 & G2 & G3 & G4)|(G1 & G2 & G3)]; unfold n'; rewrite G1.
          -- repeat split; try lia. intros [K|K]; [tauto|discriminate].
          -- repeat split; try lia. intros [K|K]; [tauto|discriminate].
        * left. destruct Hy as [Hy|[Hy|[]]]; [|congruence]. split; auto. apply view_other_set; auto; congruence.
      + unfold place_info. exact I.
      + apply Hres. discriminate.
      + intros y Hy. rewrite torn_snoc, app_nil_r in Hy. auto.
    - (* RCheck *)
      pose proof J2 as (n & G1 & G2 & G3 & G4). rewrite G1. destruct (maxc <=? n)%Z eqn:En; apply Hsame; simpl; auto; try (left; rewrite Ea; auto; fail); try (unfold own; simpl; rewrite Ea; auto; fail); unfold place_info; simpl.
      + split; eauto.
      + apply Z.leb_gt in En. exists n. repeat split; auto. intros K. specialize (G3 K). lia.
    - (* RPut *)
      destruct (full maxn (idle c)) eqn:Ef.
      + apply Hsame; simpl; auto; try exact I; try (left; rewrite Ea; auto; fail); try (right; left; rewrite Ea; auto; fail); try (unfold own; simpl; rewrite Ea; auto; fail); try (apply Hres; discriminate; fail). unfold place_info. simpl. destruct J2 as (n & G1 & G2 & G3 & G4). split; [eauto|lia].
      + eapply Inv_upd; [exact HI|exact E|..]; auto.
        * left. rewrite Ea. auto.
        * intros y. unfold own. simpl. rewrite Ea. simpl. rewrite !occ_app, !occ_cons, !occ_nil. lia.
        * intros y Hy. apply in_app_or in Hy. destruct Hy as [Hy|[<-|[]]]; auto.
        * unfold place_info. exact I.
        * apply Hres. discriminate.
        * intros Hp. unfold full in Ef. rewrite app_length. simpl. apply andb_false_iff in Ef. destruct Ef as [Ef|Ef]; [apply Z.ltb_ge in Ef; lia|apply Z.leb_gt in Ef; lia].
    - (* RKill *)
      destruct J2 as ((n & G1) & G2). rewrite G1. eapply Inv_upd; [exact HI|exact E|..]; auto.
      + right. left. rewrite Ea. auto.
      + apply ddel_wf; auto.
      + right. exists x. split; [unfold own; rewrite Ea; apply in_or_app; right; left; auto|]. intros y Hy. apply view_del; auto.
      + intros y. unfold own. simpl. rewrite Ea. simpl. lia.
      + simpl. intros y Hy. left. split; auto. apply view_del. intro; subst y.
        assert (2 <= occ x (own th)) as K by (unfold own; rewrite Ea, occ_app; simpl; rewrite occ_cons, Nat.eqb_refl; apply occ_In in Hy; lia).
        pose proof (owned_ge x _ _ _ E). specialize (I3 x). destruct (Nat.ltb x (next c)); lia.
      + unfold place_info. simpl. split; auto. apply (dget_ddel_eq nateqb_ok); auto.
    - (* RTear *)
      eapply Inv_upd; [exact HI|exact E|..]; auto.
      + left. rewrite Ea. auto.
      + right. exists x. split; [unfold own; rewrite Ea; apply in_or_app; right; left; auto|]. intros y Hy. apply view_tore.
      + intros y. rewrite torn_snoc. unfold own. simpl. rewrite Ea. simpl. rewrite !occ_app, !occ_cons, !occ_nil. lia.
      + simpl. intros y Hy. left. split; auto. apply view_tore.
      + unfold place_info. exact I.
      + apply Hres. discriminate.
      + intros y Hy. rewrite torn_snoc in Hy. apply in_app_or in Hy. destruct Hy as [Hy|[<-|[]]]; auto. right. eapply view_Qgone; [apply view_tore|auto].
    - (* FMark *)
      assert (In x (own th)) as Hx by (unfold own; apply in_or_app; auto). destruct (J1 _ J2) as (n & G1 & G2 & G3 & G4).
      eapply Inv_upd; [exact HI|exact E|..]; auto.
      + right. left. rewrite Ea. auto.
      + apply (dset_wf nateqb_ok); auto.
      + right. exists x. split; auto. intros y Hy. apply view_other_set; auto; congruence.
      + intros y. rewrite torn_snoc. unfold own. simpl. rewrite Ea. simpl. rewrite !app_nil_r. lia.
      + simpl. intros y Hy. destruct (Nat.eq_dec y x) as [->|N].
        * right. exists maxc. split; [apply (dget_dset_eq nateqb_ok)|]. rewrite taken_snoc. repeat split; try lia.
        * left. split; auto. apply view_other_set; auto; congruence.
      + unfold place_info. exact I.
      + apply Hres. discriminate.
      + intros y Hy. rewrite torn_snoc, app_nil_r in Hy. auto.
    - (* CSet *)
      apply Hsame; simpl; auto; try exact I; try (left; rewrite Ea; auto; fail); try (right; left; rewrite Ea; auto; fail); try (unfold own; simpl; rewrite Ea; auto; fail); try (apply Hres; discriminate; fail).
    - (* ILoop *)
      destruct (idle c) as [|x q] eqn:Ei; apply Hsame; simpl; auto; try (left; rewrite Ea; auto; fail); try (right; left; rewrite Ea; auto; fail); try (unfold own; simpl; rewrite Ea; auto; fail); try exact I; try (apply Hres; discriminate).
    - (* IGet *)
      destruct (idle c) as [|x q] eqn:Ei; auto.
      eapply Inv_upd; [exact HI|exact E|..]; auto.
      + left. rewrite Ea. auto.
      + intros y. rewrite Ei. unfold own. simpl. rewrite Ea. simpl. rewrite !occ_app, !occ_cons, !occ_nil. lia.
      + intros y Hy. left. rewrite Ei. right. auto.
      + unfold place_info. simpl. apply I4. left. auto.
      + intros Hp. specialize (I8 Hp). simpl in *. lia.
    - (* ITear *)
      destruct J2 as (n & G1 & G2 & G3 & G4). rewrite G1. eapply Inv_upd; [exact HI|exact E|..]; auto.
      + left. rewrite Ea. auto.
      + apply ddel_wf; auto.
      + right. exists x. split; [unfold own; rewrite Ea; apply in_or_app; right; left; auto|]. intros y Hy. apply view_del_tore; auto.
      + intros y. rewrite torn_snoc. unfold own. simpl. rewrite Ea. simpl. rewrite !occ_app, !occ_cons, !occ_nil. lia.
      + simpl. intros y Hy. left. split; auto. apply view_del_tore. intro; subst y.
        assert (2 <= occ x (own th)) as K by (unfold own; rewrite Ea, occ_app; simpl; rewrite occ_cons, Nat.eqb_refl; apply occ_In in Hy; lia).
        pose proof (owned_ge x _ _ _ E). specialize (I3 x). destruct (Nat.ltb x (next c)); lia.
      + unfold place_info. exact I.
      + intros y Hy. rewrite torn_snoc in Hy. apply in_app_or in Hy. destruct Hy as [Hy|[<-|[]]]; auto. right. eapply view_Qgone; [apply view_tore|]. split; [apply (dget_ddel_eq nateqb_ok); auto|lia].
  Qed.
  Lemma start_outside programs t th : nth_error (pthreads (pstart programs)) t = Some th -> exists p, nth_error programs t = Some p /\ th = mk_pthread p [] Outside [].
  Proof.
    unfold pstart. simpl. rewrite nth_error_map. destruct (nth_error programs t) as [p|]; [|discriminate]. intros H. injection H as <-. eauto.
  Qed.
  Lemma Inv_start programs : Inv (pstart programs).
  Proof.
    split; [|split; [constructor|split; [|split; [intros x []|split; [|split; [intros x []|split]]]]]].
    - split; try discriminate. intros t th H. apply start_outside in H. destruct H as (p & _ & ->). simpl. split; discriminate.
    - intros x. unfold pstart, occ. simpl. assert (owned x (map (fun p => mk_pthread p [] Outside []) programs) = 0) as -> by (induction programs; simpl; auto).
      destruct (Nat.ltb_spec x 0); lia.
    - intros t th H. apply start_outside in H. destruct H as (p & _ & ->). simpl. repeat split; auto. intros x [].
    - intros x _. repeat split; auto.
    - intros Hp. simpl. lia.
  Qed.
  Lemma Inv_exec es : forall c, Inv c -> Inv (pexec maxn maxc c es).
  Proof. induction es as [|[t ok] es IH]; simpl; auto using Inv_turn. Qed.

  Lemma all_accounted programs es : accounted (pexec maxn maxc (pstart programs) es).
  Proof.
    destruct (Inv_exec es _ (Inv_start programs)) as (_ & _ & H & _). unfold accounted. set (c := pexec maxn maxc (pstart programs) es) in *.
    apply (Permutation_count_occ Nat.eq_dec). intros x. rewrite <- !occ_count, (app_assoc (flat_map held _)), !occ_app, <- !Nat.add_assoc.
    specialize (H x). rewrite <- occ_flat in H. rewrite !occ_app in H. replace (occ x (seq 0 (next c))) with (if Nat.ltb x (next c) then 1 else 0); [lia|].
    clear H. generalize (next c) as n. intros n. assert (forall a m, occ x (seq a m) = if (Nat.leb a x && Nat.ltb x (a + m))%bool then 1 else 0) as G.
    { intros a m. revert a. induction m as [|m IH]; intros a; [simpl; rewrite occ_nil; destruct (Nat.leb_spec a x), (Nat.ltb_spec x (a + 0)); simpl; auto; lia|].
      simpl seq. rewrite occ_cons, IH. destruct (Nat.eqb_spec x a), (Nat.leb_spec (S a) x), (Nat.leb_spec a x), (Nat.ltb_spec x (S a + m)), (Nat.ltb_spec x (a + S m)); simpl; lia. }
    rewrite G. simpl. reflexivity.
  Qed.
  Lemma pool_small programs es : (0 < maxn)%Z -> (Z.of_nat (length (idle (pexec maxn maxc (pstart programs) es))) <= maxn)%Z.
  Proof. apply (Inv_exec es _ (Inv_start programs)). Qed.
  Lemma no_key_error programs es t th : nth_error (pthreads (pexec maxn maxc (pstart programs) es)) t = Some th -> ~ In KeyErr (results th).
  Proof. intros E. apply (Inv_exec es _ (Inv_start programs)) in E. tauto. Qed.
  Lemma everything c x : Inv c -> (Z.of_nat (taken (trace c) x) <= cap)%Z /\ (In x (idle c) -> ~ In (Marked x) (trace c)).
  Proof.
    intros (I1 & I2 & I3 & I4 & I5 & I6 & I7 & I8). split.
    - specialize (I3 x). destruct (Nat.ltb_spec x (next c)) as [H|H].
      + destruct (Nat.eq_dec (occ x (idle c)) 0) as [Z1|Z1].
        * destruct (Nat.eq_dec (occ x (torn (trace c))) 0) as [Z2|Z2].
          -- assert (exists t th, nth_error (pthreads c) t = Some th /\ In x (own th)) as (t & th & E & Ho).
             { assert (owned x (pthreads c) = 1) as K by lia. clear - K. induction (pthreads c) as [|a l IH]; simpl in K; [discriminate|].
               destruct (Nat.eq_dec (occ x (own a)) 0) as [Z|Z]; [|exists 0, a; split; auto; apply occ_In; lia].
               destruct IH as (t & th & E & Ho); [lia|]. exists (S t), th. auto. }
             destruct (I5 _ _ E) as (J1 & J2 & _). unfold own in Ho. apply in_app_or in Ho. destruct Ho as [Ho|Ho].
             ++ destruct (J1 _ Ho) as (n & _ & G & _). auto.
             ++ unfold place_info in J2. destruct (at_ th); simpl in Ho; try tauto; destruct Ho as [->|[]]; unfold Qpool, Qnew, Qheld, Qdying, Qgone in J2.
                all: try (destruct J2 as [(n & G1 & G2 & G3 & G4)|(G1 & G2 & G3)]; lia).
                all: try (destruct J2 as (n & G1 & G2 & G3 & G4); lia).
                all: try (destruct J2 as (G1 & G2); lia).
          -- assert (In x (torn (trace c))) as K by (apply occ_In; lia). apply (I6 _ K).
        * assert (In x (idle c)) as K by (apply occ_In; lia). destruct (I4 _ K) as (n & G1 & G2 & G3 & G4). lia.
      + destruct (I7 _ H) as (_ & G & _). lia.
    - intros K. destruct (I4 _ K) as (n & G1 & G2 & G3 & G4). auto.
  Qed.

  (** ** the history *)
  Definition ordered (tr : list act) : Prop := forall l1 l2 x a, tr = l1 ++ a :: l2 -> a = Marked x \/ a = Tore x -> ~ In (Took x) l2.
  Lemma ordered_snoc tr a : ordered tr -> (forall x, a = Took x -> ~ In (Marked x) tr /\ ~ In (Tore x) tr) -> ordered (tr ++ [a]).
  Proof.
    intros H Ha l1 l2 x b E Hb K. destruct (exists_last (l := b :: l2)) as (l3 & b' & E2); [discriminate|]. rewrite E2, app_assoc in E. apply app_inj_tail in E. destruct E as [E ->].
    destruct l2 as [|y l2]; [destruct K|]. destruct l3 as [|z l3]; [destruct l2; discriminate|]. simpl in E2. injection E2 as <- E2. rewrite E2 in K. apply in_app_or in K.
    destruct K as [K|[K|[]]]; [exact (H _ _ _ _ E Hb K)|]. destruct (Ha _ K) as [N1 N2]. rewrite E in N1, N2. destruct Hb as [->| ->]; [apply N1|apply N2]; apply in_or_app; right; left; auto.
  Qed.
  Lemma torn_In tr x : In x (torn tr) <-> In (Tore x) tr.
  Proof.
    unfold torn. rewrite in_flat_map. split.
    - intros (a & Ha & K). destruct a; simpl in K; try tauto. destruct K as [->|[]]. auto.
    - intros H. exists (Tore x). simpl. auto.
  Qed.
  Lemma ordered_turn c t ok : Inv c -> ordered (trace c) -> ordered (trace (pturn maxn maxc c t ok)).
  Proof.
    intros HI Ho. unfold pturn. destruct (nth_error (pthreads c) t) as [th|] eqn:E; auto. pose proof HI as (I1 & I2 & I3 & I4 & I5 & I6 & I7 & I8). destruct (I5 _ _ E) as (J1 & J2 & J3).
    unfold place_info in J2.
    assert (forall y, In y (own th) -> ~ In (Tore y) (trace c)) as Hnot.
    { intros y K1 K2. apply torn_In in K2. apply occ_In in K1. apply occ_In in K2. pose proof (owned_ge y _ _ _ E). specialize (I3 y). destruct (Nat.ltb y (next c)); lia. }
    destruct (at_ th) as [| | | | | |x|x|x|x|x|x|x|x|x| | | | |x] eqn:Ea; simpl in *; repeat (match goal with |- context [match ?X with _ => _ end] => destruct X end; simpl; auto).
    all: try exact Ho; apply ordered_snoc; auto; intros y Hy; try discriminate; injection Hy as <-; (split; [|apply Hnot; unfold own; rewrite Ea; apply in_or_app; right; left; auto]).
    destruct J2 as [(n & G1 & G2 & G3 & G4)|(G1 & G2 & G3)]; auto.
  Qed.
  Lemma ordered_exec es : forall c, Inv c -> ordered (trace c) -> ordered (trace (pexec maxn maxc c es)).
  Proof. induction es as [|[t ok] es IH]; simpl; auto. intros c HI Ho. apply IH; auto using Inv_turn, ordered_turn. Qed.
  Lemma never_again programs es l1 l2 x a : trace (pexec maxn maxc (pstart programs) es) = l1 ++ a :: l2 -> a = Marked x \/ a = Tore x -> ~ In (Took x) l2.
  Proof. apply (ordered_exec es _ (Inv_start programs)). intros [|? ?] ? ? ? K; discriminate. Qed.
  Lemma recycled programs es x : (Z.of_nat (taken (trace (pexec maxn maxc (pstart programs) es)) x) <= cap)%Z.
  Proof. apply everything. apply Inv_exec, Inv_start. Qed.
  Lemma idle_unmarked programs es x : In x (idle (pexec maxn maxc (pstart programs) es)) -> ~ In (Marked x) (trace (pexec maxn maxc (pstart programs) es)) /\ (Z.of_nat (taken (trace (pexec maxn maxc (pstart programs) es)) x) < maxc)%Z.
  Proof.
    intros H. destruct (Inv_exec es _ (Inv_start programs)) as (_ & _ & _ & I4 & _). destruct (I4 _ H) as (n & G1 & G2 & G3 & G4). split; auto. lia.
  Qed.
  Lemma one_place programs es : let c := pexec maxn maxc (pstart programs) es in
    NoDup (idle c ++ flat_map held (pthreads c) ++ flat_map (fun th => moving (at_ th)) (pthreads c) ++ torn (trace c)).
  Proof. intros c. eapply Permutation_NoDup; [apply all_accounted|apply seq_NoDup]. Qed.

  (** ** closing *)
  Lemma terminating_stays es : forall c, terminating c = true -> terminating (pexec maxn maxc c es) = true.
  Proof.
    induction es as [|[t ok] es IH]; simpl; auto. intros c H. apply IH. unfold pturn. destruct (nth_error (pthreads c) t) as [th|]; auto.
    destruct (at_ th); simpl; auto; repeat (match goal with |- context [match ?X with _ => _ end] => destruct X end; simpl; auto).
  Qed.
  Lemma acquire_refused c t ok th rest : terminating c = true -> nth_error (pthreads c) t = Some th -> at_ th = Outside -> todo th = Acquire :: rest ->
    pthreads (pturn maxn maxc c t ok) = upd (pthreads c) t (mk_pthread rest (held th) Outside (results th ++ [Terminating])) /\ idle (pturn maxn maxc c t ok) = idle c /\ trace (pturn maxn maxc c t ok) = trace c.
  Proof. intros H E Ea Et. unfold pturn. rewrite E, Ea, Et, H. auto. Qed.
  Definition CInv (c : pool) : Prop := finalized c = true -> terminating c = true \/ exists t th, nth_error (pthreads c) t = Some th /\ at_ th = CSet.
  Lemma CInv_turn c t ok : CInv c -> CInv (pturn maxn maxc c t ok).
  Proof.
    intros H. unfold pturn. destruct (nth_error (pthreads c) t) as [th|] eqn:E; auto. pose proof (nth_lt _ _ _ E) as Hlt.
    assert (forall tm f l q cs nx tr th', (finalized c = false -> f = true -> tm = true \/ at_ th' = CSet) -> (terminating c = true -> tm = true) -> (at_ th = CSet -> tm = true) ->
      CInv (mk_pool l q cs tm f nx tr (upd (pthreads c) t th'))) as Hgo.
    { intros tm f l q cs nx tr th' H1 H2 H3 Hf. simpl in *. destruct (finalized c) eqn:Ef.
      - destruct (H Ef) as [K|(u & uth & Eu & Ku)]; auto. destruct (Nat.eq_dec u t) as [->|N]; [left; apply H3; congruence|]. right. exists u, uth. rewrite nth_error_upd_neq; auto.
      - destruct (H1 eq_refl Hf) as [K|K]; auto. right. exists t, th'. rewrite nth_error_upd_eq; auto. }
    destruct (at_ th) eqn:Ea; simpl; repeat (match goal with |- context [match ?X with _ => _ end] => destruct X eqn:? end; simpl; auto); apply Hgo; auto; congruence.
  Qed.
  Lemma closed_is_terminating programs es : let c := pexec maxn maxc (pstart programs) es in
    finalized c = true -> (forall t th, nth_error (pthreads c) t = Some th -> at_ th <> CSet) -> terminating c = true.
  Proof.
    assert (forall es c, CInv c -> CInv (pexec maxn maxc c es)) as Hx by (intros l; induction l as [|[t ok] l IH]; simpl; auto using CInv_turn).
    intros c Hf Hn. destruct (Hx es (pstart programs)) as [K|(t & th & E & K)]; auto; [discriminate|]. exfalso. exact (Hn _ _ E K).
  Qed.
  Definition invalidating (p : place) : bool := match p with ILock | ILoop | IGet | ITear _ => true | _ => false end.
  Lemma invalidated c t ok th th' : Inv c -> nth_error (pthreads c) t = Some th -> invalidating (at_ th) = true -> nth_error (pthreads (pturn maxn maxc c t ok)) t = Some th' -> at_ th' = Outside ->
    idle (pturn maxn maxc c t ok) = [].
  Proof.
    intros (_ & _ & _ & _ & I5 & _) E Hi. destruct (I5 _ _ E) as (_ & J2 & _). unfold place_info in J2. pose proof (nth_lt _ _ _ E) as Hlt. unfold pturn. rewrite E.
    destruct (at_ th) as [| | | | | |x|x|x|x|x|x|x|x|x| | | | |x] eqn:Ea; try discriminate; simpl.
    - destruct (plock c); simpl; [rewrite E|rewrite nth_error_upd_eq by auto]; intros K; injection K as <-; simpl; congruence.
    - destruct (idle c) eqn:Ei; simpl; auto. rewrite nth_error_upd_eq by auto. intros K. injection K as <-. discriminate.
    - destruct (idle c) eqn:Ei; simpl; auto. rewrite nth_error_upd_eq by auto. intros K. injection K as <-. discriminate.
    - destruct J2 as (n & G1 & _). rewrite G1. simpl. rewrite nth_error_upd_eq by auto. intros K. injection K as <-. discriminate.
  Qed.

  (** ** progress *)
  Definition calm (th : pthread) : Prop := Forall no_invalidate (todo th) /\ match at_ th with CSet | ILock | ILoop | IGet | ITear _ => False | _ => True end.
  Definition pw (empty : bool) (th : pthread) : nat :=
    10 * length (todo th) + match at_ th with Outside => 0 | ACount _ => 1 | ACountLock _ => 2 | AGet => if empty then 6 else 3 | ACreate => 3 | ACheck => 4 | ALock => 5 | AFirst => 6
                            | RTear _ => 1 | RKill _ => 2 | RKillLock _ => 3 | RPut _ => 4 | RCheck _ => 5 | FMark _ => 1 | FLock _ => 2 | _ => 0 end.
  Definition is_nil (l : list nat) : bool := match l with [] => true | _ => false end.
  Fixpoint sum (b : bool) (l : list pthread) : nat := match l with [] => 0 | th :: r => pw b th + sum b r end.
  Definition total (c : pool) : nat := sum (is_nil (idle c)) (pthreads c).
  Lemma sum_upd b (l : list pthread) t th th' : nth_error l t = Some th -> sum b (upd l t th') + pw b th = sum b l + pw b th'.
  Proof. revert t. induction l as [|a l IH]; intros [|t] E; simpl in *; try discriminate; [injection E as ->; lia|specialize (IH _ E); lia]. Qed.
  Lemma sum_flag b b' (l : list pthread) : (forall t th, nth_error l t = Some th -> at_ th <> AGet) -> sum b l = sum b' l.
  Proof.
    induction l as [|a l IH]; intros H; auto. simpl. f_equal; [|apply IH; intros t th E; apply (H (S t)); auto]. specialize (H 0 a eq_refl). unfold pw. destruct (at_ a); auto. congruence.
  Qed.
  (** nobody else is at AGet, so the flag only matters for the thread that moves *)
  Lemma less (c : pool) t th th' b' : nth_error (pthreads c) t = Some th -> (forall u uth, u <> t -> nth_error (pthreads c) u = Some uth -> at_ uth <> AGet) ->
    pw b' th' < pw (is_nil (idle c)) th -> sum b' (upd (pthreads c) t th') < total c.
  Proof.
    intros E Hn Hlt. unfold total. pose proof (nth_lt _ _ _ E) as Hl.
    set (o := mk_pthread [] [] Outside []).
    assert (sum b' (upd (pthreads c) t o) = sum (is_nil (idle c)) (upd (pthreads c) t o)) as K.
    { apply sum_flag. intros u uth Eu. apply nth_upd_cases in Eu. destruct Eu as [[-> ->]|[N Eu]]; [discriminate|eauto]. }
    pose proof (sum_upd b' (upd (pthreads c) t o) t o th') as S1. rewrite nth_error_upd_eq, upd_upd in S1 by auto. specialize (S1 eq_refl).
    pose proof (sum_upd (is_nil (idle c)) _ _ _ o E) as S2. change (pw b' o) with 0 in S1. change (pw (is_nil (idle c)) o) with 0 in S2. lia.
  Qed.
  Lemma turn_less c t th : (0 < maxn)%Z -> nth_error (pthreads c) t = Some th -> (forall u uth, u <> t -> nth_error (pthreads c) u = Some uth -> at_ uth <> AGet) ->
    calm th -> ~ over th -> (plock c = None \/ holds (at_ th) = true) -> total (pturn maxn maxc c t true) < total c.
  Proof.
    intros Hm E Hn (C1 & C2) Hl Hk. unfold pturn. rewrite E.
    assert (forall l q cs tm f nx tr th', pw (is_nil q) th' < pw (is_nil (idle c)) th -> total (mk_pool l q cs tm f nx tr (upd (pthreads c) t th')) < total c) as Hgo.
    { intros. unfold total at 1. simpl. eapply less; eauto. }
    assert (forall l cs tm f nx tr th', pw (is_nil (idle c)) th' < pw (is_nil (idle c)) th -> total (mk_pool l (idle c) cs tm f nx tr (upd (pthreads c) t th')) < total c) as Hgo2 by (intros; apply Hgo; auto).
    unfold pw in Hgo, Hgo2. destruct (at_ th) as [| | | | | |x|x|x|x|x|x|x|x|x| | | | |x] eqn:Ea; simpl in *; try tauto;
      try (destruct Hk as [Hk|Hk]; [rewrite Hk|discriminate]; apply Hgo2; simpl; lia).
    - destruct (todo th) as [|op rest] eqn:Et; [exfalso; apply Hl; split; auto|]. inversion C1; subst. simpl in Hgo2.
      destruct op as [|k|k| |]; simpl in *; try tauto; [destruct (terminating c)|destruct (nth_error (held th) k)|destruct (nth_error (held th) k)]; apply Hgo2; simpl; lia.
    - destruct (idle c) as [|x q] eqn:Ei; apply Hgo; simpl; lia.
    - destruct (maxn <=? Z.of_nat (length (idle c)))%Z eqn:Ec; [|apply Hgo2; simpl; lia]. apply Z.leb_le in Ec. destruct (idle c) as [|x q] eqn:Ei; [simpl in Ec; lia|]. apply Hgo; simpl; lia.
    - destruct (idle c) as [|x q] eqn:Ei; apply Hgo; simpl; lia.
    - apply Hgo2. simpl. lia.
    - apply Hgo2. simpl. lia.
    - destruct (dget Nat.eqb (counters c) x) as [n|]; [destruct (maxc <=? n)%Z|]; apply Hgo2; simpl; lia.
    - destruct (full maxn (idle c)); apply Hgo; simpl; lia.
    - destruct (dget Nat.eqb (counters c) x) as [n|]; apply Hgo2; simpl; lia.
    - apply Hgo2. simpl. lia.
  Qed.
  Lemma find_live (l : list pthread) : Forall over l \/ exists t th, nth_error l t = Some th /\ ~ over th.
  Proof.
    induction l as [|a l [IH|(t & th & E & H)]]; [left; constructor| |right; exists (S t), th; auto].
    destruct (todo a) eqn:Et; [|right; exists 0, a; split; auto; intros [K _]; congruence].
    destruct (at_ a) eqn:Ea; try (right; exists 0, a; split; auto; intros [_ K]; congruence). left. constructor; auto. split; auto.
  Qed.
  Lemma calm_turn c t ok : Forall calm (pthreads c) -> Forall calm (pthreads (pturn maxn maxc c t ok)).
  Proof.
    intros H. unfold pturn. destruct (nth_error (pthreads c) t) as [th|] eqn:E; auto. assert (calm th) as (C1 & C2) by (eapply Forall_forall; [exact H|eapply nth_error_In; eauto]).
    assert (forall th', calm th' -> Forall calm (upd (pthreads c) t th')) as Hu.
    { intros th' K. apply Forall_forall. intros x Hx. apply In_nth_error in Hx. destruct Hx as (u & Eu). apply nth_upd_cases in Eu. destruct Eu as [[-> ->]|[N Eu]]; auto.
      eapply Forall_forall; [exact H|eapply nth_error_In; eauto]. }
    destruct (at_ th) as [| | | | | |x|x|x|x|x|x|x|x|x| | | | |x] eqn:Ea; simpl in *; try tauto.
    1: { destruct (todo th) as [|op rest] eqn:Et; auto. inversion C1; subst. destruct op; simpl in *; try tauto; repeat (match goal with |- context [match ?X with _ => _ end] => destruct X eqn:? end); apply Hu; split; simpl; auto. }
    all: repeat (match goal with |- context [match ?X with _ => _ end] => destruct X eqn:? end); auto; apply Hu; split; simpl; auto.
  Qed.
  Lemma someone_moves c t th : (0 < maxn)%Z -> Inv c -> Forall calm (pthreads c) -> nth_error (pthreads c) t = Some th -> ~ over th -> exists u, total (pturn maxn maxc c u true) < total c.
  Proof.
    intros Hm ((L1 & L2) & _) Hc E Hl. rewrite Forall_forall in Hc. destruct (plock c) as [u|] eqn:El.
    - destruct (nth_error (pthreads c) u) as [uth|] eqn:Eu; [|apply nth_error_None in Eu; specialize (L2 _ eq_refl); lia].
      assert (holds (at_ uth) = true) as Hh by (apply (L1 _ _ Eu); auto). exists u. apply (turn_less _ _ uth); auto.
      + intros v vth N Ev K. assert (holds (at_ vth) = true) as Hv by (rewrite K; auto). apply (L1 _ _ Ev) in Hv. congruence.
      + apply Hc. eapply nth_error_In; eauto.
      + intros [_ K]. rewrite K in Hh. discriminate.
    - exists t. apply (turn_less _ _ th); auto.
      + intros v vth N Ev K. assert (holds (at_ vth) = true) as Hv by (rewrite K; auto). apply (L1 _ _ Ev) in Hv. discriminate.
      + apply Hc. eapply nth_error_In; eauto.
  Qed.
  Lemma pexec_app a : forall c b, pexec maxn maxc c (a ++ b) = pexec maxn maxc (pexec maxn maxc c a) b.
  Proof. induction a as [|[t ok] a IH]; simpl; auto. Qed.
  Lemma can_finish_from n : forall c, (0 < maxn)%Z -> total c <= n -> Inv c -> Forall calm (pthreads c) -> exists es, Forall over (pthreads (pexec maxn maxc c es)).
  Proof.
    induction n as [|n IH]; intros c Hm Hn HI Hc; (destruct (find_live (pthreads c)) as [K|(t & th & E & Hl)]; [exists []; exact K|]); destruct (someone_moves _ _ _ Hm HI Hc E Hl) as (u & Hu); [lia|].
    destruct (IH (pturn maxn maxc c u true)) as (es & Hes); auto using Inv_turn, calm_turn; [lia|]. exists (Turn u true :: es). exact Hes.
  Qed.
  Lemma can_finish programs es : (0 < maxn)%Z -> Forall (Forall no_invalidate) programs -> exists more, Forall over (pthreads (pexec maxn maxc (pstart programs) (es ++ more))).
  Proof.
    intros Hm Hp. assert (forall es c, Forall calm (pthreads c) -> Forall calm (pthreads (pexec maxn maxc c es))) as Hc by (intros l; induction l as [|[t ok] l IH]; simpl; auto using calm_turn).
    destruct (can_finish_from (total (pexec maxn maxc (pstart programs) es)) (pexec maxn maxc (pstart programs) es)) as (more & H); auto.
    - apply Inv_exec, Inv_start.
    - apply Hc. apply Forall_forall. intros x Hx. apply In_nth_error in Hx. destruct Hx as (u & Eu). apply start_outside in Eu. destruct Eu as (p & Ep & ->). split; simpl; auto.
      rewrite Forall_forall in Hp. apply Hp. eapply nth_error_In; eauto.
    - exists more. rewrite pexec_app. exact H.
  Qed.
  (** a stuck state stays as it is *)
  Lemma stuck_forever c : (forall t ok, pturn maxn maxc c t ok = c) -> forall es, pexec maxn maxc c es = c.
  Proof. intros H es. induction es as [|[t ok] es IH]; simpl; auto. rewrite H. auto. Qed.
  Lemma stuck_unfinished c es more d : d = pexec maxn maxc c es -> (forall es', pexec maxn maxc d es' = d) -> Forall over (pthreads (pexec maxn maxc c (es ++ more))) ->
    Forall (fun p => p = Outside) (map at_ (pthreads d)).
  Proof. intros E H K. rewrite pexec_app, <- E, H in K. apply Forall_map. eapply Forall_impl; [|exact K]. intros a [_ Ha]. exact Ha. Qed.
  Definition stuck_b (c : pool) : bool :=
    forallb (fun th => match at_ th with Outside => match todo th with [] => true | _ => false end | ALock | ACountLock _ | RKillLock _ | FLock _ | ILock => match plock c with Some _ => true | None => false end | IGet => is_nil (idle c) | _ => false end) (pthreads c).
  Lemma stuck_check c : stuck_b c = true -> forall es, pexec maxn maxc c es = c.
  Proof.
    intros H. apply stuck_forever. intros t ok. unfold pturn. destruct (nth_error (pthreads c) t) as [th|] eqn:E; auto. unfold stuck_b in H. rewrite forallb_forall in H. specialize (H th (nth_error_In _ _ E)).
    destruct (at_ th); try discriminate; try (destruct (plock c); [auto|discriminate]); [destruct (todo th); [auto|discriminate]|destruct (idle c); [auto|discriminate]].
  Qed.
  (** ** a pool for no connections *)
  Definition spinning (c : pool) : Prop :=
    idle c = [] /\ terminating c = false /\ exists th, pthreads c = [th] /\ match at_ th with Outside => todo th = [Acquire] | AFirst | ALock | ACheck | AGet => True | _ => False end.
  Lemma spinning_turn c t ok : (maxn <= 0)%Z -> spinning c -> spinning (pturn maxn maxc c t ok).
  Proof.
    intros Hm (Hi & Ht & th & Hth & Hp). unfold pturn. rewrite Hth. destruct t as [|t]; [|destruct t; exists Hi || (split; [auto|split; [auto|exists th; auto]])].
    simpl. destruct (at_ th) eqn:Ea; try tauto; rewrite ?Hp, ?Ht, ?Hi; simpl.
    - split; [auto|split; [auto|eexists; split; [reflexivity|simpl; auto]]].
    - split; [auto|split; [auto|eexists; split; [reflexivity|simpl; auto]]].
    - destruct (plock c); [split; [auto|split; [auto|exists th; rewrite Ea; auto]]|split; [auto|split; [auto|eexists; split; [reflexivity|simpl; auto]]]].
    - destruct (Z.leb_spec maxn 0); [|lia]. split; [auto|split; [auto|eexists; split; [reflexivity|simpl; auto]]].
    - split; [auto|split; [auto|eexists; split; [reflexivity|simpl; auto]]].
  Qed.
  Lemma spins_forever es : (maxn <= 0)%Z -> ~ Forall over (pthreads (pexec maxn maxc (pstart [[Acquire]]) es)).
  Proof.
    intros Hm. assert (forall es c, spinning c -> spinning (pexec maxn maxc c es)) as H by (intros l; induction l as [|[t ok] l IH]; simpl; auto using spinning_turn).
    destruct (H es (pstart [[Acquire]])) as (_ & _ & th & -> & Hp).
    - split; [auto|split; [auto|eexists; split; [reflexivity|simpl; auto]]].
    - intros K. inversion K as [|? ? (K1 & K2) K3]; subst. rewrite K2, K1 in Hp. discriminate.
  Qed.
End PoolProofs.
