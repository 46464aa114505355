From Coq Require Import QArith Qfield.
From Verif Require Import Prelude PreludeFacts MoreFacts PySeq_Model SortedList_Proofs CpuProfile_Model CpuProfile_Spec.
Local Open Scope nat_scope.

Section Pct.
  Variables (P V : Type) (peqb : P -> P -> bool) (pct : list Z -> P -> V) (zero : V).
  Hypothesis ok : eqb_ok peqb.
  Definition inv (s : profile P V) (samples : list Z) : Prop :=
    p_data s = py_sorted Z.ltb samples /\ (p_regenerated s = true -> p_values s = map (pct (p_data s)) (p_requested s)).
  Lemma sorted_nil : forall l, py_sorted Z.ltb l = [] <-> l = [].
  Proof. intros l. split; [|intros ->; auto]. intros E. pose proof (py_sorted_perm Z.ltb l) as H. rewrite E in H. apply Permutation_nil in H. auto. Qed.
  Lemma find_index_spec : forall p (l : list P) i, find_index (fun q => peqb q p) l = Some i -> nth_error l i = Some p.
  Proof.
    intros p. induction l as [|x l IH]; intros i E; simpl in E; [discriminate|]. destruct (peqb x p) eqn:X.
    - injection E as <-. apply ok in X. subst. reflexivity.
    - destruct (find_index (fun q => peqb q p) l) as [j|]; [|discriminate]. injection E as <-. simpl. auto.
  Qed.
  Lemma ask_ok : forall s samples p, inv s samples -> ask peqb pct zero s p = Ok (match samples with [] => zero | _ :: _ => pct (py_sorted Z.ltb samples) p end).
  Proof.
    intros s samples p [D R]. unfold ask. destruct (p_data s) as [|x d] eqn:E.
    - symmetry in D. apply (proj1 (sorted_nil samples)) in D. subst. reflexivity.
    - assert (N : samples <> []) by (intros ->; discriminate). destruct samples as [|y samples]; [congruence|]. rewrite <- D.
      destruct (find_index (fun q => peqb q p) (p_requested s)) as [i|] eqn:F; auto. destruct (p_regenerated s); auto.
      rewrite (R eq_refl), nth_error_map, (find_index_spec _ _ _ F). reflexivity.
  Qed.
  Lemma prun_ok : forall ops s samples, inv s samples -> prun peqb pct zero s ops = answers pct zero samples ops.
  Proof.
    induction ops as [|o ops IH]; intros s samples I; simpl; auto. destruct o as [p|p|l]; simpl.
    - f_equal. apply IH. destruct I as [D R]. unfold request. destruct (memb peqb p (p_requested s)); split; auto. discriminate.
    - f_equal; [|auto]. f_equal. apply ask_ok; auto.
    - f_equal. apply IH. split; auto.
  Qed.
End Pct.

(** usage *)
Lemma destruct_last : forall A (l : list A), l = [] \/ exists l' x, l = l' ++ [x].
Proof. intros A l. destruct l as [|a l]; auto. right. destruct (@exists_last _ (a :: l)) as (l' & x & E); [discriminate|]. eauto. Qed.
Notation block := (list save * save)%type.
Definition flat (bs : list block) : list save := concat (map (fun b => fst b ++ [snd b]) bs).
Definition uinv (h r : list save) : Prop := exists front bs,
  h = front ++ flat bs /\ r = map snd bs /\ Forall (fun b => Forall (fun e => fst e = fst (snd b)) (fst b)) bs /\
  (front = [] \/ 4 <= length (flat bs)).
Lemma flat_app : forall a b, flat (a ++ b) = flat a ++ flat b.
Proof. intros. unfold flat. rewrite map_app, concat_app. reflexivity. Qed.
Lemma flat_len : forall bs, length bs <= length (flat bs).
Proof. induction bs as [|b bs IH]; simpl; auto. unfold flat in *. simpl. rewrite !app_length. simpl. lia. Qed.
Lemma evict_suffix : forall w n r, exists pre, r = pre ++ evict w n r /\ (pre = [] \/ 3 <= length (evict w n r)).
Proof.
  induction r as [|e r IH]; [exists []; auto|]. cbn [evict]. destruct ((3 <? length (e :: r)) && (fst e <? n - w)%Z)%bool eqn:C; [|exists []; auto].
  destruct IH as (pre & E & H). exists (e :: pre). split; [simpl; f_equal; exact E|]. right. destruct H as [->|H]; auto.
  simpl in E. apply andb_prop in C as [C _]. apply Nat.ltb_lt in C. simpl in C. rewrite <- E. lia.
Qed.
Lemma uinv_save : forall w h r e, uinv h r -> uinv (h ++ [e]) (save_load w r e).
Proof.
  intros w h r e (front & bs & -> & -> & F & L). unfold save_load. destruct (evict_suffix w (fst (last (map snd bs) (0%Z, []))) (map snd bs)) as (pre & E & K).
  set (ev := evict w _ _) in *. symmetry in E. apply eq_sym in E. apply map_eq_app in E as (b1 & b2 & -> & <- & E2). rewrite <- E2 in *.
  exists (front ++ flat b1), (b2 ++ [([], e)]). rewrite !flat_app. split; [rewrite !app_assoc; reflexivity|]. split; [rewrite map_app; reflexivity|].
  apply Forall_app in F as [F1 F2]. split; [apply Forall_app; split; auto; constructor; simpl; auto|]. rewrite app_length.
  destruct K as [K|K].
  - apply map_eq_nil in K. subst b1. simpl. destruct L as [->|L]; auto. right. rewrite flat_app in L. simpl in L. unfold flat in *; simpl in *. lia.
  - right. pose proof (flat_len b2). rewrite map_length in K. change (flat [([], e)]) with [e]. cbn [length]. unfold save in *. lia.
Qed.
Lemma rev_two : forall (l : list save) c p o, rev l = c :: p :: o -> l = rev o ++ [p; c].
Proof. intros l c p o E. rewrite <- (rev_involutive l), E. simpl. rewrite <- app_assoc. reflexivity. Qed.
Lemma uinv_get : forall h r, uinv h r -> uinv h (snd (own_usage r)).
Proof.
  intros h r I. unfold own_usage. destruct (rev r) as [|[tc c] [|[tp p] o]] eqn:R; auto. destruct (Z.eqb_spec (tc - tp) 0) as [E|E]; auto.
  cbn [snd]. apply rev_two in R. destruct I as (front & bs & -> & -> & F & L).
  apply map_eq_app in R as (b1 & b2 & -> & E1 & E2). destruct b2 as [|[m1 p'] [|[m2 c'] [|? ?]]]; try discriminate. injection E2 as -> ->.
  exists front, (b1 ++ [(m1 ++ (tp, p) :: m2, (tc, c))]).
  assert (Q : flat (b1 ++ [(m1 ++ (tp, p) :: m2, (tc, c))]) = flat (b1 ++ [(m1, (tp, p)); (m2, (tc, c))])).
  { rewrite !flat_app. f_equal. unfold flat. simpl. rewrite !app_nil_r, <- !app_assoc. simpl. reflexivity. }
  rewrite Q. split; auto. split; [rewrite map_app, E1; reflexivity|]. split; auto.
  apply Forall_app in F as [F1 F2]. apply Forall_app. split; auto. inversion F2 as [|? ? A F3]; subst. inversion F3 as [|? ? B _]; subst. simpl in A, B.
  constructor; auto. simpl. apply Forall_app. split; [|constructor; auto; simpl; lia]. eapply Forall_impl; [|exact A]. simpl. intros e ->. lia.
Qed.
Lemma get_some : forall h r q, uinv h r -> fst (own_usage r) = Some q -> exists p c, before_newest h p c /\ usage p c q.
Proof.
  intros h r q I. unfold own_usage. destruct (rev r) as [|[tc c] [|[tp p] o]] eqn:R; try discriminate. destruct (Z.eqb_spec (tc - tp) 0) as [E|E]; [discriminate|].
  cbn [fst]. intros [= <-]. apply rev_two in R. destruct I as (front & bs & -> & -> & F & L).
  apply map_eq_app in R as (b1 & b2 & -> & E1 & E2). destruct b2 as [|[m1 p'] [|[m2 c'] [|? ?]]]; try discriminate. injection E2 as -> ->.
  exists (tp, p), (tc, c). split; [|reflexivity]. exists (front ++ flat b1 ++ m1), m2. split.
  - rewrite flat_app. unfold flat at 2. simpl. rewrite app_nil_r, <- !app_assoc. simpl. reflexivity.
  - split; [simpl; lia|]. apply Forall_app in F as [_ F]. inversion F as [|? ? _ F']; subst. inversion F'; subst. auto.
Qed.
Lemma get_none : forall h r, uinv h r -> fst (own_usage r) = None -> length h < 2 \/ exists l p c, h = l ++ [p; c] /\ fst p = fst c.
Proof.
  intros h r I. unfold own_usage. destruct I as (front & bs & -> & -> & F & L). destruct (rev (map snd bs)) as [|[tc c] [|[tp p] o]] eqn:R.
  - intros _. rewrite <- map_rev in R. apply map_eq_nil in R. assert (bs = []) by (rewrite <- (rev_involutive bs), R; reflexivity). subst. simpl in L. destruct L as [->|L]; [simpl; auto|lia].
  - intros _. rewrite <- map_rev in R. destruct (rev bs) as [|[m c'] [|? ?]] eqn:RB; try discriminate. injection R as ->.
    assert (bs = [(m, (tc, c))]) by (rewrite <- (rev_involutive bs), RB; reflexivity). subst. unfold flat in *. simpl in *. rewrite app_nil_r in *.
    inversion F as [|? ? A _]; subst. simpl in A. destruct (destruct_last _ m) as [->|(m' & x & ->)].
    + simpl in *. destruct L as [->|L]; [left; simpl; lia|lia].
    + right. exists (front ++ m'), x, (tc, c). split; [rewrite <- !app_assoc; reflexivity|]. apply Forall_app in A as [_ A]. inversion A; auto.
  - destruct (Z.eqb_spec (tc - tp) 0) as [E|E]; [|discriminate]. intros _. apply rev_two in R.
    apply map_eq_app in R as (b1 & b2 & -> & E1 & E2). destruct b2 as [|[m1 p'] [|[m2 c'] [|? ?]]]; try discriminate. injection E2 as -> ->. right.
    apply Forall_app in F as [_ F]. inversion F as [|? ? A F']; subst. inversion F' as [|? ? B _]; subst. simpl in B.
    rewrite flat_app. unfold flat at 2. simpl. rewrite app_nil_r. destruct (destruct_last _ m2) as [->|(m' & x & ->)].
    + exists (front ++ flat b1 ++ m1), (tp, p), (tc, c). split; [simpl; rewrite <- !app_assoc; reflexivity|]. simpl. lia.
    + exists (front ++ flat b1 ++ m1 ++ (tp, p) :: m'), x, (tc, c). split; [rewrite <- ?app_assoc; simpl; rewrite <- ?app_assoc; simpl; rewrite <- ?app_assoc; reflexivity|].
      apply Forall_app in B as [_ B]. inversion B; auto.
Qed.
Lemma urun_inv : forall w ops h r, uinv h r -> uinv (h ++ saves ops) (fst (urun w r ops)).
Proof.
  intros w. induction ops as [|o ops IH]; intros h r I; simpl; [rewrite app_nil_r; auto|]. destruct o as [e|].
  - specialize (IH _ _ (uinv_save w h r e I)). rewrite <- app_assoc in IH. simpl in IH. destruct (urun w (save_load w r e) ops); auto.
  - pose proof (uinv_get _ _ I) as J. destruct (own_usage r) as [a r']. simpl in J. specialize (IH _ _ J). destruct (urun w r' ops); auto.
Qed.
Lemma urun_app : forall w a b r, snd (urun w r (a ++ b)) = snd (urun w r a) ++ snd (urun w (fst (urun w r a)) b).
Proof.
  intros w. induction a as [|o a IH]; intros b r; simpl; auto. destruct o as [e|].
  - specialize (IH b (save_load w r e)). destruct (urun w (save_load w r e) (a ++ b)), (urun w (save_load w r e) a). simpl in *. rewrite IH. reflexivity.
  - destruct (own_usage r) as [x r']. specialize (IH b r'). destruct (urun w r' (a ++ b)), (urun w r' a). simpl in *. rewrite IH. reflexivity.
Qed.
Lemma uinv_nil : uinv [] [].
Proof. exists [], []. repeat split; auto. Qed.
Lemma urun_get : forall w ops, exists a, snd (urun w [] (ops ++ [Get])) = snd (urun w [] ops) ++ [Some a] /\
  match a with
  | Some q => exists p c, before_newest (saves ops) p c /\ usage p c q
  | None => length (saves ops) < 2 \/ exists l p c, saves ops = l ++ [p; c] /\ fst p = fst c
  end.
Proof.
  intros w ops. pose proof (urun_inv w ops [] [] uinv_nil) as I. simpl in I. rewrite urun_app. exists (fst (own_usage (fst (urun w [] ops)))). split.
  - f_equal. simpl. destruct (own_usage (fst (urun w [] ops))). reflexivity.
  - destruct (fst (own_usage (fst (urun w [] ops)))) as [q|] eqn:E; [eapply get_some; eauto|eapply get_none; eauto].
Qed.

(** memory *)
Lemma spaced_cons : forall g a l, spaced g (a :: l) <-> (forall b t, l = b :: t -> (fst a + g <= fst b)%Z) /\ spaced g l.
Proof. intros g a [|b t]; simpl; split; try tauto. - intros _. split; auto. intros; discriminate. - intros [H S]. split; auto. intros b' t' [= <- <-]. auto. - intros [H S]. split; eauto. Qed.
Lemma spaced_app_r : forall g a b, spaced g (a ++ b) -> spaced g b.
Proof. induction a as [|x a IH]; intros b S; auto. simpl app in S. apply spaced_cons in S as [_ S]. auto. Qed.
Lemma spaced_last : forall g l a, (0 <= g)%Z -> spaced g (a :: l) -> (fst a + g * Z.of_nat (length l) <= fst (last l a))%Z.
Proof.
  induction l as [|b l IH]; intros a G S; [simpl; lia|]. apply spaced_cons in S as [H S]. specialize (H b l eq_refl). specialize (IH b G S).
  assert (last (b :: l) a = last l b). { clear. revert a b. induction l as [|c l IH]; intros a b; auto. change (last (b :: c :: l) a) with (last (c :: l) a). rewrite (IH a c). change (last (c :: l) b) with (match l with [] => c | _ => last l b end). rewrite <- (IH b c). reflexivity. }
  rewrite H0. cbn [length]. nia.
Qed.

Lemma evict_stop : forall w n r a l, evict w n r = a :: l -> length l <= 2 \/ (n - w <= fst a)%Z.
Proof.
  induction r as [|e r IH]; intros a l E; [discriminate|]. cbn [evict] in E. destruct ((3 <? length (e :: r)) && (fst e <? n - w)%Z)%bool eqn:C; [eauto|].
  injection E as <- <-. apply Bool.andb_false_iff in C as [C|C]; [apply Nat.ltb_ge in C; simpl in C; lia|]. apply Z.ltb_ge in C. auto.
Qed.
Lemma last_app_ne : forall A (a b : list A) d e, b <> [] -> last (a ++ b) d = last b e.
Proof.
  induction a as [|x a IH]; intros b d e N; simpl app.
  - destruct (destruct_last _ b) as [->|(l & y & ->)]; [congruence|]. rewrite !last_last. reflexivity.
  - assert (a ++ b <> []) by (destruct a; auto; discriminate). destruct (a ++ b) eqn:Q; [congruence|]. change (last (a0 :: l) d = last b e). rewrite <- Q. apply IH; auto.
Qed.
Definition minv (h r : list save) (bound : nat) : Prop := (exists pre, h = pre ++ r) /\ length r <= bound.
Lemma minv_save : forall w g h r e, (0 < g)%Z -> (0 <= w)%Z -> spaced g (h ++ [e]) -> minv h r (Nat.max 4 (Z.to_nat (w / g) + 2)) ->
  minv (h ++ [e]) (save_load w r e) (Nat.max 4 (Z.to_nat (w / g) + 2)).
Proof.
  intros w g h r e G W S [(pre & ->) L]. unfold save_load. destruct (evict_suffix w (fst (last r (0%Z, []))) r) as (p & E & K).
  set (ev := evict w (fst (last r (0%Z, []))) r) in *. split; [exists (pre ++ p); rewrite E at 1; rewrite <- !app_assoc; reflexivity|].
  set (q := Z.to_nat (w / g)) in *. rewrite app_length. cbn [length]. destruct ev as [|a l] eqn:EV; [cbn [length]; lia|].
  destruct (evict_stop _ _ _ _ _ EV) as [Q|Q]; [cbn [length]; lia|].
  rewrite E in S. rewrite <- !app_assoc in S. apply spaced_app_r in S. apply spaced_app_r in S.
  assert (S' : spaced g (a :: l)).
  { clear - S. revert S. generalize (a :: l). induction l0 as [|x l0 IH]; intros S; simpl; auto. simpl app in S. apply spaced_cons in S as [H S]. apply spaced_cons. split; auto.
    intros b t ->. simpl in H. eapply H; eauto. }
  pose proof (spaced_last g l a ltac:(lia) S') as B. rewrite E in Q. rewrite (last_app_ne _ p (a :: l) (0%Z, []) a) in Q by discriminate.
  assert (LA : last (a :: l) a = last l a) by (destruct l; reflexivity). rewrite LA in Q.
  assert (Z.of_nat (length l) <= w / g)%Z by (apply Z.div_le_lower_bound; unfold save in *; lia). cbn [length]. unfold q, save in *. lia.
Qed.
Lemma spaced_pair : forall g l p c, spaced g (l ++ [p; c]) -> (fst p + g <= fst c)%Z.
Proof. intros g l p c S. apply spaced_app_r in S. simpl in S. tauto. Qed.
Lemma spaced_app_l : forall g a b, spaced g (a ++ b) -> spaced g a.
Proof.
  induction a as [|x a IH]; intros b S; [simpl; auto|]. simpl app in S. apply spaced_cons in S as [H S]. apply spaced_cons. split; eauto.
  intros y t ->. eapply H. simpl. reflexivity.
Qed.
Lemma urun_minv : forall w g ops h r, (0 < g)%Z -> (0 <= w)%Z -> spaced g (h ++ saves ops) -> minv h r (Nat.max 4 (Z.to_nat (w / g) + 2)) ->
  minv (h ++ saves ops) (fst (urun w r ops)) (Nat.max 4 (Z.to_nat (w / g) + 2)).
Proof.
  intros w g. induction ops as [|o ops IH]; intros h r G W S I; simpl; [rewrite app_nil_r; auto|]. destruct o as [e|].
  - simpl in S. assert (S1 : spaced g ((h ++ [e]) ++ saves ops)) by (rewrite <- app_assoc; exact S).
    specialize (IH (h ++ [e]) (save_load w r e) G W S1 (minv_save w g h r e G W (spaced_app_l _ _ _ S1) I)).
    rewrite <- app_assoc in IH. simpl in IH. destruct (urun w (save_load w r e) ops); auto.
  - assert (J : snd (own_usage r) = r).
    { unfold own_usage. destruct (rev r) as [|[tc c] [|[tp p] o]] eqn:R; auto. destruct (Z.eqb_spec (tc - tp) 0) as [E|E]; auto.
      apply rev_two in R. destruct I as [(pre & ->) _]. subst r. simpl in S. apply spaced_app_l in S. rewrite app_assoc in S. apply spaced_pair in S. simpl in S. lia. }
    destruct (own_usage r) as [a r']. simpl in J. subst r'. specialize (IH h r G W S I). destruct (urun w r ops); auto.
Qed.

(** the occupancy factor *)
(** from a state: the answer at j is about an earlier reading i, or the state, and all between are at its time *)
Lemma occ_from : forall cpus l pu pt j u t q, nth_error l j = Some (u, t) -> nth_error (occupancies cpus (Some (pu, pt)) l) j = Some (Some q) ->
  (exists i u0 t0, i < j /\ nth_error l i = Some (u0, t0) /\ t <> t0 /\ q = ((inject_Z (u - u0) / inject_Z cpus) / inject_Z (t - t0))%Q /\ (forall k u1 t1, i < k < j -> nth_error l k = Some (u1, t1) -> t1 = t0)) \/
  (t <> pt /\ q = ((inject_Z (u - pu) / inject_Z cpus) / inject_Z (t - pt))%Q /\ forall k u1 t1, k < j -> nth_error l k = Some (u1, t1) -> t1 = pt).
Proof.
  intros cpus. induction l as [|[u1 t1] l IH]; intros pu pt [|j] u t q E A; simpl in E; try discriminate.
  - injection E as -> ->. simpl in A. destruct (Z.eqb_spec (t - pt) 0); simpl in A; [discriminate|]. injection A as <-. right. split; [lia|]. split; auto. intros k ? ? K. lia.
  - simpl in A. destruct (Z.eqb_spec (t1 - pt) 0) as [Z0|Z0]; simpl in A.
    + destruct (IH _ _ _ _ _ _ E A) as [(i & u0 & t0 & L & E0 & N & Q & B)|(N & Q & B)].
      * left. exists (S i), u0, t0. repeat split; auto; [lia|]. intros [|k] u2 t2 K E2; [lia|]. apply (B k u2 t2); [lia|auto].
      * right. split; auto. split; auto. intros [|k] u2 t2 K E2; simpl in E2; [injection E2 as <- <-; lia|]. apply (B k u2 t2); [lia|auto].
    + destruct (IH _ _ _ _ _ _ E A) as [(i & u0 & t0 & L & E0 & N & Q & B)|(N & Q & B)].
      * left. exists (S i), u0, t0. repeat split; auto; [lia|]. intros [|k] u2 t2 K E2; [lia|]. apply (B k u2 t2); [lia|auto].
      * left. exists 0, u1, t1. split; [lia|]. split; auto. split; auto. split; auto. intros [|k] u2 t2 K E2; [lia|]. simpl in E2. apply (B k u2 t2); [lia|auto].
Qed.
Lemma occ_ok : forall cpus l j u t q, nth_error l j = Some (u, t) -> nth_error (occupancies cpus None l) j = Some (Some q) ->
  exists i u0 t0, i < j /\ nth_error l i = Some (u0, t0) /\ t <> t0 /\ q = ((inject_Z (u - u0) / inject_Z cpus) / inject_Z (t - t0))%Q /\ (forall k u1 t1, i < k < j -> nth_error l k = Some (u1, t1) -> t1 = t0).
Proof.
  intros cpus [|[u1 t1] l] [|j] u t q E A; simpl in *; try discriminate.
  destruct (occ_from _ _ _ _ _ _ _ _ E A) as [(i & u0 & t0 & L & E0 & N & Q & B)|(N & Q & B)].
  - exists (S i), u0, t0. repeat split; auto; [lia|]. intros [|k] u2 t2 K E2; [lia|]. apply (B k u2 t2); [lia|auto].
  - exists 0, u1, t1. split; [lia|]. split; auto. split; auto. split; auto. intros [|k] u2 t2 K E2; [lia|]. simpl in E2. apply (B k u2 t2); [lia|auto].
Qed.
(** a reading at another time than the one before is answered *)
Lemma occ_from_some : forall cpus l pu pt j u t, nth_error l j = Some (u, t) ->
  (match j with 0 => t <> pt | S j' => forall u1 t1, nth_error l j' = Some (u1, t1) -> t <> t1 end) ->
  exists q, nth_error (occupancies cpus (Some (pu, pt)) l) j = Some (Some q).
Proof.
  intros cpus. induction l as [|[u1 t1] l IH]; intros pu pt [|j] u t E N; simpl in E; try discriminate.
  - injection E as -> ->. simpl. destruct (Z.eqb_spec (t - pt) 0); [lia|]. simpl. eauto.
  - simpl. destruct (Z.eqb_spec (t1 - pt) 0) as [Z0|Z0]; simpl; eapply IH; eauto; destruct j; auto.
    + specialize (N u1 t1 eq_refl). lia.
    + apply (N u1 t1 eq_refl).
Qed.
Lemma occ_some : forall cpus l j u t u1 t1, nth_error l (S j) = Some (u, t) -> nth_error l j = Some (u1, t1) -> t <> t1 ->
  exists q, nth_error (occupancies cpus None l) (S j) = Some (Some q).
Proof.
  intros cpus [|[u0 t0] l] j u t u1 t1 E E1 N; [discriminate|]. simpl in E. simpl. eapply occ_from_some; eauto.
  destruct j as [|j]; simpl in E1; [congruence|]. intros u2 t2 E2. congruence.
Qed.
Lemma occ_bounds : forall cpus u u0 t t0, (0 < cpus)%Z -> (t0 < t)%Z -> (0 <= u - u0 <= cpus * (t - t0))%Z ->
  (0 <= (inject_Z (u - u0) / inject_Z cpus) / inject_Z (t - t0) <= 1)%Q.
Proof.
  intros cpus u u0 t t0 C T [A B].
  assert (C' : (0 < inject_Z cpus)%Q) by (change 0%Q with (inject_Z 0); rewrite <- Zlt_Qlt; lia).
  assert (T' : (0 < inject_Z (t - t0))%Q) by (change 0%Q with (inject_Z 0); rewrite <- Zlt_Qlt; lia).
  split.
  - apply Qle_shift_div_l; auto. rewrite Qmult_0_l. apply Qle_shift_div_l; auto. rewrite Qmult_0_l. change 0%Q with (inject_Z 0). rewrite <- Zle_Qle. lia.
  - apply Qle_shift_div_r; auto. apply Qle_shift_div_r; auto. rewrite Qmult_1_l, <- inject_Z_mult, <- Zle_Qle. lia.
Qed.

Lemma used_by_platform : forall c u n s i q st, c User = Some u -> c System = Some s ->
  (c Nice = Some n -> c Irq = Some i -> c Softirq = Some q -> c Steal = Some st -> c Guest = Some 0%Z -> c GuestNice = Some 0%Z -> used c = Some (spent c)) /\
  (c Nice = Some n -> c Irq = Some i -> c Softirq = Some q -> c Steal = None -> used c = Some (u + n + s + i + q)%Z) /\
  (c Nice = Some n -> c Softirq = None -> used c = Some (u + n + s)%Z) /\
  (c Nice = None -> forall a b, c Interrupt = Some a -> c Dpc = Some b -> used c = Some (u + s + a + b)%Z).
Proof.
  intros c u n s i q st U S0. unfold used, attributes, spent. simpl. rewrite U, S0.
  split; [|split; [|split]]; intros; repeat match goal with H : c _ = _ |- _ => rewrite H; clear H end; simpl; try (f_equal; lia).
  destruct (c Irq); f_equal; lia.
Qed.
