(** heapq with comparisons that may raise: nothing is lost by a push; without exceptions it is Heapq_Model. *)
From Coq Require Import Lia.
From Verif Require Import Prelude PreludeFacts Order_Spec Heapq_Model Heapq_Proofs HeapqC_Model.

Lemma swap_perm : forall A (h : list A) i j x y, nth_error h i = Some x -> nth_error h j = Some y -> Permutation (upd (upd h i y) j x) h.
Proof.
  intros A h i j x y X Y. destruct (Nat.eq_dec i j) as [->|N].
  - rewrite upd_upd, upd_same; auto.
  - pose proof (upd_perm h i y X) as P1.
    assert (Y' : nth_error (upd h i y) j = Some y) by (rewrite nth_error_upd_neq; auto).
    pose proof (upd_perm (upd h i y) j x Y') as P2. apply (Permutation_cons_inv (a := y)). etransitivity; eauto.
Qed.
Lemma div2_lt : forall p, 0 < p -> Nat.div2 (p - 1) < p.
Proof. intros p P. assert (Nat.div2 (p - 1) <= p - 1) by (apply Nat.div2_decr; lia). lia. Qed.

Section Facts.
  Context {A : Type}.
  Variable cmp : A -> A -> res bool.

  Lemma csiftdown_perm : forall fuel h s pos, pos < fuel -> pos < length h -> Permutation (fst (csiftdown cmp fuel h s pos)) h.
  Proof.
    induction fuel as [|fuel IH]; intros h s pos F L; [lia|]. cbn [csiftdown]. destruct (Nat.ltb_spec s pos); [|reflexivity].
    assert (D : Nat.div2 (pos - 1) < pos) by (apply div2_lt; lia).
    destruct (nth_error h pos) as [x|] eqn:X; [|apply nth_error_None in X; lia].
    destruct (nth_error h (Nat.div2 (pos - 1))) as [y|] eqn:Y; [|apply nth_error_None in Y; lia].
    destruct (cmp x y) as [[|]|]; try reflexivity. etransitivity; [apply IH; rewrite ?upd_length; lia|]. apply swap_perm; auto.
  Qed.
  Lemma cheappush_perm : forall h x, Permutation (fst (cheappush cmp h x)) (x :: h).
  Proof.
    intros. unfold cheappush. etransitivity; [apply csiftdown_perm; rewrite ?app_length; simpl; lia|]. symmetry. apply Permutation_cons_append.
  Qed.
  Lemma smaller_child_lt : forall h c k, c < length h -> smaller_child cmp h c = Ok k -> k < length h /\ c <= k <= c + 1.
  Proof.
    intros h c k L H. unfold smaller_child in H. destruct (Nat.ltb_spec (c + 1) (length h)); [|inversion H; subst; lia].
    destruct (nth_error h c), (nth_error h (c + 1)); try (inversion H; subst; lia). destruct (cmp a a0) as [[|]|]; inversion H; subst; lia.
  Qed.
  Lemma csiftup_perm : forall fuel h pos, pos < length h -> length h < pos + fuel ->
    Permutation (fst (csiftup_loop cmp fuel h pos)) h /\ forall p, snd (csiftup_loop cmp fuel h pos) = Ok p -> p < length h.
  Proof.
    induction fuel as [|fuel IH]; intros h pos L F; [lia|]. cbn [csiftup_loop]. destruct (Nat.ltb_spec (2 * pos + 1) (length h)) as [C|C].
    - destruct (smaller_child cmp h (2 * pos + 1)) as [k|e] eqn:K; [|split; [reflexivity|discriminate]].
      destruct (smaller_child_lt _ _ _ C K) as (Kl & Kp).
      destruct (nth_error h k) as [c|] eqn:Ec; [|apply nth_error_None in Ec; lia].
      destruct (nth_error h pos) as [x|] eqn:Ex; [|apply nth_error_None in Ex; lia].
      destruct (IH (upd (upd h pos c) k x) k) as (P1 & P2); rewrite ?upd_length in *; try lia. split; auto.
      etransitivity; [exact P1|]. apply swap_perm; auto.
    - split; [reflexivity|]. simpl. intros p E. inversion E; subst. auto.
  Qed.
  (** what a pop that raises has lost is the smallest element *)
  Lemma cheappop_perm : forall h, match cheappop cmp h with
    | (h', Ok x) => Permutation h (x :: h')
    | (h', Err e) => h = [] /\ e = IndexError /\ h' = [] \/ exists x, nth_error h 0 = Some x /\ Permutation h (x :: h')
    end.
  Proof.
    intros h. unfold cheappop. destruct (rev h) as [|z r] eqn:R.
    - apply (f_equal (@rev A)) in R. rewrite rev_involutive in R. simpl in R. subst. auto.
    - apply (f_equal (@rev A)) in R. rewrite rev_involutive in R. simpl in R. subst h. destruct (rev r) as [|x t] eqn:E; [simpl; reflexivity|].
      cbv zeta. set (h0 := upd (x :: t) 0 z). assert (L : 0 < length h0) by (simpl; lia).
      destruct (csiftup_perm (S (length h0)) h0 0 L) as (P & Q); [lia|].
      assert (H0 : Permutation ((x :: t) ++ [z]) (x :: h0)).
      { simpl. apply perm_skip. symmetry. apply Permutation_cons_append. }
      destruct (csiftup_loop cmp (S (length h0)) h0 0) as (h1 & [p|e]); simpl in P, Q.
      + specialize (Q p eq_refl). assert (P2 := csiftdown_perm (S p) h1 0 p). rewrite (Permutation_length P) in P2. specialize (P2 ltac:(lia) Q).
        destruct (csiftdown cmp (S p) h1 0 p) as (h2 & [e|]); simpl in P2.
        * right. exists x. split; auto. etransitivity; [exact H0|]. apply perm_skip. symmetry. etransitivity; eauto.
        * etransitivity; [exact H0|]. apply perm_skip. symmetry. etransitivity; eauto.
      + right. exists x. split; auto. etransitivity; [exact H0|]. apply perm_skip. symmetry. auto.
  Qed.

  (** * Without exceptions *)
  Variable lt : A -> A -> bool.
  Variable Q : A -> Prop.
  Hypothesis agree : forall a b, Q a -> Q b -> cmp a b = Ok (lt a b).

  Lemma Q_nth : forall h i x, Forall Q h -> nth_error h i = Some x -> Q x.
  Proof. intros h i x F E. rewrite Forall_forall in F. apply F. eapply nth_error_In; eauto. Qed.
  Lemma csiftdown_agrees : forall fuel hole s pos x, pos < fuel -> pos < length hole -> Forall Q (upd hole pos x) ->
    csiftdown cmp fuel (upd hole pos x) s pos = (siftdown_loop lt fuel hole s pos x, None).
  Proof.
    induction fuel as [|fuel IH]; intros hole s pos x F L FQ; [lia|]. cbn [csiftdown siftdown_loop]. destruct (Nat.ltb_spec s pos); [|reflexivity].
    assert (D : Nat.div2 (pos - 1) < pos) by (apply div2_lt; lia). set (par := Nat.div2 (pos - 1)) in *.
    rewrite nth_error_upd_eq by auto. rewrite nth_error_upd_neq by lia.
    destruct (nth_error hole par) as [y|] eqn:Y; [|apply nth_error_None in Y; lia].
    assert (X' : nth_error (upd hole pos x) pos = Some x) by (apply nth_error_upd_eq; auto).
    assert (Y' : nth_error (upd hole pos x) par = Some y) by (rewrite nth_error_upd_neq; auto; lia).
    rewrite agree by (eapply Q_nth; eauto). destruct (lt x y); auto.
    assert (E : upd (upd (upd hole pos x) par x) pos y = upd (upd hole pos y) par x).
    { rewrite upd_comm by lia. rewrite upd_upd. auto. }
    rewrite E. apply IH; rewrite ?upd_length; try lia. rewrite <- E. eapply Permutation_Forall; [|exact FQ]. symmetry. apply swap_perm; auto.
  Qed.
  Lemma csiftup_agrees : forall fuel hole pos x, pos < length hole -> length hole < pos + fuel -> Forall Q (upd hole pos x) ->
    exists h p, siftup_loop lt fuel hole pos = (h, p) /\ p < length h /\ csiftup_loop cmp fuel (upd hole pos x) pos = (upd h p x, Ok p).
  Proof.
    induction fuel as [|fuel IH]; intros hole pos x L F FQ; [lia|]. cbn [csiftup_loop siftup_loop]. cbv zeta. rewrite upd_length.
    destruct (Nat.ltb_spec (2 * pos + 1) (length hole)) as [C|C]; [|exists hole, pos; auto].
    set (k := if 2 * pos + 1 + 1 <? length hole then match nth_error hole (2 * pos + 1), nth_error hole (2 * pos + 1 + 1) with
       | Some c, Some r => if negb (lt c r) then 2 * pos + 1 + 1 else 2 * pos + 1 | _, _ => 2 * pos + 1 end else 2 * pos + 1).
    assert (K : smaller_child cmp (upd hole pos x) (2 * pos + 1) = Ok k).
    { unfold smaller_child, k. rewrite upd_length. destruct (Nat.ltb_spec (2 * pos + 1 + 1) (length hole)); auto.
      rewrite !nth_error_upd_neq by lia.
      destruct (nth_error hole (2 * pos + 1)) as [c|] eqn:Ec; [|apply nth_error_None in Ec; lia].
      destruct (nth_error hole (2 * pos + 1 + 1)) as [r|] eqn:Er; [|apply nth_error_None in Er; lia].
      rewrite agree.
      - destruct (lt c r); auto.
      - apply (Q_nth (upd hole pos x) (2 * pos + 1)); auto. rewrite nth_error_upd_neq; auto; lia.
      - apply (Q_nth (upd hole pos x) (2 * pos + 1 + 1)); auto. rewrite nth_error_upd_neq; auto; lia. }
    rewrite K. destruct (smaller_child_lt _ _ _ ltac:(rewrite upd_length; exact C) K) as (Kl & Kp). rewrite upd_length in Kl.
    rewrite nth_error_upd_neq by lia. rewrite nth_error_upd_eq by auto.
    destruct (nth_error hole k) as [c|] eqn:Ec; [|apply nth_error_None in Ec; lia].
    assert (E : upd (upd (upd hole pos x) pos c) k x = upd (upd hole pos c) k x) by (rewrite upd_upd; auto).
    rewrite E. apply IH; rewrite ?upd_length; try lia. rewrite <- E. eapply Permutation_Forall; [|exact FQ]. symmetry. apply swap_perm.
    - apply nth_error_upd_eq; auto.
    - rewrite nth_error_upd_neq; auto; lia.
  Qed.
  Lemma cheappush_agrees : forall h x, Forall Q (x :: h) -> cheappush cmp h x = (heappush lt h x, None).
  Proof.
    intros h x F. unfold cheappush, heappush, siftdown.
    assert (E : nth_error (h ++ [x]) (length h) = Some x) by (rewrite nth_error_app2, Nat.sub_diag; auto). rewrite E.
    rewrite <- (upd_same (h ++ [x]) (length h) E) at 1. apply csiftdown_agrees; rewrite ?app_length; simpl; try lia. rewrite upd_same by auto.
    eapply Permutation_Forall; [apply Permutation_cons_append|auto].
  Qed.
  Lemma cheappop_agrees : forall h, Forall Q h -> cheappop cmp h = match heappop lt h with None => (h, Err IndexError) | Some (x, h') => (h', Ok x) end.
  Proof.
    intros h F. unfold cheappop, heappop. destruct (rev h) as [|z r] eqn:R; auto.
    apply (f_equal (@rev A)) in R. rewrite rev_involutive in R. simpl in R. subst h. destruct (rev r) as [|x t] eqn:E; auto.
    cbv zeta. set (h0 := upd (x :: t) 0 z) in *. assert (Q0 : Forall Q h0).
    { simpl. apply Forall_app in F. destruct F as (F1 & F2). inversion F1; inversion F2; subst. constructor; auto. }
    unfold siftup. assert (Ez : nth_error h0 0 = Some z) by reflexivity. rewrite Ez.
    destruct (csiftup_agrees (S (length h0)) h0 0 z) as (h1 & p & E1 & P & E2); [simpl; lia|lia|rewrite upd_same; auto|].
    rewrite (upd_same h0 0 Ez) in E2. rewrite E1, E2. unfold siftdown. rewrite nth_error_upd_eq by auto.
    assert (Q1 : Forall Q (upd h1 p z)).
    { destruct (csiftup_perm (S (length h0)) h0 0) as (P1 & _); [simpl; lia|lia|]. rewrite E2 in P1. simpl in P1.
      eapply Permutation_Forall; [symmetry; exact P1|auto]. }
    assert (E3 := csiftdown_agrees (S p) (upd h1 p z) 0 p z). rewrite upd_upd in E3. rewrite E3 by (rewrite ?upd_length; auto). auto.
  Qed.
End Facts.
