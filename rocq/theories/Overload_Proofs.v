(* C70: proofs. *)
From Coq Require Import List Bool Arith ZArith String Lia.
From Verif Require Import Prelude PreludeFacts Args_Model Args_Spec Args_Proofs
  Overload_Model Overload_Spec.
Import ListNotations.

Section P.
  Variable ty : Type.
  Variable inst : val -> ty -> bool.

  Lemma matches_suits o args kw b : writable (t_sig o) -> annotated o ->
    matches inst o args kw = Ok b -> (b = true <-> suits inst o args kw).
  Proof.
    intros W An E. unfold matches in E.
    destruct (py_bind (t_sig o) args kw) as [r|] eqn:B; [|discriminate]. injection E as <-.
    destruct (proj1 (call_rule _ args kw W) r B) as [A [[V N] K]].
    rewrite forallb_forall. split.
    - intros H. split; auto. intros i p t v I T G.
      rewrite <- (V i p I) in G. apply (dget_In sok) in G. apply H in G. unfold fits in G.
      cbn [fst snd] in G. rewrite T in G. auto.
    - intros [_ H] [n v] I. unfold fits. cbn [fst snd].
      assert (In n (map p_name (t_sig o))) by (rewrite <- K; apply (in_map fst) in I; auto).
      apply in_map_iff in H0. destruct H0 as [p [<- P]].
      destruct (t_ann o (p_name p)) as [t|] eqn:T; [|exfalso; apply (An p); auto].
      apply In_nth_error in P. destruct P as [i P]. apply (H i p t v); auto.
      rewrite <- (V i p P). apply (In_dget sok); auto. unfold dwf. rewrite K. apply (wr_names W).
  Qed.

  Lemma matches_err o args kw e : matches inst o args kw = Err e -> e = TypeError.
  Proof.
    unfold matches. destruct (py_bind _ _ _) eqn:B; [discriminate|]. intros H; injection H as <-.
    apply py_bind_err in B. auto.
  Qed.

  Lemma descending_all {A} (lt : A -> A -> bool) l a : (forall x y, lt x y = true) ->
    descending lt a l = true.
  Proof.
    intros H. revert a. induction l as [|b l IH]; simpl; intros a; auto. rewrite H; simpl; auto.
  Qed.
  Lemma py_sort_rev {A} (lt : A -> A -> bool) l : (forall x y, lt x y = true) ->
    py_sort lt l = Some (rev l).
  Proof.
    intros H. unfold py_sort. destruct l as [|a [|b l]]; auto.
    rewrite descending_all; auto.
  Qed.

  Lemma choose_matching t args kw m : matching inst t args kw = Ok m ->
    choose inst t args kw = match m with [] => Err TypeError | e :: _ => Ok (snd e) end.
  Proof.
    intros E. unfold choose. rewrite E, py_sort_rev by auto.
    destruct m as [|e m]; auto. simpl.
    destruct (rev m ++ [e]) as [|x r] eqn:R; [destruct (rev m); discriminate|].
    rewrite <- R. rewrite last_last. auto.
  Qed.

  Lemma matching_spec t args kw : 
    (forall o f, In (o, f) t -> exists b, matches inst o args kw = Ok b) ->
    exists m, matching inst t args kw = Ok m /\
      m = filter (fun e => match matches inst (fst e) args kw with Ok b => b | Err _ => false end) t.
  Proof.
    induction t as [|[o f] t IH]; intros H; simpl; [eauto|].
    destruct (H o f) as [b B]; [left; auto|]. rewrite B.
    destruct IH as [m [M E]]; [intros; eapply H; right; eauto|]. rewrite M.
    exists (if b then (o, f) :: m else m). split; auto. subst m. destruct b; auto.
  Qed.

  Lemma matching_in t args kw m : matching inst t args kw = Ok m ->
    forall o f, In (o, f) m -> In (o, f) t /\ matches inst o args kw = Ok true.
  Proof.
    revert m. induction t as [|[o f] t IH]; simpl; intros m E o' f' I.
    - injection E as <-. destruct I.
    - destruct (matches inst o args kw) as [b|] eqn:B; [|discriminate].
      destruct (matching inst t args kw) as [r|]; [|discriminate]. injection E as <-.
      destruct b.
      + destruct I as [I|I].
        * injection I as <- <-. auto.
        * destruct (IH _ eq_refl _ _ I). auto.
      + destruct (IH _ eq_refl _ _ I). auto.
  Qed.

  Lemma chosen_matches t args kw f : 
    (forall o f, In (o, f) t -> writable (t_sig o) /\ annotated o) ->
    choose inst t args kw = Ok f -> exists o, In (o, f) t /\ suits inst o args kw.
  Proof.
    intros W H. destruct (matching inst t args kw) as [m|] eqn:M.
    - rewrite (choose_matching _ _ _ _ M) in H. destruct m as [|[o g] m]; [discriminate|].
      injection H as <-. destruct (matching_in _ _ _ _ M o g) as [I X]; [left; auto|].
      destruct (W o g I) as [W1 W2].
      exists o. split; auto. apply (matches_suits o args kw true); auto.
    - unfold choose in H. rewrite M in H. discriminate.
  Qed.

  Lemma bound_matches o args kw : writable (t_sig o) -> python_accepts (t_sig o) args kw ->
    exists b, matches inst o args kw = Ok b.
  Proof.
    intros W A. unfold matches. destruct (py_bind (t_sig o) args kw) as [r|e] eqn:B; eauto.
    exfalso. apply (proj2 (call_rule _ args kw W) e B); auto.
  Qed.

  Lemma first_wins t args kw :
    (forall o f, In (o, f) t -> writable (t_sig o) /\ annotated o /\ python_accepts (t_sig o) args kw) ->
    (forall o f, first_suiting inst t args kw o f -> choose inst t args kw = Ok f) /\
    ((forall o f, In (o, f) t -> ~ suits inst o args kw) -> choose inst t args kw = Err TypeError).
  Proof.
    intros W.
    destruct (matching_spec t args kw) as [m [M E]].
    { intros o f I. destruct (W o f I) as [W1 [W2 W3]]. apply bound_matches; auto. }
    assert (S: forall o f, In (o, f) t ->
       (match matches inst o args kw with Ok b => b | Err _ => false end = true <-> suits inst o args kw)).
    { intros o f I. destruct (W o f I) as [W1 [W2 W3]].
      destruct (bound_matches o args kw W1 W3) as [b B]. rewrite B. apply matches_suits; auto. }
    rewrite (choose_matching _ _ _ _ M). split.
    - intros o f [l [r [T [U N]]]]. subst t. rewrite filter_app in E. simpl in E.
      assert (IO: In (o, f) (l ++ (o, f) :: r)) by (apply in_or_app; right; left; auto).
      rewrite (proj2 (S o f IO) U) in E.
      rewrite filter_nil in E.
      + subst m. auto.
      + intros [o' f'] I. cbn [fst].
        destruct (match matches inst o' args kw with Ok b => b | Err _ => false end) eqn:X; auto.
        exfalso. apply (N (o', f') I). apply (S o' f'); auto. apply in_or_app; auto.
    - intros N. rewrite filter_nil in E; [subst m; auto|].
      intros [o f] I. cbn [fst].
      destruct (match matches inst o args kw with Ok b => b | Err _ => false end) eqn:X; auto.
      exfalso. apply (N o f I). apply (S o f); auto.
  Qed.

  Lemma unbindable t args kw o f : In (o, f) t -> writable (t_sig o) ->
    ~ python_accepts (t_sig o) args kw -> choose inst t args kw = Err TypeError.
  Proof.
    intros I W N. unfold choose.
    assert (X: matching inst t args kw = Err TypeError); [|rewrite X; auto].
    assert (Mo: matches inst o args kw = Err TypeError).
    { unfold matches. destruct (py_bind (t_sig o) args kw) as [r|e] eqn:B.
      - exfalso. apply N. apply (proj1 (call_rule _ args kw W) r B).
      - apply py_bind_err in B. congruence. }
    induction t as [|[o' f'] t IH]; [destruct I|]. simpl. destruct I as [I|I].
    - injection I as -> ->. rewrite Mo. auto.
    - destruct (matches inst o' args kw) as [b|e] eqn:B.
      + rewrite IH; auto.
      + apply matches_err in B. congruence.
  Qed.

  Lemma unannotated_never t args kw f :
    (forall o, In (o, f) t -> writable (t_sig o) /\
       exists p, In p (t_sig o) /\ t_ann o (p_name p) = None) ->
    choose inst t args kw <> Ok f.
  Proof.
    intros H C. destruct (matching inst t args kw) as [m|] eqn:M.
    - rewrite (choose_matching _ _ _ _ M) in C. destruct m as [|[o g] m]; [discriminate|].
      injection C as <-. destruct (matching_in _ _ _ _ M o g) as [I X]; [left; auto|].
      destruct (H o I) as [W [p [P A]]]. unfold matches in X.
      destruct (py_bind (t_sig o) args kw) as [r|] eqn:B; [|discriminate].
      injection X as X. rewrite forallb_forall in X.
      destruct (proj1 (call_rule _ args kw W) r B) as [_ [_ K]].
      assert (J: In (p_name p) (dkeys r)) by (rewrite K; apply in_map; auto).
      unfold dkeys in J. apply in_map_iff in J. destruct J as [e [J1 J2]].
      specialize (X e J2). unfold fits in X. rewrite J1, A in X. discriminate.
    - unfold choose in C. rewrite M in C. discriminate.
  Qed.

  Variable same : tsig ty -> tsig ty -> bool.

  Lemma register_keeps t o f t' x : register same t o f = (t', x) ->
    (x = None /\ t' = t ++ [(o, f)] /\ forall e, In e t -> same (fst e) o = false) \/
    (x = Some TypeError /\ t' = t /\ exists e, In e t /\ same (fst e) o = true).
  Proof.
    unfold register. destruct (existsb _ t) eqn:E; intros H; injection H as <- <-.
    - right. apply existsb_exists in E. auto.
    - left. split; auto. split; auto. intros e I.
      destruct (same (fst e) o) eqn:S; auto.
      assert (existsb (fun e => same (fst e) o) t = true) by (apply existsb_exists; eauto). congruence.
  Qed.
  Lemma registered_distinct l t t' rs :
    (forall i j a b, i < j -> nth_error t i = Some a -> nth_error t j = Some b -> same (fst a) (fst b) = false) ->
    register_all same t l = (t', rs) ->
    (exists r, t' = t ++ r /\ incl r l) /\
    (forall i j a b, i < j -> nth_error t' i = Some a -> nth_error t' j = Some b -> same (fst a) (fst b) = false).
  Proof.
    revert t t' rs. induction l as [|[o f] l IH]; simpl; intros t t' rs D E.
    - injection E as <- <-. split; auto. exists []. rewrite app_nil_r. split; auto. intros x [].
    - destruct (register same t o f) as [t1 x] eqn:R.
      destruct (register_all same t1 l) as [t2 rs'] eqn:A. injection E as <- <-.
      apply register_keeps in R. destruct R as [[_ [-> N]]|[_ [-> _]]].
      + edestruct IH with (2 := A) as [[r [-> I]] D2].
        * intros i j a b L X Y.
          destruct (Nat.lt_ge_cases j (List.length t)) as [J|J].
          -- rewrite nth_error_app1 in X, Y by lia. eauto.
          -- assert (nth_error (t ++ [(o, f)]) j <> None) by congruence.
             apply nth_error_Some in H. rewrite app_length in H. simpl in H.
             rewrite nth_error_app2 in Y by lia. replace (j - List.length t) with 0 in Y by lia.
             simpl in Y. injection Y as <-. rewrite nth_error_app1 in X by lia.
             apply nth_error_In in X. apply N; auto.
        * split; auto. exists ((o, f) :: r). rewrite <- app_assoc. split; auto.
          intros e [H|H]; [left; auto|right; apply I; auto].
      + destruct (IH _ _ _ D A) as [[r [-> I]] D2]. split; auto. exists r. split; auto.
        intros e H. right. apply I; auto.
  Qed.
End P.
