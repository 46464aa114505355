From Verif Require Import Prelude PreludeFacts MoreFacts Deferred_Proofs Typed_Model Typed_Spec.

Section P.
  Variables (N T V : Type) (neqb : N -> N -> bool) (isinst : V -> T -> res bool) (conv : T -> V -> res V).
  Hypothesis ok : eqb_ok neqb.

  Lemma adjust_ok : forall a t v, adjust isinst conv a t = Ok v <-> coerced isinst conv t a v.
  Proof.
    intros a [t|] v; simpl.
    - destruct (isinst a t) as [[]|e] eqn:I; simpl; split.
      + intros [= <-]. auto. + intros [[_ ->]|[H _]]; [auto|discriminate].
      + intros E; auto. + intros [[H _]|[_ E]]; [discriminate|auto].
      + discriminate. + intros [[H _]|[H _]]; discriminate.
    - split; [intros [= <-]; auto|intros ->; auto].
  Qed.
  Lemma coerced_fun : forall t a v w, coerced isinst conv t a v -> coerced isinst conv t a w -> v = w.
  Proof. intros t a v w A B. apply adjust_ok in A, B. congruence. Qed.

  Lemma positional_ok : forall args ts r, positional isinst conv args ts = Ok r <->
    length r = Nat.min (length args) (length ts) /\
    forall i t v, nth_error ts i = Some t -> nth_error r i = Some v -> exists a, nth_error args i = Some a /\ coerced isinst conv t a v.
  Proof.
    induction args as [|a args IH]; intros ts r; simpl.
    - split; [intros [= <-]; split; auto; intros [|i] t v _ H; discriminate|]. intros [L _]. destruct r; [auto|discriminate].
    - destruct ts as [|t ts]; simpl.
      + split; [intros [= <-]; split; auto; intros [|i] t v _ H; discriminate|]. intros [L _]. destruct r; [auto|discriminate].
      + destruct (adjust isinst conv a t) as [v|e] eqn:A; simpl.
        * destruct (positional isinst conv args ts) as [r'|e] eqn:P; simpl.
          -- destruct (proj1 (IH ts r') P) as [L H]. split.
             ++ intros [= <-]. split; [simpl; auto|]. intros [|i] t' v' E1 E2; simpl in *; [|eauto].
                injection E1 as <-. injection E2 as <-. exists a. split; auto. apply adjust_ok; auto.
             ++ intros [L' H']. destruct r as [|v' r]; [discriminate|]. f_equal. f_equal.
                ** destruct (H' 0 t v' eq_refl eq_refl) as (a' & [= <-] & C). apply adjust_ok in C. congruence.
                ** assert (Ok r' = Ok r) as [= ->]; auto. rewrite <- P. apply IH. split; [injection L'; auto|]. intros i t' v'' E1 E2. apply (H' (S i) t' v''); auto.
          -- split; [discriminate|]. intros [L' H']. destruct r as [|v' r]; [discriminate|].
             assert (@Err (list V) e = Ok r) as X; [|discriminate X]. rewrite <- P. apply IH. split; [injection L'; auto|]. intros i t' v'' E1 E2. apply (H' (S i) t' v''); auto.
        * split; [discriminate|]. intros [L' H']. destruct r as [|v' r]; [discriminate|].
          destruct (H' 0 t v' eq_refl eq_refl) as (a' & [= <-] & C). apply adjust_ok in C. congruence.
  Qed.

  Lemma keywords_ok : forall fields kwargs, dwf kwargs -> NoDup (map fst fields) -> forall r rest,
    keywords neqb isinst conv fields kwargs = Ok (r, rest) ->
    length r = length fields /\
    (forall i n t v, nth_error fields i = Some (n, t) -> nth_error r i = Some v -> exists g, In (n, g) kwargs /\ coerced isinst conv t g v) /\
    (forall n g, In (n, g) rest <-> In (n, g) kwargs /\ ~ In n (map fst fields)).
  Proof.
    induction fields as [|[n t] fields IH]; intros kwargs W ND r rest E; simpl in E.
    - injection E as <- <-. split; auto. split; [intros [|i] ? ? ? H; discriminate|]. intros; simpl; tauto.
    - inversion ND as [|? ? NI ND']; subst. destruct (dget neqb kwargs n) as [a|] eqn:G; [|discriminate].
      destruct (adjust isinst conv a t) as [v|e] eqn:A; [|destruct e; discriminate].
      destruct (keywords neqb isinst conv fields (ddel neqb kwargs n)) as [[r' rest']|e] eqn:K; simpl in E; [|discriminate].
      injection E as <- <-. destruct (IH _ (ddel_wf neqb n W) ND' _ _ K) as (L & F & R).
      assert (D : forall m g, In (m, g) (ddel neqb kwargs n) <-> In (m, g) kwargs /\ m <> n).
      { intros m g. split.
        - intros I. pose proof (In_dget ok _ _ (ddel_wf neqb n W) I) as Q.
          assert (m <> n) by (intros ->; rewrite (dget_ddel_eq ok n W) in Q; discriminate).
          rewrite (dget_ddel_neq ok) in Q by auto. split; auto. apply (dget_In ok); auto.
        - intros [I Ne]. apply (dget_In ok). rewrite (dget_ddel_neq ok) by auto. apply (In_dget ok); auto. }
      split; [simpl; auto|]. split.
      + intros [|i] m t' v' E1 E2; simpl in *.
        * injection E1 as <- <-. injection E2 as <-. exists a. split; [apply (dget_In ok); auto|]. apply adjust_ok; auto.
        * destruct (F i m t' v' E1 E2) as (g & I & C). exists g. split; auto. apply D in I. tauto.
      + intros m g. rewrite R, D. simpl. split; [intros [[I Ne] NI2]; split; auto; intros [->|I2]; auto|]. intros [I NN]. repeat split; auto.
  Qed.
  Lemma keywords_complete : forall fields kwargs, dwf kwargs -> NoDup (map fst fields) -> forall r,
    length r = length fields ->
    (forall i n t v, nth_error fields i = Some (n, t) -> nth_error r i = Some v -> exists g, In (n, g) kwargs /\ coerced isinst conv t g v) ->
    exists rest, keywords neqb isinst conv fields kwargs = Ok (r, rest).
  Proof.
    induction fields as [|[n t] fields IH]; intros kwargs W ND r L F; simpl.
    - destruct r; [|discriminate]. eauto.
    - destruct r as [|v r]; [discriminate|]. inversion ND as [|? ? NI ND']; subst.
      destruct (F 0 n t v eq_refl eq_refl) as (g & I & C). rewrite (In_dget ok _ _ W I). apply adjust_ok in C. rewrite C.
      destruct (IH (ddel neqb kwargs n) (ddel_wf neqb n W) ND' r) as (rest & ->); [injection L; auto| |simpl; eauto].
      intros i m t' v' E1 E2. destruct (F (S i) m t' v' E1 E2) as (g' & I' & C'). exists g'. split; auto.
      apply (dget_In ok). rewrite (dget_ddel_neq ok); [apply (In_dget ok); auto|].
      intros ->. apply NI. apply nth_error_In in E1. apply (in_map fst) in E1. exact E1.
  Qed.

  Lemma nth_skipn : forall A k (l : list A) i, nth_error (skipn k l) i = nth_error l (k + i).
  Proof. induction k as [|k IH]; intros l i; simpl; auto. destruct l; simpl; auto. destruct i; auto. Qed.
  Lemma ND_skipn : forall k (l : list (N * option T)), NoDup (map fst l) -> NoDup (map fst (skipn k l)).
  Proof. induction k as [|k IH]; intros l ND; simpl; auto. destruct l; simpl in *; auto. inversion ND; auto. Qed.
  Lemma skipn_map_in : forall k (l : list (N * option T)) n, In n (map fst (skipn k l)) <-> exists i t, k <= i /\ nth_error l i = Some (n, t).
  Proof.
    intros k l n. split.
    - intros I. apply in_map_iff in I as [[m t] [<- I]]. apply In_nth_error in I as [i E]. rewrite nth_skipn in E. exists (k + i), t. split; [lia|auto].
    - intros (i & t & L & E). apply in_map_iff. exists (n, t). split; auto. apply (nth_error_In _ (i - k)). rewrite nth_skipn. replace (k + (i - k)) with i by lia. auto.
  Qed.

  Lemma new_ok : forall fields args kwargs r, dwf kwargs -> NoDup (map fst fields) -> length args <= length fields ->
    ((exists c, new neqb isinst conv fields args kwargs = Ok (c, r)) <-> built isinst conv fields args kwargs r).
  Proof.
    intros fields args kwargs r W ND LE. unfold new. split.
    - intros (c & E). destruct (positional isinst conv args (map snd fields)) as [p|e] eqn:P; simpl in E; [|discriminate].
      apply positional_ok in P as [LP HP]. rewrite map_length in LP. assert (LP' : length p = length args) by lia.
      destruct (keywords neqb isinst conv (skipn (length p) fields) kwargs) as [[q rest]|e] eqn:K; simpl in E; [|discriminate].
      destruct (keywords_ok _ _ W (ND_skipn _ _ ND) _ _ K) as (L & F & R). destruct rest as [|x rest]; [|discriminate]. injection E as <- <-.
      rewrite skipn_length in L. split; [rewrite app_length; lia|]. split.
      + intros i n t v E1 E2. destruct (Nat.lt_ge_cases i (length p)) as [Lt|Ge].
        * rewrite nth_error_app1 in E2 by auto. destruct (HP i t v) as (a & A & C); auto. { rewrite nth_error_map, E1. reflexivity. }
          exists a. split; auto. left; auto.
        * rewrite nth_error_app2 in E2 by auto. destruct (F (i - length p) n t v) as (g & I & C); auto. { rewrite nth_skipn. replace (length p + (i - length p)) with i by lia. auto. }
          exists g. split; auto. right. split; [lia|auto].
      + intros n g I. destruct (in_dec (fun x y => match neqb x y as b return neqb x y = b -> {x = y} + {x <> y} with true => fun E => left (proj1 (ok x y) E) | false => fun E => right (fun H => Bool.eq_true_false_abs _ (proj2 (ok x y) H) E) end eq_refl) n (map fst (skipn (length p) fields))) as [J|NJ].
        * apply skipn_map_in in J as (i & t & Le & E1). exists i, t. split; [lia|auto].
        * destruct (proj2 (R n g)); auto.
    - intros (L & F & A).
      assert (P : positional isinst conv args (map snd fields) = Ok (firstn (length args) r)).
      { apply positional_ok. rewrite firstn_length, map_length. split; [lia|]. intros i t v E1 E2.
        assert (Li : i < length args). { apply nth_lt in E2. rewrite firstn_length in E2. lia. }
        rewrite nth_error_map in E1. destruct (nth_error fields i) as [[n t']|] eqn:E3; [|discriminate]. injection E1 as <-.
        assert (E2' : nth_error r i = Some v). { rewrite <- (firstn_skipn (length args) r). rewrite nth_error_app1; auto. rewrite firstn_length. lia. }
        destruct (F i n t' v E3 E2') as (g & [G|[G _]] & C); [eauto|lia]. }
      rewrite P. simpl. rewrite firstn_length. replace (Nat.min (length args) (length r)) with (length args) by lia.
      destruct (keywords_complete (skipn (length args) fields) kwargs W (ND_skipn _ _ ND) (skipn (length args) r)) as (rest & K).
      + rewrite !skipn_length. lia.
      + intros i n t v E1 E2. rewrite nth_skipn in E1, E2. destruct (F _ n t v E1 E2) as (g & [G|[_ G]] & C); [|eauto].
        apply nth_lt in G. lia.
      + rewrite K. simpl. destruct (keywords_ok _ _ W (ND_skipn _ _ ND) _ _ K) as (_ & _ & R).
        destruct rest as [|[n g] rest]; [rewrite firstn_skipn; eauto|]. exfalso.
        destruct (proj1 (R n g) (or_introl eq_refl)) as [I NI]. apply NI, skipn_map_in. apply A with (1 := I).
  Qed.

  (** a refusal is a TypeError if every conversion works *)
  Lemma keywords_refuses : forall fields kwargs, dwf kwargs -> NoDup (map fst fields) ->
    (forall i n t g, nth_error fields i = Some (n, t) -> In (n, g) kwargs -> exists v, coerced isinst conv t g v) ->
    forall e, keywords neqb isinst conv fields kwargs = Err e -> e = TypeError.
  Proof.
    induction fields as [|[n t] fields IH]; intros kwargs W ND C e E; simpl in E; [discriminate|]. inversion ND as [|? ? NI ND']; subst.
    destruct (dget neqb kwargs n) as [a|] eqn:G; [|congruence].
    destruct (C 0 n t a eq_refl (dget_In ok _ _ G)) as (v & A). apply adjust_ok in A. rewrite A in E.
    destruct (keywords neqb isinst conv fields (ddel neqb kwargs n)) as [[r' rest']|e'] eqn:K; simpl in E; [discriminate|]. injection E as ->.
    eapply IH; [apply ddel_wf; exact W|auto| |exact K]. intros i m t' g E1 I. apply (C (S i) m t' g E1).
    pose proof (In_dget ok _ _ (ddel_wf neqb n W) I) as Q.
    assert (m <> n). { intros ->. apply NI. apply nth_error_In in E1. apply (in_map fst) in E1. exact E1. }
    rewrite (dget_ddel_neq ok) in Q by auto. apply (dget_In ok); auto.
  Qed.
  Lemma positional_works : forall args ts, (forall i t a, nth_error ts i = Some t -> nth_error args i = Some a -> exists v, coerced isinst conv t a v) ->
    exists r, positional isinst conv args ts = Ok r.
  Proof.
    induction args as [|a args IH]; intros ts C; simpl; eauto. destruct ts as [|t ts]; eauto.
    destruct (C 0 t a eq_refl eq_refl) as (v & A). apply adjust_ok in A. rewrite A. simpl.
    destruct (IH ts) as (r & ->); [intros i t' a' E1 E2; apply (C (S i) t' a' E1 E2)|]. simpl. eauto.
  Qed.
  Lemma new_refuses : forall fields args kwargs, dwf kwargs -> NoDup (map fst fields) -> length args <= length fields ->
    convertible isinst conv fields args kwargs -> (forall r, ~ built isinst conv fields args kwargs r) ->
    new neqb isinst conv fields args kwargs = Err TypeError.
  Proof.
    intros fields args kwargs W ND LE C NB. destruct (new neqb isinst conv fields args kwargs) as [[c r]|e] eqn:E.
    - exfalso. apply (NB r). apply new_ok; eauto.
    - f_equal. unfold new in E. destruct (positional_works args (map snd fields)) as (p & P).
      { intros i t a E1 E2. rewrite nth_error_map in E1. destruct (nth_error fields i) as [[n t']|] eqn:E3; [|discriminate]. injection E1 as <-.
        apply (C i n t' a E3). left; auto. }
      rewrite P in E. simpl in E. apply positional_ok in P as [LP _]. rewrite map_length in LP.
      destruct (keywords neqb isinst conv (skipn (length p) fields) kwargs) as [[q rest]|e'] eqn:K; simpl in E.
      + destruct rest; congruence.
      + injection E as ->. apply (keywords_refuses (skipn (length p) fields) kwargs W (ND_skipn _ _ ND)); [|exact K].
        intros i n t g E1 I. rewrite nth_skipn in E1. apply (C _ n t g E1). right. split; [lia|auto].
  Qed.

  (** by position or by name *)
  Lemma given_same : forall (fields : list (N * option T)) (args : list V) k kw, NoDup (map fst fields) -> length args = length fields ->
    (forall n g, In (n, g) kw <-> exists i t, k <= i /\ nth_error fields i = Some (n, t) /\ nth_error args i = Some g) ->
    forall i n t g, nth_error fields i = Some (n, t) -> (given args [] i n g <-> given (firstn k args) kw i n g).
  Proof.
    intros fields args k kw ND L K i n t g E. unfold given. rewrite firstn_length.
    assert (Li : i < length args). { apply nth_lt in E. lia. }
    destruct (Nat.lt_ge_cases i k) as [Lt|Ge].
    - assert (X : nth_error (firstn k args) i = nth_error args i). { rewrite <- (firstn_skipn k args) at 2. rewrite nth_error_app1; auto. rewrite firstn_length. lia. }
      rewrite X. split; (intros [H|[H _]]; [left; auto|lia]).
    - assert (X : nth_error (firstn k args) i = None). { apply nth_error_None. rewrite firstn_length. lia. }
      rewrite X. split.
      + intros [H|[H _]]; [|lia]. right. split; [lia|]. apply K. exists i, t. auto.
      + intros [H|[_ H]]; [discriminate|]. apply K in H as (j & t' & _ & E1 & E2). left.
        replace i with j; auto. eapply NoDup_nth_error; eauto; [apply nth_error_Some; rewrite nth_error_map, E1; discriminate|].
        rewrite !nth_error_map, E, E1. reflexivity.
  Qed.
  Lemma by_name : forall (fields : list (N * option T)) args k kw, NoDup (map fst fields) -> length args = length fields -> dwf kw ->
    (forall n g, In (n, g) kw <-> exists i t, k <= i /\ nth_error fields i = Some (n, t) /\ nth_error args i = Some g) ->
    forall c r, new neqb isinst conv fields args [] = Ok (c, r) <-> new neqb isinst conv fields (firstn k args) kw = Ok (c, r).
  Proof.
    intros fields args k kw ND L W K c r.
    assert (B : built isinst conv fields args [] r <-> built isinst conv fields (firstn k args) kw r).
    { unfold built. split; intros (L1 & F & A); split; auto; split.
      - intros i n t v E1 E2. destruct (F i n t v E1 E2) as (g & G & C). exists g. split; auto. eapply given_same; eauto.
      - intros n g I. apply K in I as (i & t & Le & E1 & E2). exists i, t. split; auto. rewrite firstn_length. lia.
      - intros i n t v E1 E2. destruct (F i n t v E1 E2) as (g & G & C). exists g. split; auto. eapply given_same; eauto.
      - intros n g []. }
    assert (X : forall a b c0 r0, new neqb isinst conv fields a b = Ok (c0, r0) -> c0 = Base).
    { intros a b c0 r0 E. unfold new in E. destruct (positional isinst conv a (map snd fields)); simpl in E; [|discriminate].
      destruct (keywords neqb isinst conv (skipn (length a0) fields) b) as [[q rest]|]; simpl in E; [|discriminate]. destruct rest; congruence. }
    assert (L1 : length args <= length fields) by lia. assert (L2 : length (firstn k args) <= length fields) by (rewrite firstn_length; lia).
    pose proof (new_ok fields args [] r (NoDup_nil N) ND L1) as Q1. pose proof (new_ok fields _ kw r W ND L2) as Q2.
    split; intros E.
    - assert (Z : exists c, new neqb isinst conv fields (firstn k args) kw = Ok (c, r)) by (apply Q2, B, Q1; eauto).
      destruct Z as [c' E']. rewrite (X _ _ _ _ E). rewrite (X _ _ _ _ E') in E'. exact E'.
    - assert (Z : exists c, new neqb isinst conv fields args [] = Ok (c, r)) by (apply Q1, B, Q2; eauto).
      destruct Z as [c' E']. rewrite (X _ _ _ _ E). rewrite (X _ _ _ _ E') in E'. exact E'.
  Qed.
  Lemma new_base : forall fields args kwargs c r, new neqb isinst conv fields args kwargs = Ok (c, r) -> c = Base.
  Proof.
    intros fields a b c0 r0 E. unfold new in E. destruct (positional isinst conv a (map snd fields)); simpl in E; [|discriminate].
    destruct (keywords neqb isinst conv (skipn (length a0) fields) b) as [[q rest]|]; simpl in E; [|discriminate]. destruct rest; congruence.
  Qed.
  Lemma positional_cut : forall args extra ts, length ts <= length args -> positional isinst conv (args ++ extra) ts = positional isinst conv args ts.
  Proof.
    induction args as [|a args IH]; intros extra ts L; simpl in *; [destruct ts; [destruct extra; auto|simpl in L; lia]|].
    destruct ts as [|t ts]; auto. destruct (adjust isinst conv a t); simpl; auto. rewrite IH; auto. simpl in L. lia.
  Qed.
  Lemma too_many : forall fields args extra, length args = length fields -> new neqb isinst conv fields (args ++ extra) [] = new neqb isinst conv fields args [].
  Proof. intros fields args extra L. unfold new. rewrite positional_cut by (rewrite map_length; lia). reflexivity. Qed.
End P.
