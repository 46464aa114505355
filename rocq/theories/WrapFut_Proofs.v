From Verif Require Import Prelude Futures_Model WrapFut_Model WrapFut_Spec.
Set Implicit Arguments.

Section Wrap.
  Variable V : Type.
  Variable none : V.
  Notation run := (run none).
  Notation step := (step none).

  (** the wrapped future in the machine and alone *)
  Definition alike (w : world V) (s : life V) : Prop :=
    match s with
    | Alive false => src w = PENDING /\ src_outcome w = None /\ to_call w = false
    | Alive true => src w = RUNNING /\ src_outcome w = None /\ to_call w = false
    | Completed r c => to_call w = negb c /\ src w = FINISHED /\ src_outcome w = Some r
    | Cancelled c => to_call w = negb c /\ (src w = CANCELLED \/ src w = CANCELLED_AND_NOTIFIED) /\ src_outcome w = None
    end.
  Lemma on_completed_src w : src (on_completed none w) = src w /\ src_outcome (on_completed none w) = src_outcome w /\
    to_call (on_completed none w) = to_call w /\ registered (on_completed none w) = registered w /\ at_ (on_completed none w) = at_ w.
  Proof. unfold on_completed. destruct (is_over (state_of w)); auto. Qed.
  Lemma alike_src w w' s : src w' = src w -> src_outcome w' = src_outcome w -> to_call w' = to_call w -> alike w s -> alike w' s.
  Proof. intros E1 E2 E3. unfold alike. rewrite E1, E2, E3. auto. Qed.
  Lemma alike_step w s m : alike w s -> alike (step w m) (lives s m).
  Proof.
    intros A. destruct w as [a sr so rg tc ow oo]. destruct s as [[|]|r c|c]; simpl in A;
      [destruct A as (-> & -> & ->)|destruct A as (-> & -> & ->)|destruct A as (-> & -> & ->)|destruct A as (-> & [->| ->] & ->)];
      destruct m as [| |r'| |]; simpl; try (destruct a; simpl; auto 10); try (destruct c; simpl; auto 10);
      try (destruct rg; simpl; auto 10); unfold on_completed; simpl; try (destruct ow; simpl; auto 10); auto 10.
  Qed.
  Lemma alike_run ms : forall w s, alike w s -> alike (run w ms) (fold_left (@lives V) ms s).
  Proof. induction ms as [|m t IH]; simpl; intros w s A; auto. apply IH. apply alike_step. exact A. Qed.
  Lemma alike_start : alike start (Alive false). Proof. simpl. auto. Qed.

  Definition gone (w : world V) : Prop := src w = CANCELLED \/ src w = CANCELLED_AND_NOTIFIED.
  Definition is_gone (s : fstate) : bool := match s with CANCELLED | CANCELLED_AND_NOTIFIED => true | _ => false end.

  (** ** before 188 writes *)
  Definition early (w : world V) : Prop :=
    match at_ w with Constructed => False | _ => True end /\
    (at_ w = BeforeAdd -> registered w = false) /\
    ((is_gone (src w) = true /\ own w = PENDING /\ own_outcome w = None)                   (* cancelled *)
     \/ (src w = FINISHED /\ own w = FINISHED /\ own_outcome w = src_outcome w /\ (registered w = false \/ to_call w = false) /\ at_ w <> BeforeAdd)
     \/ (own w = PENDING /\ own_outcome w = None /\ is_gone (src w) = false /\
         (at_ w = BeforeAdd \/ (registered w = true /\ (src w = FINISHED -> to_call w = true))))).

  Lemma early_start : early start.
  Proof. unfold early, start. simpl. intuition. Qed.
  Lemma early_step w m : early w -> (m = Construct -> forall r, at_ w <> HasRead r) ->
    (forall s, alike w s -> early (step w m)).
  Proof.
    intros E Hm s A.
    assert (Ho : src w = FINISHED -> exists r, src_outcome w = Some r).
    { intros Es. destruct s as [[|]|r c|c]; simpl in A; try (destruct A as (A & _); congruence).
      - destruct A as (_ & _ & A). eauto.
      - destruct A as (_ & [A|A] & _); congruence. }
    assert (Hc : to_call w = true -> is_over (src w) = true).
    { intros Ec. destruct s as [[|]|r c|c]; simpl in A; try (destruct A as (_ & _ & A); congruence).
      - destruct A as (_ & -> & _). reflexivity.
      - destruct A as (_ & [->| ->] & _); reflexivity. }
    destruct w as [a sr so rg tc ow oo]. unfold early in *. simpl in *.
    destruct E as (E1 & E2 & E). destruct m as [| |r| |]; simpl.
    - destruct a as [| |r|]; simpl in *; try contradiction; try (exfalso; eapply Hm; eauto; fail).
      + specialize (E2 eq_refl). subst rg. destruct E as [(H1 & -> & ->)|[(_ & _ & _ & _ & H)|(-> & -> & H1 & _)]]; [| congruence |].
        * destruct sr; try discriminate; simpl; intuition congruence.
        * destruct sr; try discriminate; simpl; try (intuition congruence).
          destruct (Ho eq_refl) as [r ->]. unfold on_completed. simpl. intuition congruence.
      + intuition congruence.
    - destruct sr; simpl; try (intuition congruence).
    - destruct sr; simpl in *; try (intuition congruence); destruct a; simpl in *; intuition congruence.
    - destruct sr; simpl in *; try (intuition congruence); destruct a; simpl in *; intuition congruence.
    - destruct tc; [|intuition congruence]. destruct rg; simpl.
      + destruct E as [(H1 & -> & ->)|[(-> & -> & -> & H & H')|(-> & -> & H1 & H)]].
        * destruct sr; try discriminate; unfold on_completed; simpl; intuition congruence.
        * unfold on_completed. simpl. intuition congruence.
        * specialize (Hc eq_refl). destruct sr; try discriminate; unfold on_completed; simpl; destruct a; simpl in *; try contradiction; try (intuition congruence).
          all: destruct (Ho eq_refl) as [r' ->]; simpl; intuition congruence.
      + intuition congruence.
  Qed.

  Lemma run_app w l1 l2 : run w (l1 ++ l2) = run (run w l1) l2.
  Proof. apply fold_left_app. Qed.
  Lemma others_step w m : m <> Construct -> at_ (step w m) = at_ w /\ registered (step w m) = registered w.
  Proof.
    intros H. destruct m as [| |r| |]; [congruence| | | |]; simpl.
    - destruct (src w); auto. - destruct (is_over (src w)); auto. - destruct (src w); auto.
    - destruct (to_call w); auto. destruct (registered w) eqn:E; auto.
      destruct (on_completed_src (set_src w (src w) (src_outcome w) false)) as (_ & _ & _ & E1 & E2). rewrite E1, E2. auto.
  Qed.
  Lemma others_run ms : forall w, others ms -> at_ (run w ms) = at_ w /\ registered (run w ms) = registered w.
  Proof.
    induction ms as [|m t IH]; simpl; intros w H; auto.
    destruct (IH (step w m)) as [E1 E2]; [intros Hi; apply H; right; exact Hi|].
    destruct (@others_step w m) as [E3 E4]; [intros ->; apply H; left; reflexivity|]. split; congruence.
  Qed.
  Lemma early_run ms : forall w s, others ms -> early w -> alike w s -> early (run w ms).
  Proof.
    induction ms as [|m t IH]; simpl; intros w s H E A; auto.
    eapply IH; [intros Hi; apply H; right; exact Hi| |apply alike_step; exact A].
    eapply early_step; eauto. intros ->. exfalso. apply H. left. reflexivity.
  Qed.
  (** the life of the source does not depend on the constructor *)
  Lemma lives_construct (s : life V) : lives s Construct = s. Proof. destruct s as [[|]| |]; reflexivity. Qed.

  (** ** after 188 *)
  Definition g1 (w : world V) : Prop := src w = FINISHED /\ own w = FINISHED /\ own_outcome w = src_outcome w.
  Definition g2 (w : world V) : Prop := is_gone (src w) = false /\ (src w = FINISHED -> to_call w = true) /\
    (own w = PENDING \/ own w = RUNNING) /\ registered w = true /\ own_outcome w = None.
  Definition g3 (w : world V) : Prop := is_gone (src w) = true.
  Definition b1 (w : world V) : Prop := src w = FINISHED /\ own w = FINISHED /\ own_outcome w = None.
  Definition b2 (w : world V) : Prop := src w = FINISHED /\ to_call w = false /\ (own w = PENDING \/ own w = RUNNING).

  Lemma g_step w s m : at_ w = Constructed -> alike w s -> g1 w \/ g2 w \/ g3 w -> g1 (step w m) \/ g2 (step w m) \/ g3 (step w m).
  Proof.
    intros Ha A. unfold g1, g2, g3. destruct w as [a sr so rg tc ow oo]. simpl in *. subst a.
    destruct s as [[|]|r c|c]; simpl in A;
      [destruct A as (-> & -> & ->)|destruct A as (-> & -> & ->)|destruct A as (-> & -> & ->)|destruct A as (-> & [->| ->] & ->)];
      intros G; destruct m as [| |r'| |]; simpl; try (intuition (try congruence); fail).
    all: try (destruct c; simpl in *; try (intuition (try congruence); fail)).
    all: try (destruct rg; simpl in *; try (intuition (try congruence); fail)); unfold on_completed; simpl.
    all: try (intuition (try congruence); subst; simpl; intuition (try congruence); fail).
  Qed.
  Lemma b1_step w m : at_ w = Constructed -> b1 w -> b1 (step w m).
  Proof.
    intros Ha (E1 & E2 & E3). destruct w as [a sr so rg tc ow oo]. simpl in *. subst. unfold b1.
    destruct m as [| |r'| |]; simpl; auto. destruct tc; auto. destruct rg; simpl; auto.
  Qed.
  Lemma b2_step w m : at_ w = Constructed -> b2 w -> b2 (step w m).
  Proof.
    intros Ha (E1 & E2 & E3). destruct w as [a sr so rg tc ow oo]. simpl in *. subst. unfold b2.
    destruct m as [| |r'| |]; simpl; auto.
  Qed.
  Lemma constructed_step w m : at_ w = Constructed -> at_ (step w m) = Constructed.
  Proof.
    intros Ha. assert (D : m = Construct \/ m <> Construct) by (destruct m; auto; right; discriminate).
    destruct D as [->|D]; [simpl; rewrite Ha; exact Ha|]. rewrite (proj1 (others_step w D)). exact Ha.
  Qed.
  Lemma g_run ms : forall w s, at_ w = Constructed -> alike w s -> g1 w \/ g2 w \/ g3 w -> g1 (run w ms) \/ g2 (run w ms) \/ g3 (run w ms).
  Proof. induction ms as [|m t IH]; simpl; intros w s Ha A G; auto. eapply IH; [apply constructed_step; auto|apply alike_step; eauto|eapply g_step; eauto]. Qed.
  Lemma b1_run ms : forall w, at_ w = Constructed -> b1 w -> b1 (run w ms).
  Proof. induction ms as [|m t IH]; simpl; intros w Ha G; auto. apply IH; [apply constructed_step; auto|apply b1_step; auto]. Qed.
  Lemma b2_run ms : forall w, at_ w = Constructed -> b2 w -> b2 (run w ms).
  Proof. induction ms as [|m t IH]; simpl; intros w Ha G; auto. apply IH; [apply constructed_step; auto|apply b2_step; auto]. Qed.

  Section Phases.
    Variables m1 m2 m3 : list (move V).
    Hypothesis O1 : others m1. Hypothesis O2 : others m2. Hypothesis O3 : others m3.
    Let w1 := run start m1.
    Let w2 := run (step w1 Construct) m2.
    Let w3 := run (step w2 Construct) m3.
    Let w4 := step w3 Construct.
    Lemma phase1 : at_ w1 = BeforeAdd /\ early w1 /\ alike w1 (life_after m1) /\ registered w1 = false.
    Proof.
      destruct (@others_run m1 start O1) as [E1 E2]. split; [exact E1|].
      split; [apply early_run with (s := Alive false); auto; [apply early_start|apply alike_start]|].
      split; [apply alike_run; apply alike_start|exact E2].
    Qed.
    Lemma life_app l1 l2 : life_after (l1 ++ l2) = fold_left (@lives V) l2 (life_after l1).
    Proof. apply fold_left_app. Qed.
    Lemma phase2 : at_ w2 = Added /\ early w2 /\ alike w2 (life_after (m1 ++ m2)) /\ registered w2 = negb (is_over (src w1)).
    Proof.
      destruct phase1 as (E1 & E2 & A & R).
      assert (E : early (step w1 Construct)) by (eapply early_step; [exact E2|congruence|exact A]).
      assert (A' : alike (step w1 Construct) (life_after m1)).
      { rewrite <- (lives_construct (life_after m1)). apply alike_step. exact A. }
      destruct (@others_run m2 (step w1 Construct) O2) as [E3 E4].
      split; [unfold w2; rewrite E3; simpl; rewrite E1; reflexivity|].
      split; [eapply early_run; eauto|].
      split; [rewrite life_app; apply alike_run; exact A'|].
      unfold w2. rewrite E4. simpl. rewrite E1. simpl. destruct (is_over (src w1)) eqn:Eo; simpl; auto.
      destruct (on_completed_src w1) as (_ & _ & _ & -> & _). exact R.
    Qed.
    Lemma phase3 : at_ w3 = HasRead (src w2) /\ early w3 /\ alike w3 (life_after (m1 ++ m2 ++ m3)) /\ registered w3 = negb (is_over (src w1)).
    Proof.
      destruct phase2 as (E1 & E2 & A & R).
      assert (E : early (step w2 Construct)) by (eapply early_step; [exact E2|congruence|exact A]).
      assert (A' : alike (step w2 Construct) (life_after (m1 ++ m2))).
      { rewrite <- (lives_construct (life_after (m1 ++ m2))). apply alike_step. exact A. }
      destruct (@others_run m3 (step w2 Construct) O3) as [E3 E4].
      split; [unfold w3; rewrite E3; simpl; rewrite E1; reflexivity|].
      split; [eapply early_run; eauto|].
      split; [rewrite app_assoc, life_app; apply alike_run; exact A'|].
      unfold w3. rewrite E4. simpl. rewrite E1. exact R.
    Qed.
    Lemma whole m4 : run start (m1 ++ Construct :: m2 ++ Construct :: m3 ++ Construct :: m4) = run w4 m4.
    Proof. rewrite run_app. simpl. rewrite run_app. simpl. rewrite run_app. reflexivity. Qed.
    Lemma w4_fields : at_ w4 = Constructed /\ src w4 = src w3 /\ src_outcome w4 = src_outcome w3 /\ to_call w4 = to_call w3 /\
      registered w4 = registered w3 /\ own w4 = src w2 /\ own_outcome w4 = own_outcome w3.
    Proof. destruct phase3 as (E & _). unfold w4. simpl. rewrite E. simpl. auto 10. Qed.
    Lemma w4_alike : alike w4 (life_after (m1 ++ m2 ++ m3)).
    Proof.
      destruct phase3 as (_ & _ & A & _). unfold w4. rewrite <- (lives_construct (life_after (m1 ++ m2 ++ m3))). apply alike_step. exact A.
    Qed.
    Lemma alike_states w s : alike w s ->
      (src w = FINISHED <-> exists r b, s = Completed r b) /\ (is_gone (src w) = true <-> exists b, s = Cancelled b) /\
      (is_over (src w) = false <-> exists b, s = Alive b) /\
      (src w = FINISHED /\ to_call w = false <-> exists r, s = Completed r true).
    Proof.
      destruct w as [a sr so rg tc ow oo]. destruct s as [[|]|r c|c]; simpl; intros A;
        [destruct A as (-> & -> & ->)|destruct A as (-> & -> & ->)|destruct A as (-> & -> & ->)|destruct A as (-> & [->| ->] & ->)]; simpl.
      all: try (destruct c; simpl).
      all: split; [|split; [|split]]; split; intros H; try discriminate H; try (destruct H; discriminate); eauto;
        try (destruct H as (? & ? & H); discriminate H); try (destruct H as (? & H); discriminate H).
    Qed.
    Lemma src_cases w s : alike w s -> src w = PENDING \/ src w = RUNNING \/ src w = FINISHED \/ is_gone (src w) = true.
    Proof.
      destruct s as [[|]|r c|c]; simpl; intros A; [destruct A as (-> & _)|destruct A as (-> & _)|destruct A as (_ & -> & _)|destruct A as (_ & [->| ->] & _)]; simpl; auto.
    Qed.
    Lemma gone_life l b : life_after l = Cancelled b -> forall l', exists b', fold_left (@lives V) l' (life_after l) = Cancelled b'.
    Proof. intros -> l'. revert b. induction l' as [|m t IH]; simpl; intros b; eauto. destruct m; simpl; eauto. Qed.
    Lemma completed_life l r b : life_after l = Completed r b -> forall l', exists b', fold_left (@lives V) l' (life_after l) = Completed r b'.
    Proof. intros -> l'. revert b. induction l' as [|m t IH]; simpl; intros b; eauto. destruct m; simpl; eauto. Qed.

    Lemma verdict :
      (alive m1 /\ completed (m1 ++ m2) /\ ~ notified (m1 ++ m2 ++ m3) /\ b1 w4) \/
      (~ completed (m1 ++ m2) /\ notified (m1 ++ m2 ++ m3) /\ b2 w4) \/
      (~ (alive m1 /\ completed (m1 ++ m2) /\ ~ notified (m1 ++ m2 ++ m3)) /\ ~ (~ completed (m1 ++ m2) /\ notified (m1 ++ m2 ++ m3)) /\
       (g1 w4 \/ g2 w4 \/ g3 w4)).
    Proof.
      destruct phase1 as (_ & _ & A1 & _). destruct phase2 as (_ & _ & A2 & _). destruct phase3 as (_ & Ey & A3 & R3).
      destruct w4_fields as (Fa & Fs & Fo & Ft & Fr & Fw & Fx).
      destruct (@alike_states _ _ A1) as (_ & _ & V1 & _). destruct (@alike_states _ _ A2) as (C2 & G2 & _ & _). destruct (@alike_states _ _ A3) as (C3 & G3 & _ & N3).
      assert (S23 : src w2 = FINISHED -> src w3 = FINISHED).
      { intros H. apply C2 in H. destruct H as (r & b & H). apply C3. destruct (completed_life _ H m3) as (b' & Hb).
        rewrite app_assoc, life_app. eauto. }
      assert (S23' : is_gone (src w2) = true -> is_gone (src w3) = true).
      { intros H. apply G2 in H. destruct H as (b & H). apply G3. destruct (gone_life _ H m3) as (b' & Hb). rewrite app_assoc, life_app. eauto. }
      assert (S12 : src w1 = FINISHED -> src w2 = FINISHED).
      { intros H. apply (@alike_states _ _ A1) in H. destruct H as (r & b & H). apply C2. destruct (completed_life _ H m2) as (b' & Hb). rewrite life_app. eauto. }
      assert (S12' : is_gone (src w1) = true -> is_gone (src w2) = true).
      { intros H. apply (@alike_states _ _ A1) in H. destruct H as (b & H). apply G2. destruct (gone_life _ H m2) as (b' & Hb). rewrite life_app. eauto. }
      destruct Ey as (_ & _ & [(H1 & H2 & H3)|[(H1 & H2 & H3 & H4 & _)|(H1 & H2 & H3 & [H4|[H4 H5]])]]).
      - right. right. split; [|split].
        + intros (_ & H & _). apply C2 in H. rewrite (S23 H) in H1. discriminate.
        + intros (_ & H). apply N3 in H. destruct H as [H _]. rewrite H in H1. discriminate.
        + right. right. unfold g3. rewrite Fs. exact H1.
      - destruct (@src_cases _ _ A2) as [E|[E|[E|E]]].
        1,2: right; left; split; [intros H; apply C2 in H; congruence|]; assert (T : to_call w3 = false);
          [destruct H4 as [H4|H4]; auto; rewrite H4 in R3; symmetry in R3; apply Bool.negb_false_iff in R3;
           destruct (@src_cases _ _ A1) as [X|[X|[X|X]]]; [rewrite X in R3; discriminate|rewrite X in R3; discriminate|apply S12 in X; congruence|apply S12' in X; rewrite E in X; discriminate]
          |split; [apply N3; auto|unfold b2; rewrite Fs, Ft, Fw; auto]].
        + right. right. split; [|split].
          * intros (Hv & _ & Hn). apply V1 in Hv. destruct H4 as [H4|H4]; [rewrite H4, Hv in R3; discriminate|]. apply Hn. apply N3. auto.
          * intros (Hc & _). apply Hc. apply C2. exact E.
          * left. unfold g1. rewrite Fs, Fw, Fx, Fo. auto.
        + apply S23' in E. rewrite H1 in E. discriminate.
      - destruct phase3 as (Ea & _). rewrite Ea in H4. discriminate.
      - assert (NN : ~ notified (m1 ++ m2 ++ m3)).
        { intros H. apply N3 in H. destruct H as [H H']. rewrite (H5 H) in H'. discriminate. }
        assert (AL : alive m1).
        { apply V1. destruct (is_over (src w1)); auto. simpl in R3. congruence. }
        destruct (@src_cases _ _ A2) as [E|[E|[E|E]]].
        1,2: right; right; split; [intros (_ & H & _); apply C2 in H; congruence|split; [tauto|]];
          right; left; unfold g2; rewrite Fs, Ft, Fr, Fw, Fx, E; auto 10.
        + left. split; [exact AL|]. split; [apply C2; exact E|]. split; [exact NN|].
          unfold b1. rewrite Fs, Fw, Fx. auto.
        + apply S23' in E. congruence.
    Qed.
    Lemma life_whole m4 : alike (run w4 m4) (life_after (m1 ++ m2 ++ m3 ++ m4)).
    Proof. rewrite !app_assoc, life_app, <- !app_assoc. apply alike_run. exact w4_alike. Qed.
    Lemma answer_good m4 : g1 w4 \/ g2 w4 \/ g3 w4 -> callbacks_called (life_after (m1 ++ m2 ++ m3 ++ m4)) ->
      wrapped_result none (run w4 m4) = outcome (life_after (m1 ++ m2 ++ m3 ++ m4)).
    Proof.
      intros G Hc. pose proof (life_whole m4) as A. destruct w4_fields as (Fa & _).
      pose proof (@g_run m4 _ _ Fa w4_alike G) as G'. set (w := run w4 m4) in *. set (s := life_after (m1 ++ m2 ++ m3 ++ m4)) in *.
      unfold wrapped_result, state_of. destruct w as [a sr so rg tc ow oo]. unfold g1, g2, g3 in G'. simpl in *.
      destruct s as [[|]|r c|c]; simpl in *; try contradiction; subst c;
        [destruct A as (-> & -> & ->)|destruct A as (-> & [->| ->] & ->)]; simpl; auto.
      destruct G' as [(_ & -> & ->)|[(_ & H & _)|H]]; [reflexivity|specialize (H eq_refl); discriminate|discriminate].
    Qed.
    Lemma answer_b1 m4 : b1 w4 -> wrapped_result none (run w4 m4) = Ok none.
    Proof.
      intros G. destruct w4_fields as (Fa & _). destruct (@b1_run m4 _ Fa G) as (E1 & E2 & E3).
      unfold wrapped_result, state_of. rewrite E1, E2, E3. reflexivity.
    Qed.
    Lemma answer_b2 m4 : b2 w4 -> wrapped_result none (run w4 m4) = Err TimeoutExn.
    Proof.
      intros G. destruct w4_fields as (Fa & _). destruct (@b2_run m4 _ Fa G) as (E1 & E2 & E3).
      unfold wrapped_result, state_of. rewrite E1. destruct E3 as [->| ->]; reflexivity.
    Qed.
  End Phases.
End Wrap.

(** ** Collections *)
Section Coll.
  Variable n : nat.
  Record own_lists (s : store) (v : values) : Prop := {
    ol_next : n <= next_list s;
    ol_range : forall c l, colls s c = Some l -> n <= l /\ l < next_list s;
    ol_inj : forall c c' l, colls s c = Some l -> colls s c' = Some l -> c = c';
    ol_colls : forall c, fst v c = match colls s c with Some l => Some (lists s l) | None => None end;
    ol_lists : forall l, l < n -> snd v l = lists s l
  }.
  Lemma elements_value s v o : own_lists s v -> (forall l, o = OList l -> l < n) -> elements s o = value_of v o.
  Proof.
    intros O Hk. destruct o as [c|l|fs|f]; simpl; auto.
    - rewrite (ol_colls O). reflexivity.
    - rewrite (ol_lists O); auto.
  Qed.
  Lemma new_coll_value s v c x : own_lists s v -> own_lists (new_coll s c x) (assign v c (Some x)).
  Proof.
    intros [O1 O2 O3 O4 O5]. constructor; simpl; unfold put.
    - lia.
    - intros c' l. destruct (Nat.eqb_spec c' c); [intros [= <-]; lia|]. intros H. apply O2 in H. lia.
    - intros c1 c2 l. destruct (Nat.eqb_spec c1 c), (Nat.eqb_spec c2 c); intros H1 H2; try congruence.
      + injection H1 as <-. apply O2 in H2. lia.
      + injection H2 as <-. apply O2 in H1. lia.
      + eapply O3; eauto.
    - intros c'. destruct (Nat.eqb_spec c' c); [rewrite Nat.eqb_refl; reflexivity|].
      rewrite O4. destruct (colls s c') as [l|] eqn:E; auto. apply O2 in E. destruct (Nat.eqb_spec l (next_list s)); [lia|reflexivity].
    - intros l Hl. destruct (Nat.eqb_spec l (next_list s)); [lia|]. auto.
  Qed.
  Lemma change_value s v c l x : own_lists s v -> colls s c = Some l -> own_lists (change_list s l x) (assign v c (Some x)).
  Proof.
    intros [O1 O2 O3 O4 O5] E. constructor; simpl; unfold put; auto.
    - intros c'. destruct (Nat.eqb_spec c' c) as [->|N].
      + rewrite E, Nat.eqb_refl. reflexivity.
      + rewrite O4. destruct (colls s c') as [l'|] eqn:E'; auto. destruct (Nat.eqb_spec l' l) as [->|]; [|reflexivity].
        exfalso. apply N. eapply O3; eauto.
    - intros l' Hl. destruct (Nat.eqb_spec l' l) as [->|]; auto. apply O2 in E. lia.
  Qed.
  Lemma coll_step_value s v op : own_lists s v -> known n op -> copies op -> own_lists (coll_step s op) (value_step v op).
  Proof.
    intros O K C. destruct op as [c o|c a o|c o|c f|l f]; simpl.
    - replace (value_of v o) with (elements s o) by (apply elements_value; auto; intros l ->; simpl in C; contradiction).
      assert (E : coll_step s (CNew c o) = match elements s o with Some x => new_coll s c x | None => s end)
        by (destruct o; [reflexivity|simpl in C; contradiction|reflexivity|reflexivity]).
      simpl in E. rewrite E. destruct (elements s o); simpl; [apply new_coll_value; exact O|exact O].
    - rewrite (ol_colls O a). rewrite <- (@elements_value s v o O) by (intros l ->; exact K).
      destruct (colls s a) as [l|]; simpl; auto. destruct (elements s o); simpl; auto. apply (new_coll_value c (lists s l ++ l0) O).
    - rewrite (ol_colls O c). rewrite <- (@elements_value s v o O) by (intros l ->; exact K).
      destruct (colls s c) as [l|] eqn:E; simpl; auto. destruct (elements s o); simpl; auto. apply (change_value c (lists s l ++ l0) O E).
    - rewrite (ol_colls O c). destruct (colls s c) as [l|] eqn:E; simpl; auto. apply (change_value c (lists s l ++ [f]) O E).
    - simpl in K. destruct O as [O1 O2 O3 O4 O5]. constructor; simpl; unfold put; auto.
      + intros c. rewrite O4. destruct (colls s c) as [l'|] eqn:E; auto. apply O2 in E. destruct (Nat.eqb_spec l' l); [lia|reflexivity].
      + intros l' Hl. destruct (Nat.eqb_spec l' l) as [->|]; auto. rewrite O5; auto.
  Qed.
  Lemma coll_run_value ops : forall s v, own_lists s v -> Forall (known n) ops -> Forall copies ops ->
    own_lists (coll_run s ops) (values_after v ops).
  Proof.
    induction ops as [|op t IH]; simpl; intros s v O K C; auto. inversion K; inversion C; subst.
    apply IH; auto. apply coll_step_value; auto.
  Qed.
  Lemma no_colls_value l : own_lists (no_colls n l) (fun _ => None, l).
  Proof. constructor; simpl; auto; discriminate. Qed.
End Coll.
