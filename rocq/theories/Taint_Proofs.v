From Verif Require Import Prelude PreludeFacts MoreFacts Taint_Model Taint_Spec.

Section Programs.
  Variable V : Type.
  Variable op2 : top -> V -> V -> res V.
  Variable truth : V -> bool.
  Variable of_bool : bool -> V.
  Variable session : bool.
  Hypothesis eq_sym : forall a b, op2 Eq_ b a = op2 Eq_ a b.
  Hypothesis lt_gt : forall a b, op2 Gt_ b a = op2 Lt_ a b.
  Hypothesis le_ge : forall a b, op2 Ge_ b a = op2 Le_ a b.
  Notation binary := (binary op2 truth of_bool session).
  Notation teval := (teval op2 truth of_bool session).
  Notation texec := (texec op2 truth of_bool session).
  Notation trun := (trun op2 truth of_bool session).
  Notation peval := (peval op2).

  Definition is_P (x : tv V) : bool := match x with P _ => true | C _ => false end.
  Lemma taint_ok : forall (h : list V) r h' v, taint_value session h r = (h', Ok v) -> session = true /\ exists w, r = Ok w /\ h' = h ++ [w] /\ v = C (length h).
  Proof. intros h [w|e] h' v E; simpl in E; [|discriminate]. destruct session; [|discriminate]. injection E as <- <-. split; eauto. Qed.
  Lemma binary_ok : forall h o x y a b h' v, access h x = Some a -> access h y = Some b -> o <> Ne_ -> binary h o x y = (h', Ok v) ->
    exists w, op2 o a b = Ok w /\ if is_P x && is_P y then h' = h /\ v = P w else session = true /\ h' = h ++ [w] /\ v = C (length h).
  Proof.
    intros h o x y a b h' v A B N E. unfold Taint_Model.binary in E. rewrite A, B in E.
    assert (G : forall r, taint_value session h r = (h', Ok v) -> r = op2 o a b -> exists w, op2 o a b = Ok w /\ session = true /\ h' = h ++ [w] /\ v = C (length h)).
    { intros r Q <-. apply taint_ok in Q as (S0 & w & -> & -> & ->). eauto. }
    destruct x as [x0|c], y as [y0|d]; simpl.
    - unfold plain in E. destruct (op2 o a b) as [w|]; simpl in E; [|discriminate]. injection E as <- <-. eauto.
    - destruct o; simpl in E; try discriminate; try congruence; eapply G; eauto.
    - destruct o; simpl in E; try discriminate; try congruence; eapply G; eauto.
    - destruct o; simpl in E; try discriminate; try congruence; eapply G; eauto.
  Qed.
  (** operators for which it does not matter which side is tainted *)
  Definition symmetric (o : top) : Prop := match o with Sub | Mul | Ne_ | Other => False | _ => True end.
  Lemma binary_err : forall h o x y a b h' e, session = true -> access h x = Some a -> access h y = Some b -> symmetric o -> binary h o x y = (h', Err e) -> op2 o a b = Err e.
  Proof.
    intros h o x y a b h' e S0 A B N E. unfold Taint_Model.binary in E. rewrite A, B in E.
    assert (G : forall r, taint_value session h r = (h', Err e) -> r = op2 o a b -> op2 o a b = Err e).
    { intros r Q <-. unfold taint_value in Q. rewrite S0 in Q. destruct r; [discriminate|]. congruence. }
    destruct x as [x0|c], y as [y0|d]; simpl in *.
    - unfold plain in E. destruct (op2 o a b) as [w|]; simpl in E; [discriminate|]. congruence.
    - destruct o; simpl in E; try contradiction; eapply G; eauto.
    - destruct o; simpl in E; try contradiction; eapply G; eauto.
    - destruct o; simpl in E; try contradiction; eapply G; eauto.
  Qed.

  Lemma represents_app : forall s (h g : list V) p f, represents s h p f -> represents s (h ++ g) p f.
  Proof.
    intros s h g p f R x. specialize (R x). destruct (s x) as [[v|c]|], (p x) as [w|]; auto. destruct R as [A B]. split; auto.
    rewrite nth_error_app1; auto. apply nth_error_Some. congruence.
  Qed.
  Definition denotes (h : list V) (v : tv V) (w : V) (tainted : bool) : Prop := access h v = Some w /\ is_P v = negb tainted.
  Lemma denotes_app : forall (h g : list V) v w t, denotes h v w t -> denotes (h ++ g) v w t.
  Proof. intros h g [a|c] w t [A B]; split; auto. simpl in *. rewrite nth_error_app1; auto. apply nth_error_Some. congruence. Qed.

  Lemma teval_ok : forall s p f e (h h1 : list V) v, represents s h p f -> uses (fun o => o <> Ne_) e -> teval s h e = (h1, Ok v) ->
    exists g w, h1 = h ++ g /\ peval p e = Ok w /\ denotes h1 v w (depends f e) /\ (forall c, v = C c -> (exists x, e = Var V x) \/ length h <= c /\ session = true).
  Proof.
    intros s p f. induction e as [a|x|o l IHl r IHr]; intros h h1 v R U E; simpl in *.
    - injection E as <- <-. exists [], a. rewrite app_nil_r. repeat split; auto. discriminate.
    - pose proof (R x) as Q. destruct (s x) as [[a|c]|], (p x) as [w|]; try contradiction; try discriminate; injection E as <- <-; destruct Q as [Q1 Q2].
      + exists [], w. rewrite app_nil_r. repeat split; simpl; try congruence. rewrite Q2; auto.
      + exists [], w. rewrite app_nil_r. repeat split; simpl; auto. rewrite Q2; auto. intros d D. left. eauto.
    - destruct U as (N & Ul & Ur). destruct (teval s h l) as [h2 [a|]] eqn:El; [|discriminate]. destruct (teval s h2 r) as [h3 [b|]] eqn:Er; [|discriminate].
      destruct (IHl _ _ _ R Ul El) as (g1 & w1 & -> & P1 & D1 & _).
      destruct (IHr _ _ _ (represents_app _ _ g1 _ _ R) Ur Er) as (g2 & w2 & -> & P2 & D2 & _).
      apply (denotes_app _ g2) in D1. destruct D1 as [A1 B1], D2 as [A2 B2].
      destruct (binary_ok _ _ _ _ _ _ _ _ A1 A2 N E) as (w & O & Q). rewrite P1, P2. simpl. rewrite B1, B2 in Q.
      destruct (depends f l), (depends f r); simpl in *; try (destruct Q as (S0 & -> & ->); exists (g1 ++ g2 ++ [w]), w; rewrite !app_assoc; split; [auto|]; split; [auto|]; split;
        [split; auto; simpl; rewrite nth_error_app2, Nat.sub_diag by auto; reflexivity|
         intros c [= <-]; right; rewrite !app_length; split; auto; lia]).
      destruct Q as (-> & ->). exists (g1 ++ g2), w. rewrite app_assoc. split; auto. split; auto. split; [split; auto|]. discriminate.
  Qed.
  Lemma sym_no_ne : forall e : texpr V, uses symmetric e -> uses (fun o => o <> Ne_) e.
  Proof. induction e as [|y|o' l' I1 r' I2]; simpl; auto. intros (X & Y & Z). repeat split; auto. intros ->. exact X. Qed.
  Lemma teval_err : forall s p f e h h1 x, session = true -> represents s h p f -> uses symmetric e -> teval s h e = (h1, Err x) -> peval p e = Err x.
  Proof.
    intros s p f. induction e as [a|x|o l IHl r IHr]; intros h h1 z S0 R U E; simpl in *; try discriminate.
    - specialize (R x). destruct (s x) as [[a|c]|], (p x); try contradiction; try discriminate. congruence.
    - destruct U as (N & Ul & Ur).
      destruct (teval s h l) as [h2 [a|]] eqn:El.
      + destruct (teval_ok _ _ _ _ _ _ _ R (sym_no_ne _ Ul) El) as (g1 & w1 & -> & P1 & D1 & _). rewrite P1. simpl. pose proof (represents_app _ _ g1 _ _ R) as R1.
        destruct (teval s (h ++ g1) r) as [h3 [b|]] eqn:Er.
        * destruct (teval_ok _ _ _ _ _ _ _ R1 (sym_no_ne _ Ur) Er) as (g2 & w2 & -> & P2 & D2 & _). rewrite P2. simpl.
          apply (denotes_app _ g2) in D1. destruct D1 as [A1 _], D2 as [A2 _]. eapply binary_err; eauto.
        * injection E as -> ->. rewrite (IHr _ _ _ S0 R1 Ur Er). reflexivity.
      + injection E as -> ->. rewrite (IHl _ _ _ S0 R Ul El). reflexivity.
  Qed.

  Lemma represents_set : forall s h p f x v w t f', represents s h p f -> denotes h v w t -> f' = (fun y => if Nat.eqb y x then t else f y) ->
    represents (set s x v) h (set p x w) f'.
  Proof.
    intros s h p f x v w t f' R [A B] -> y. unfold set. destruct (Nat.eqb y x); [|exact (R y)].
    destruct v as [a|c], t; simpl in *; try discriminate; split; congruence.
  Qed.
  Lemma represents_bound : forall s (h : list V) p f x c, represents s h p f -> s x = Some (C c) -> c < length h.
  Proof. intros s h p f x c R E. specialize (R x). rewrite E in R. destruct (p x); [|contradiction]. apply nth_error_Some. destruct R; congruence. Qed.

  Definition fine (s : store V) (l : list (stmt V)) : Prop := apart s /\ Forall (fun p => ~ copies p) l \/ Forall (fun p => ~ augments p) l.
  Lemma apart_set : forall (s : store V) (h : list V) x v, apart s -> (forall y c, s y = Some (C c) -> c < length h) -> (forall c, v = C c -> length h <= c) -> apart (set s x v : store V).
  Proof.
    intros s h x v A B F y z c Y Z. unfold set in *. destruct (Nat.eqb y x) eqn:Ey, (Nat.eqb z x) eqn:Ez.
    - apply Nat.eqb_eq in Ey, Ez. congruence.
    - injection Y as ->. specialize (F c eq_refl). apply B in Z. lia.
    - injection Z as ->. specialize (F c eq_refl). apply B in Y. lia.
    - eapply A; eauto.
  Qed.
  Lemma texec_ok : forall q s h p f s' h' l, represents s h p f -> stmt_uses (fun o => o <> Ne_) q -> fine s (q :: l) -> texec s h q = Ok (s', h') ->
    exists p', pexec op2 p q = Ok p' /\ represents s' h' p' (flow f q) /\ fine s' l.
  Proof.
    intros q s h p f s' h' l R U F E. destruct q as [x e|x o e]; simpl in *.
    - destruct (teval s h e) as [h1 [v|]] eqn:Ev; [|discriminate]. injection E as <- <-.
      destruct (teval_ok _ _ _ _ _ _ _ R U Ev) as (g & w & -> & Pe & D & Fr). rewrite Pe. simpl. eexists. split; [reflexivity|]. split.
      + eapply represents_set; eauto. apply represents_app; auto.
      + destruct F as [[A F]|F]; inversion F; subst; [left|right; auto]. split; auto. apply (apart_set s h); auto.
        * intros y c Y. eapply represents_bound; eauto.
        * intros c C0. destruct (Fr c C0) as [[y ->]|[L _]]; auto. exfalso. simpl in *. auto.
    - pose proof (R x) as Rx. destruct (s x) as [v|] eqn:Sx; [|discriminate]. destruct (p x) as [a|] eqn:Px; [|destruct v; contradiction].
      destruct U as [N Ue]. destruct (teval s h e) as [h1 [b|]] eqn:Ev; [|discriminate].
      destruct (teval_ok _ _ _ _ _ _ _ R Ue Ev) as (g & w & -> & Pe & D & Fr). rewrite Pe. simpl. destruct D as [D1 D2].
      assert (Dv : denotes (h ++ g) v a (f x)) by (apply denotes_app; destruct v; destruct Rx as [X ->]; split; simpl; congruence). destruct Dv as [V1 V2].
      destruct F as [[A F]|F]; [|inversion F; subst; exfalso; simpl in *; auto]. inversion F as [|q0 l0 F0 F1]; subst.
      assert (Norm : forall h2 r, binary (h ++ g) o v b = (h2, Ok r) -> s' = set s x r -> h' = h2 ->
        exists p', res_map (set p x) (op2 o a w) = Ok p' /\ represents s' h' p' (fun y => if Nat.eqb y x then f x || depends f e else f y) /\ fine s' l).
      { intros h2 r Eb -> ->. destruct (binary_ok _ _ _ _ _ _ _ _ V1 D1 N Eb) as (z & O & Q). rewrite O. simpl. eexists. split; [reflexivity|].
        rewrite V2, D2 in Q. destruct (f x) eqn:Fx, (depends f e) eqn:Fe; simpl in *;
          try (destruct Q as (S0 & -> & ->); split; [eapply represents_set; [apply represents_app, represents_app; eauto| |reflexivity]; split; auto; simpl; rewrite nth_error_app2, Nat.sub_diag by auto; reflexivity|
               left; split; auto; apply (apart_set s (h ++ g)); auto; [intros y c Y; eapply represents_bound; [apply represents_app; eauto|eauto]|intros c [= <-]; auto]]).
        destruct Q as (-> & ->). split; [eapply represents_set; [apply represents_app; eauto| |reflexivity]; split; auto|].
        left; split; auto. apply (apart_set s (h ++ g)); auto; [intros y c Y; eapply represents_bound; [apply represents_app; eauto|eauto]|discriminate]. }
      assert (Norm2 : match binary (h ++ g) o v b with (h2, Ok r) => Ok (set s x r, h2) | (_, Err e) => Err e end = Ok (s', h') ->
        exists p', res_map (set p x) (op2 o a w) = Ok p' /\ represents s' h' p' (fun y => if Nat.eqb y x then f x || depends f e else f y) /\ fine s' l).
      { intros Q. destruct (binary (h ++ g) o v b) as [h2 [r|]] eqn:Eb; [|discriminate]. injection Q as <- <-. eapply Norm; eauto. }
      destruct v as [v|c]; [exact (Norm2 E)|]. destruct (in_place o) eqn:Ip; [|exact (Norm2 E)].
      unfold access in V1. simpl in E. rewrite V1, D1 in E. destruct (op2 o a w) as [z|]; simpl in E |- *; [|discriminate]. injection E as <- <-.
      eexists. split; [reflexivity|]. destruct Rx as [_ Fx]. split.
      + intros y. unfold set. destruct (Nat.eqb y x) eqn:Ey.
        * apply Nat.eqb_eq in Ey as ->. rewrite Sx, Fx. split; auto. apply nth_error_upd_eq. apply nth_error_Some. congruence.
        * pose proof (represents_app _ _ g _ _ R y) as Ry. destruct (s y) as [[u|d]|] eqn:Sy; auto. destruct (p y); auto. destruct Ry as [Y1 Y2]. split; auto.
          rewrite nth_error_upd_neq; auto. intros <-. apply Nat.eqb_neq in Ey. apply Ey. eapply A; eauto.
      + left. auto.
  Qed.
  Lemma trun_ok : forall l s h p f s' h', represents s h p f -> Forall (stmt_uses (fun o => o <> Ne_)) l -> fine s l -> trun s h l = Ok (s', h') ->
    exists p', prun op2 p l = Ok p' /\ represents s' h' p' (fold_left (@flow V) l f).
  Proof.
    induction l as [|q l IH]; intros s h p f s' h' R U F E; simpl in *; [injection E as <- <-; eauto|].
    inversion U; subst. destruct (texec s h q) as [[s1 h1]|] eqn:Eq; [|discriminate]. simpl in E.
    destruct (texec_ok _ _ _ _ _ _ _ l R ltac:(eassumption) F Eq) as (p1 & P1 & R1 & F1). rewrite P1. simpl. eauto.
  Qed.
  Lemma trun_err : forall l s h p f x, session = true -> represents s h p f -> Forall (stmt_uses symmetric) l -> fine s l -> trun s h l = Err x -> prun op2 p l = Err x.
  Proof.
    induction l as [|q l IH]; intros s h p f x S0 R U F E; simpl in *; [discriminate|]. apply Forall_cons_iff in U as [U1 U2].
    assert (Un : stmt_uses (fun o => o <> Ne_) q). { destruct q; simpl in *; [apply sym_no_ne; auto|]. destruct U1 as [X Y]. split; [intros ->; exact X|apply sym_no_ne; auto]. }
    destruct (texec s h q) as [[s1 h1]|y] eqn:Eq; simpl in E.
    - destruct (texec_ok _ _ _ _ _ _ _ l R Un F Eq) as (p1 & P1 & R1 & F1). rewrite P1. simpl. eauto.
    - assert (PE : pexec op2 p q = Err x); [|rewrite PE; reflexivity]. injection E as ->. destruct q as [z e|z o e]; simpl in *.
      + destruct (teval s h e) as [h1 [v|]] eqn:Ev; [discriminate|]. injection Eq as ->. rewrite (teval_err _ _ _ _ _ _ _ S0 R U1 Ev). reflexivity.
      + pose proof (R z) as Rz. destruct (s z) as [v|] eqn:Sz; [|destruct (p z); [contradiction|congruence]].
        destruct (p z) as [a|] eqn:Pz; [|destruct v; contradiction]. destruct U1 as [So Ue].
        destruct (teval s h e) as [h1 [b|]] eqn:Ev; [|injection Eq as ->; rewrite (teval_err _ _ _ _ _ _ _ S0 R Ue Ev); reflexivity].
        destruct (teval_ok _ _ _ _ _ _ _ R (sym_no_ne _ Ue) Ev) as (g & w & -> & Pe & D & Fr). rewrite Pe. simpl. destruct D as [D1 D2].
        assert (V1 : access (h ++ g) v = Some a) by (destruct v; destruct Rz as [X _]; simpl; [congruence|]; rewrite nth_error_app1; auto; apply nth_error_Some; congruence).
        assert (Norm : match binary (h ++ g) o v b with (h2, Ok r) => Ok (set s z r, h2) | (_, Err e) => Err e end = Err x -> res_map (set p z) (op2 o a w) = Err x).
        { intros Q. destruct (binary (h ++ g) o v b) as [h2 [r|]] eqn:Eb; [discriminate|]. injection Q as ->. rewrite (binary_err _ _ _ _ _ _ _ _ S0 V1 D1 So Eb). reflexivity. }
        destruct v as [v|c]; [exact (Norm Eq)|]. destruct (in_place o); [|exact (Norm Eq)].
        unfold access in V1. simpl in Eq. rewrite V1, D1 in Eq. destruct (op2 o a w) as [r|e0]; [discriminate|]. injection Eq as ->. reflexivity.
  Qed.
End Programs.

Lemma after_session : forall V op2 truth of_bool, (forall a b : V, op2 Eq_ b a = op2 Eq_ a b) -> (forall a b, op2 Gt_ b a = op2 Lt_ a b) -> (forall a b, op2 Ge_ b a = op2 Le_ a b) ->
  forall s h p f x o l r q, represents s h p f -> uses (V:=V) (fun o => o <> Ne_) (Bin o l r) -> depends f (Bin o l r) = true ->
  texec op2 truth of_bool false s h (Assign x (Bin o l r)) <> Ok q.
Proof.
  intros V op2 truth of_bool H1 H2 H3 s h p f x o l r q R U D E. cbn [texec] in E. destruct (teval op2 truth of_bool false s h (Bin o l r)) as [h1 [v|]] eqn:Ev; [|discriminate].
  destruct (teval_ok V op2 truth of_bool false H1 H2 H3 _ _ _ _ _ _ _ R U Ev) as (g & w & -> & Pe & [Dn1 Dn2] & Fr). rewrite D in Dn2.
  destruct v as [v|c]; [discriminate|]. destruct (Fr c eq_refl) as [[y Y]|[_ Y]]; discriminate.
Qed.

Section Trees.
  Variable V : Type.
  Section Ind.
    Variable Q : tree V -> Prop.
    Hypothesis Hl : forall v, Q (Leaf v).
    Hypothesis Hs : forall m l, Forall Q l -> Q (Seq m l).
    Hypothesis Ht : forall x, Q x -> Q (T x).
    Fixpoint tree_ind2 (x : tree V) : Q x :=
      match x with
      | Leaf v => Hl v
      | Seq m l => Hs m l ((fix go (l : list (tree V)) : Forall Q l := match l with [] => Forall_nil _ | y :: t => Forall_cons _ (tree_ind2 y) (go t) end) l)
      | T y => Ht y (tree_ind2 y)
      end.
  End Ind.
  Lemma erase_taint : forall x : tree V, erase (taint x) = erase x.
  Proof.
    induction x as [v|m l IH|x IH] using tree_ind2; simpl; auto. destruct m; simpl; auto. f_equal. rewrite map_map.
    apply map_ext_in. intros y I. rewrite Forall_forall in IH. apply IH, I.
  Qed.
  Lemma taint_tainted : forall x : tree V, is_tainted (taint x).
  Proof. intros [v|[] l|x]; simpl; auto. Qed.
  Lemma item_erase : forall (x : tree V) i, res_map (@erase V) (item x i) = item (erase x) i.
  Proof.
    induction x as [v|m l|x IH]; intros i; simpl; auto.
    - rewrite nth_error_map. destruct (nth_error l i); reflexivity.
    - rewrite <- IH. destruct (item x i); simpl; auto. rewrite erase_taint. reflexivity.
  Qed.
  Lemma walk_erase : forall path (x : tree V), res_map (@erase V) (walk x path) = walk (erase x) path.
  Proof.
    induction path as [|i path IH]; intros x; simpl; auto. rewrite <- item_erase. destruct (item x i) as [y|]; simpl; auto.
  Qed.
  Lemma walk_tainted : forall path (x y : tree V), is_tainted x -> walk x path = Ok y -> is_tainted y.
  Proof.
    induction path as [|i path IH]; intros x y I E; simpl in E; [injection E as <-; auto|]. destruct (item x i) as [z|] eqn:Q; [|discriminate]. simpl in E.
    eapply IH; [|exact E]. destruct x; try contradiction. simpl in Q. destruct (item x i); [|discriminate]. injection Q as <-. apply taint_tainted.
  Qed.
  Lemma walk_both : forall (x : tree V) path, res_map (@erase V) (walk (taint x) path) = walk (erase x) path /\ forall y, walk (taint x) path = Ok y -> is_tainted y.
  Proof. intros x path. split; [rewrite walk_erase, erase_taint; auto|]. intros y. apply walk_tainted, taint_tainted. Qed.
  Lemma items_tainted : forall (x : tree V) l, items (taint x) = Ok l -> Forall (@is_tainted V) l /\ exists m, items (erase x) = Ok m /\ m = map (@erase V) l.
  Proof.
    intros x l E. split.
    - destruct (taint x) as [v|m k|y] eqn:T0; try (pose proof (taint_tainted x) as X; rewrite T0 in X; contradiction).
      simpl in E. destruct (items y); [|discriminate]. injection E as <-. apply Forall_forall. intros z I. apply in_map_iff in I as (u & <- & _). apply taint_tainted.
    - assert (G : forall x : tree V, res_map (map (@erase V)) (items x) = items (erase x)).
      { clear. induction x as [v|m l|x IH]; simpl; auto. rewrite <- IH. destruct (items x); simpl; auto. rewrite map_map. f_equal. apply map_ext. apply erase_taint. }
      rewrite <- (erase_taint x), <- G, E. simpl. eauto.
  Qed.
  Lemma items_erase : forall x : tree V, res_map (map (@erase V)) (items (taint x)) = items (erase x).
  Proof.
    intros x. assert (G : forall x : tree V, res_map (map (@erase V)) (items x) = items (erase x)).
    { clear. induction x as [v|m l|x IH]; simpl; auto. rewrite <- IH. destruct (items x); simpl; auto. rewrite map_map. f_equal. apply map_ext. apply erase_taint. }
    rewrite G, erase_taint. reflexivity.
  Qed.
  Lemma taint_sound : forall x : tree V, sound x -> sound (taint x).
  Proof.
    induction x as [v|m l IH|x IH] using tree_ind2; intros H; simpl; auto; [constructor; auto|].
    inversion H as [|m0 l0 F|]; subst. destruct m; constructor; auto. constructor. intros y I. apply in_map_iff in I as (z & <- & J). rewrite Forall_forall in IH. auto.
  Qed.
  Lemma taint_twice : forall x : tree V, taint (taint x) = taint x.
  Proof. intros [v|[] l|x]; reflexivity. Qed.
  Lemma argument_erase : forall x : tree V, erase (argument_after x) = erase x.
  Proof. intros x. destruct x as [v|[] l|x]; simpl; auto. exact (erase_taint (Seq true l)). Qed.
  Lemma argument_same : forall (x : tree V) l, x <> Seq true l -> (forall l, x <> Seq true l) -> argument_after x = x.
  Proof. intros [v|[] l|x] l0 _ H; simpl; auto. exfalso. eapply H; reflexivity. Qed.
  Lemma unwrap_same : forall x : tree V, (forall l, x <> Seq true l) -> ~ is_tainted x -> access_tainted (taint x) = x.
  Proof. intros [v|[] l|x] H N; simpl in *; auto; [exfalso; eapply H; reflexivity|contradiction]. Qed.
End Trees.

Lemma put_eq : forall A (f : nat -> A) k v, put f k v k = v.
Proof. intros. unfold put. rewrite Nat.eqb_refl. reflexivity. Qed.
Lemma sessions_apart : forall s o t, (match o with Enter u _ | Exit u _ | GetSession u => u <> t end) -> local (fst (sstep s o)) t = local s t.
Proof.
  intros s o t H. destruct o as [u e|u e|u]; simpl; auto; destruct (local s u); simpl; auto; unfold put; destruct (Nat.eqb t u) eqn:E; auto; apply Nat.eqb_eq in E; congruence.
Qed.
Lemma session_enter : forall s t e, local s t = None -> sstep s (Enter t e) = (MkS (put (local s) t (Some e)) (put (enabled s) e true), Ok (Some e)) /\
  snd (sstep (fst (sstep s (Enter t e))) (GetSession t)) = Ok (Some e) /\ enabled (fst (sstep s (Enter t e))) e = true.
Proof. intros s t e H. simpl. rewrite H. simpl. rewrite !put_eq. auto. Qed.
Lemma session_busy : forall s t e e', local s t = Some e -> snd (sstep s (Enter t e')) = Err RuntimeError /\ local (fst (sstep s (Enter t e'))) t = Some e.
Proof. intros s t e e' H. simpl. rewrite H. simpl. auto. Qed.
Lemma session_exit : forall s t e, local s t = Some e -> snd (sstep s (Exit t e)) = Ok None /\ snd (sstep (fst (sstep s (Exit t e))) (GetSession t)) = Err RuntimeError /\
  enabled (fst (sstep s (Exit t e))) e = false.
Proof. intros s t e H. simpl. rewrite H. simpl. rewrite !put_eq. auto. Qed.
Lemma uses_weaken : forall V (P Q : top -> Prop) (e : texpr V), (forall o, P o -> Q o) -> uses P e -> uses Q e.
Proof. intros V P Q e H. induction e; simpl; auto. intros (A & B & C). auto. Qed.
Lemma no_new_failures : forall (V : Type) op2 truth of_bool,
  (forall a b : V, op2 Eq_ b a = op2 Eq_ a b /\ op2 Gt_ b a = op2 Lt_ a b /\ op2 Ge_ b a = op2 Le_ a b) ->
  forall l s h p f e, represents s h p f -> Forall (stmt_uses (fun o => In o [Add; Eq_; Lt_; Le_; Gt_; Ge_])) l ->
  (apart s /\ Forall (fun p => ~ copies p) l \/ Forall (fun p => ~ augments p) l) ->
  trun op2 truth of_bool true s h l = Err e -> prun op2 p l = Err e.
Proof.
  intros V op2 truth of_bool M l s h p f e R U A E.
  apply (trun_err V op2 truth of_bool true (fun a b => proj1 (M a b)) (fun a b => proj1 (proj2 (M a b))) (fun a b => proj2 (proj2 (M a b))) l s h p f e eq_refl R); auto.
  eapply Forall_impl; [|exact U]. assert (G : forall o, In o [Add; Eq_; Lt_; Le_; Gt_; Ge_] -> symmetric o) by (intros []; simpl; auto; intros I; decompose [or] I; try discriminate; auto).
  intros [x b|x o b]; simpl; [apply uses_weaken; exact G|]. intros [X Y]. split; [apply G; exact X|eapply uses_weaken; [exact G|exact Y]].
Qed.
Lemma argument_kept : forall (V : Type) (x : tree V), erase (argument_after x) = erase x /\
  ((forall l, x <> Seq true l) -> argument_after x = x /\ (~ is_tainted x -> access_tainted (taint x) = x)).
Proof. intros V x. split; [apply argument_erase|]. intros H. split; [apply (argument_same V x []); auto|apply unwrap_same; auto]. Qed.
Lemma sessions_all : forall s t e, (local s t = None ->
    snd (sstep s (Enter t e)) = Ok (Some e) /\ snd (sstep (fst (sstep s (Enter t e))) (GetSession t)) = Ok (Some e) /\ enabled (fst (sstep s (Enter t e))) e = true) /\
  (local s t = Some e -> (forall e', snd (sstep s (Enter t e')) = Err RuntimeError /\ local (fst (sstep s (Enter t e'))) t = Some e) /\
    snd (sstep s (Exit t e)) = Ok None /\ snd (sstep (fst (sstep s (Exit t e))) (GetSession t)) = Err RuntimeError /\ enabled (fst (sstep s (Exit t e))) e = false).
Proof.
  intros s t e. split; intros H.
  - destruct (session_enter s t e H) as (A & B & C). split; [rewrite A; reflexivity|auto].
  - split; [intros e'; apply session_busy; auto|apply session_exit; auto].
Qed.
