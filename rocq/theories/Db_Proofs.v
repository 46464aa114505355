From Verif Require Import Prelude PreludeFacts Db_Model Db_Spec.

Section Tr.
  Variable fails : list event -> call -> option exn.
  Variables (ca le : bool).

  Lemma body_flat : forall body s c, flat body ->
    body_of (perform fails ca le) s c body = (mk_state (getter s) (cursor s) (made s) (log s ++ uses c body), raised body).
  Proof.
    induction body as [|p t IH]; intros [g k m l] c F; simpl; [rewrite app_nil_r; reflexivity|].
    assert (flat t) by (intros q I; apply F; right; auto). destruct p as [|e|b].
    - simpl. rewrite IH by auto. unfold write. cbn [getter cursor made log]. rewrite <- app_assoc. reflexivity.
    - simpl. rewrite app_nil_r. reflexivity.
    - destruct (F (With b) (or_introl eq_refl)).
  Qed.

  Lemma exit_turn : forall s m r, getter s = false -> cursor s = Some m ->
    let '(l2, r2) := in_turn fails (log s) (ending ca le m r) in
    log (fst (exit fails ca le s r)) = log s ++ l2 /\ snd (exit fails ca le s r) = r2.
  Proof.
    intros [g k n pre] m r G K. simpl in G, K. subst g k. unfold exit, on_connection, connection, ending, only, do.
    cbn [getter cursor made log write fst snd].
    destruct r as [x|]; cbn [app in_turn].
    - destruct (fails pre Rollback); [auto|]. destruct le; cbn [app in_turn write log cursor getter made].
      + destruct (fails ((pre ++ [Made Rollback]) ++ [Logged]) (CloseCursor m)) eqn:E3.
        * cbn [fst snd log write]. rewrite <- ?app_assoc. auto.
        * destruct ca; cbn [in_turn write log cursor getter made]; [|cbn [fst snd log write]; rewrite <- ?app_assoc; auto].
          destruct (fails (((pre ++ [Made Rollback]) ++ [Logged]) ++ [Made (CloseCursor m)]) CloseConnection); cbn [fst snd log write]; rewrite <- ?app_assoc; auto.
      + destruct (fails (pre ++ [Made Rollback]) (CloseCursor m)) eqn:E3.
        * cbn [fst snd log write]. rewrite <- ?app_assoc. auto.
        * destruct ca; cbn [in_turn write log cursor getter made]; [|cbn [fst snd log write]; rewrite <- ?app_assoc; auto].
          destruct (fails ((pre ++ [Made Rollback]) ++ [Made (CloseCursor m)]) CloseConnection); cbn [fst snd log write]; rewrite <- ?app_assoc; auto.
    - destruct (fails pre Commit); [auto|]. cbn [app in_turn write log cursor getter made].
      destruct (fails (pre ++ [Made Commit]) (CloseCursor m)) eqn:E3.
      * cbn [fst snd log write]. rewrite <- ?app_assoc. auto.
      * destruct ca; cbn [in_turn write log cursor getter made]; [|cbn [fst snd log write]; rewrite <- ?app_assoc; auto].
        destruct (fails ((pre ++ [Made Commit]) ++ [Made (CloseCursor m)]) CloseConnection); cbn [fst snd log write]; rewrite <- ?app_assoc; auto.
  Qed.

  Lemma enter_turn : forall s,
    let '(l1, r1) := in_turn fails (log s) (opening (getter s)) in
    match r1 with
    | Some e => log (fst (enter fails s)) = log s ++ l1 /\ snd (enter fails s) = Err e
    | None => enter fails s = (mk_state false (Some (made s)) (S (made s)) (log s ++ l1), Ok (made s))
    end.
  Proof.
    intros [g k m l]. unfold enter, on_connection, connection, do, opening, only. cbn [getter cursor made log write].
    destruct g; cbn [app in_turn].
    - destruct (fails l Getter) as [e|] eqn:E1; cbn [in_turn write log getter cursor made]; [auto|].
      destruct (fails (l ++ [Made Getter]) MakeCursor) as [e|] eqn:E2; cbn [in_turn fst snd log write]; rewrite <- ?app_assoc; auto.
    - destruct (fails l MakeCursor) as [e|] eqn:E2; cbn [in_turn write log getter cursor made fst snd]; rewrite ?E2; auto.
  Qed.

  Lemma with_exact : forall body s c, flat body ->
    let '(s', r') := perform fails ca le s c (With body) in
    let '(l1, r1) := in_turn fails (log s) (opening (getter s)) in
    match r1 with
    | Some e => log s' = log s ++ l1 /\ r' = Some e
    | None =>
      let pre := log s ++ l1 ++ uses (made s) body in
      let '(l2, r2) := in_turn fails pre (ending ca le (made s) (raised body)) in
      log s' = pre ++ l2 /\ r' = (match r2 with Some e => Some e | None => raised body end)
    end.
  Proof.
    intros body s c F. cbn [perform]. pose proof (enter_turn s) as E. destruct (in_turn fails (log s) (opening (getter s))) as [l1 [e|]].
    - destruct (enter fails s) as [s1 [c1|e1]]; simpl in E; destruct E as [E1 E2]; try discriminate. injection E2 as ->. auto.
    - rewrite E. rewrite body_flat by auto. cbn [getter cursor made log]. rewrite <- app_assoc.
      pose proof (exit_turn (mk_state false (Some (made s)) (S (made s)) (log s ++ l1 ++ uses (made s) body)) (made s) (raised body) eq_refl eq_refl) as X.
      cbn [log] in X. cbv zeta. destruct (in_turn fails (log s ++ l1 ++ uses (made s) body) (ending ca le (made s) (raised body))) as [l2 r2].
      destruct (exit fails ca le _ (raised body)) as [s3 r3]. cbn [fst snd] in X. destruct X as [X1 X2]. subst r3. destruct r2; auto.
  Qed.

  (** ** The getter is called once *)
  Hypothesis getter_ok : forall l, fails l Getter = None.
  Definition inv (s : state) : Prop := getters (log s) + (if getter s then 1 else 0) <= 1.
  Lemma getters_app : forall l m, getters (l ++ m) = getters l + getters m.
  Proof. induction l as [|[[]| |] l IH]; intros; simpl; rewrite ?IH; auto. Qed.
  Lemma inv_conn : forall s c, inv s -> c <> Getter -> inv (fst (on_connection fails s c)) /\ (snd (connection fails s) = None).
  Proof.
    intros [g k m l] c I N. unfold on_connection, connection, do, inv in *. cbn [getter log write cursor made] in *. destruct g.
    - rewrite getter_ok. simpl. rewrite !getters_app. simpl. destruct c; simpl; try congruence; split; auto; lia.
    - simpl. rewrite !getters_app. destruct c; simpl; try congruence; split; auto; lia.
  Qed.
  Lemma inv_write : forall s e, inv s -> e <> Made Getter -> inv (write s e).
  Proof. intros [g k m l] e I N. unfold inv in *. simpl in *. rewrite getters_app. destruct e as [[]| |]; simpl; try congruence; lia. Qed.
  Lemma inv_exit : forall s r, inv s -> inv (fst (exit fails ca le s r)).
  Proof.
    intros s r I. unfold exit. assert (N : (match r with None => Commit | Some _ => Rollback end) <> Getter) by (destruct r; discriminate).
    destruct (inv_conn s _ I N) as [J _]. destruct (on_connection fails s _) as [s1 [e|]]; simpl in *; auto.
    set (s2 := match r with Some _ => if le then write s1 Logged else s1 | None => s1 end).
    assert (K : inv s2). { unfold s2. destruct r; auto. destruct le; auto. apply inv_write; auto. discriminate. }
    destruct (cursor s2) as [c|]; auto. unfold do. pose proof (inv_write s2 (Made (CloseCursor c)) K) as W.
    destruct (fails (log s2) (CloseCursor c)); simpl; [apply W; discriminate|]. destruct ca; simpl; [|apply W; discriminate].
    apply inv_conn; [apply W; discriminate|discriminate].
  Qed.
  Fixpoint psize (p : prog) : nat := match p with With b => S (list_sum (map psize b)) | _ => 1 end.
  Lemma inv_perform : forall n p, psize p <= n -> forall s c, inv s -> inv (fst (perform fails ca le s c p)).
  Proof.
    induction n as [|n IH]; intros p L s c I; [destruct p; simpl in L; lia|]. destruct p as [|e|body]; simpl; auto.
    - apply inv_write; auto. discriminate.
    - unfold enter. destruct (inv_conn s MakeCursor I) as [J _]; [discriminate|]. destruct (on_connection fails s MakeCursor) as [s1 [e|]]; simpl in *; auto.
      set (s2 := mk_state _ _ _ _). assert (K : inv s2) by exact J. clearbody s2. revert K.
      assert (B : forall body s2 c, list_sum (map psize body) <= n -> inv s2 -> inv (fst (body_of (perform fails ca le) s2 c body))).
      { clear - IH. induction body as [|p t IHt]; intros s2 c L K; simpl; auto. simpl in L. specialize (IH p).
        assert (inv (fst (perform fails ca le s2 c p))) as P by (apply IH; auto; lia). destruct (perform fails ca le s2 c p) as [s3 [e|]]; simpl in *; auto. apply IHt; auto. lia. }
      intros K. specialize (B body s2 (made s1)). simpl in L. assert (inv (fst (body_of (perform fails ca le) s2 (made s1) body))) as P by (apply B; auto; lia).
      destruct (body_of (perform fails ca le) s2 (made s1) body) as [s3 r]. simpl in P. pose proof (inv_exit s3 r P) as Q.
      destruct (exit fails ca le s3 r) as [s4 [e|]]; simpl in *; auto.
  Qed.
End Tr.

Lemma getter_once : forall fails ca le g c ps, (forall l, fails l Getter = None) ->
  getters (log (fst (body_of (perform fails ca le) (begin g) c ps))) <= (if g then 1 else 0).
Proof.
  intros fails ca le g c ps G.
  destruct g.
  - assert (B : forall ps s, inv s -> inv (fst (body_of (perform fails ca le) s c ps))).
    { induction ps0 as [|p t IH]; intros s I; simpl; auto. pose proof (inv_perform fails ca le G (psize p) p (le_n _) s c I) as P.
      destruct (perform fails ca le s c p) as [s1 [e|]]; simpl in *; auto. }
    specialize (B ps (begin true)). unfold inv in B. simpl in B. specialize (B (le_n _)). lia.
  - (* with one getter counted in advance *)
    assert (B : forall ps s, getters (log s) = 0 -> getter s = false -> getters (log (fst (body_of (perform fails ca le) s c ps))) = 0).
    { intros ps0 s L H.
      assert (Q : forall ps s, inv s -> inv (fst (body_of (perform fails ca le) s c ps))).
      { induction ps1 as [|p t IH]; intros s0 I; simpl; auto. pose proof (inv_perform fails ca le G (psize p) p (le_n _) s0 c I) as P.
        destruct (perform fails ca le s0 c p) as [s1 [e|]]; simpl in *; auto. }
      clear Q.
      assert (C : forall s k, getter s = false -> k <> Getter -> getter (fst (on_connection fails s k)) = false /\ getters (log (fst (on_connection fails s k))) = getters (log s)).
      { intros [g k0 m l] k G0 N. simpl in G0. subst g. unfold on_connection, connection. simpl. rewrite getters_app. destruct k; simpl; try congruence; auto. }
      assert (W : forall s e, e <> Made Getter -> getters (log (write s e)) = getters (log s)).
      { intros [g k0 m l] e N. simpl. rewrite getters_app. destruct e as [[]| |]; simpl; try congruence; lia. }
      assert (X : forall s r, getter s = false -> getter (fst (exit fails ca le s r)) = false /\ getters (log (fst (exit fails ca le s r))) = getters (log s)).
      { intros s0 r G0. unfold exit. assert (N : (match r with None => Commit | Some _ => Rollback end) <> Getter) by (destruct r; discriminate).
        destruct (C s0 _ G0 N) as [J1 J2]. destruct (on_connection fails s0 _) as [s1 [e|]]; simpl in *; auto.
        set (s2 := match r with Some _ => if le then write s1 Logged else s1 | None => s1 end).
        assert (K : getter s2 = false /\ getters (log s2) = getters (log s0)). { unfold s2. destruct r; auto. destruct le; auto. simpl. rewrite W by discriminate. auto. }
        clearbody s2. destruct K as [K1 K2]. destruct (cursor s2) as [k|]; auto. unfold do. pose proof (W s2 (Made (CloseCursor k))) as WW.
        destruct (fails (log s2) (CloseCursor k)); simpl; [split; auto; rewrite <- K2; apply WW; discriminate|]. destruct ca; simpl; [|split; auto; rewrite <- K2; apply WW; discriminate].
        destruct (C (write s2 (Made (CloseCursor k))) CloseConnection) as [A1 A2]; [exact K1|discriminate|]. rewrite A2, <- K2. split; auto. apply WW. discriminate. }
      assert (P : forall n p, psize p <= n -> forall s c, getter s = false ->
        getter (fst (perform fails ca le s c p)) = false /\ getters (log (fst (perform fails ca le s c p))) = getters (log s)).
      { induction n as [|n IH]; intros p LL s0 c0 I; [destruct p; simpl in LL; lia|]. destruct p as [|e|body]; simpl; auto.
        - split; auto. apply (W s0 (Used c0)). discriminate.
        - unfold enter. destruct (C s0 MakeCursor I) as [J1 J2]; [discriminate|]. destruct (on_connection fails s0 MakeCursor) as [s1 [e|]]; simpl in *; auto.
          set (s2 := mk_state _ _ _ _). assert (K : getter s2 = false /\ getters (log s2) = getters (log s0)) by (split; auto). clearbody s2.
          assert (B : forall body s2 c, list_sum (map psize body) <= n -> getter s2 = false ->
            getter (fst (body_of (perform fails ca le) s2 c body)) = false /\ getters (log (fst (body_of (perform fails ca le) s2 c body))) = getters (log s2)).
          { clear - IH. induction body as [|p t IHt]; intros s2 c L K; simpl; auto. simpl in L. destruct (IH p ltac:(lia) s2 c K) as [P1 P2].
            destruct (perform fails ca le s2 c p) as [s3 [e|]]; simpl in *; auto. destruct (IHt s3 c ltac:(lia) P1) as [Q1 Q2]. rewrite Q2, P2. auto. }
          destruct K as [K1 K2]. destruct (B body s2 (made s1) ltac:(lia) K1) as [P1 P2].
          destruct (body_of (perform fails ca le) s2 (made s1) body) as [s3 r]. simpl in P1, P2. destruct (X s3 r P1) as [Q1 Q2].
          destruct (exit fails ca le s3 r) as [s4 [e|]]; simpl in *; split; auto; congruence. }
      revert s L H. induction ps0 as [|p t IH]; intros s L H; simpl; auto. destruct (P (psize p) p (le_n _) s c H) as [P1 P2].
      destruct (perform fails ca le s c p) as [s1 [e|]]; simpl in *; [congruence|]. apply IH; congruence. }
    rewrite B; auto.
Qed.

(** * Loadable *)
Lemma method_loaded : forall ops o, Forall (fun x => match x with Ran b => b = true | _ => True end) (snd (lrun o ops)).
Proof.
  induction ops as [|p t IH]; intros o; simpl; auto. destruct (lstep o p) as [o1 x] eqn:E. specialize (IH o1). destruct (lrun o1 t) as [o2 xs]. simpl in *.
  constructor; auto. destruct p as [r|r]; unfold lstep, refresh in E.
  - destruct r; injection E as <- <-; auto.
  - destruct (loaded o) eqn:L; simpl in E; [injection E as <- <-; auto|]. destruct r; injection E as <- <-; auto.
Qed.
Lemma loaded_mono : forall ops o, loaded o = true -> loaded (fst (lrun o ops)) = true.
Proof.
  induction ops as [|p t IH]; intros o L; simpl; auto. destruct (lstep o p) as [o1 x] eqn:E.
  assert (loaded o1 = true) as L1. { destruct p as [r|r]; unfold lstep, refresh in E; rewrite ?L in E; simpl in E; [destruct r|]; injection E as <- <-; auto. }
  specialize (IH o1 L1). destruct (lrun o1 t). auto.
Qed.
Lemma loaded_iff : forall ops o, loaded (fst (lrun o ops)) = (loaded o || existsb succeeds ops)%bool.
Proof.
  induction ops as [|p t IH]; intros o; simpl; [rewrite Bool.orb_false_r; auto|]. destruct (lstep o p) as [o1 x] eqn:E. specialize (IH o1).
  destruct (lrun o1 t) as [o2 xs]. simpl in *. rewrite IH. rewrite Bool.orb_assoc. f_equal.
  destruct p as [r|r]; unfold lstep, refresh in E; [|destruct (loaded o) eqn:L; simpl in E]; try destruct r; injection E as <- <-; simpl; auto; rewrite ?L; auto; destruct (loaded o); auto.
Qed.
(** the database is asked once when everything goes well *)
Lemma asked_once : forall ops o, (forall p, In p ops -> p = Method None) ->
  asked (fst (lrun o ops)) = asked o + (if loaded o then 0 else match ops with [] => 0 | _ => 1 end).
Proof.
  induction ops as [|p t IH]; intros o H; simpl; [destruct (loaded o); lia|]. rewrite (H p (or_introl eq_refl)).
  assert (T : forall q, In q t -> q = Method None) by (intros; apply H; right; auto).
  unfold lstep, refresh. destruct (loaded o) eqn:L; simpl.
  - specialize (IH o T). rewrite L in IH. destruct (lrun o t). simpl in *. lia.
  - specialize (IH (mk_obj true (S (asked o))) T). destruct (lrun (mk_obj true (S (asked o))) t). simpl in *. lia.
Qed.
