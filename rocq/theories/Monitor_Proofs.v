From Verif Require Import Prelude PreludeFacts Monitor_Model Monitor_Spec.
From Coq Require Import Permutation.
Local Open Scope Z_scope.

Section Generic.
  Variables S O R : Type.
  Variable body : O -> code S R.
  Notation cd := (code S R).
  Notation cfg := (config S O R).

  Definition code_rect' (P : cd -> Prop) (HR : forall r, P (Return r)) (HS : forall f, (forall s, P (snd (f s))) -> P (Step f)) :
    forall k, P k :=
    fix go k := match k with
                | Return r => HR r
                | Step f => HS f (fun s => match f s as p return P (snd p) with (_, k') => go k' end)
                end.

  Inductive reaches (s : S) (k : cd) : S -> cd -> Prop :=
  | reach_here : reaches s k s k
  | reach_step s1 f : reaches s k s1 (Step f) -> reaches s k (fst (f s1)) (snd (f s1)).

  Lemma reaches_run s k s1 k1 : reaches s k s1 k1 -> run_code s k = run_code s1 k1.
  Proof.
    induction 1 as [|s1 f H IH]; auto. rewrite IH. simpl. destruct (f s1); reflexivity.
  Qed.

  (** what a method does when nobody interferes *)
  Definition eff (s : S) (o : O) : S * R := run_code s (body o).

  Lemma serially_app (e : S -> O -> S * R) s l s1 l2 s2 : serially e s l s1 -> serially e s1 l2 s2 -> serially e s (l ++ l2) s2.
  Proof.
    revert s. induction l as [|[[t o] r] l IH]; simpl; intros s H H2.
    - subst; auto.
    - destruct H as [-> H]. split; auto.
  Qed.

  Lemma of_thread_app (t : nat) (l l2 : list (nat * O * R)) : of_thread t (l ++ l2) = of_thread t l ++ of_thread t l2.
  Proof. unfold of_thread. rewrite filter_app, map_app. reflexivity. Qed.

  Definition Inv (s : S) (programs : nat -> list O) (log : list (nat * O * R)) (c : cfg) : Prop :=
    accounts_for log programs c /\
    exists s', serially eff s log s' /\
      match lock c with
      | None => shared c = s' /\ forall t, inside (threads c t) = None
      | Some t => (exists o rest k, todo (threads c t) = o :: rest /\ inside (threads c t) = Some k /\ reaches s' (body o) (shared c) k) /\
                  forall t', t' <> t -> inside (threads c t') = None
      end.

  Lemma Inv_start s programs : Inv s programs [] (start R s programs).
  Proof.
    split; [intros t; simpl; auto|]. exists s. simpl. auto.
  Qed.

  Lemma set_same (c : cfg) t th : set_thread c t th t = th.
  Proof. unfold set_thread. rewrite Nat.eqb_refl. reflexivity. Qed.
  Lemma set_other (c : cfg) t th t' : t' <> t -> set_thread c t th t' = threads c t'.
  Proof. intros H. unfold set_thread. apply Nat.eqb_neq in H. rewrite H. reflexivity. Qed.

  Lemma Inv_turn s programs log (c : cfg) t : Inv s programs log c -> exists since, Inv s programs (log ++ since) (turn body c t).
  Proof.
    intros [HA (s' & HS & HL)]. unfold turn. destruct (inside (threads c t)) as [[r|f]|] eqn:Ei.
    - destruct (lock c) as [t0|] eqn:El; [|destruct HL as [_ HL]; rewrite HL in Ei; discriminate].
      destruct HL as [(o & rest & k & Ht & Hi & Hr) Ho].
      destruct (Nat.eq_dec t t0) as [<-|N]; [|rewrite Ho in Ei by auto; discriminate].
      rewrite Ei in Hi. injection Hi as <-. apply reaches_run in Hr. simpl in Hr.
      exists [(t, o, r)]. split.
      + intros u. rewrite of_thread_app, !map_app. destruct (HA u) as [H1 H2]. unfold of_thread at 2 4. simpl.
        destruct (Nat.eq_dec u t) as [->|N].
        * rewrite set_same, Nat.eqb_refl. simpl. rewrite Ht in *. simpl. rewrite <- app_assoc. simpl. split; [exact H1|].
          rewrite H2. reflexivity.
        * rewrite set_other by auto. assert (Nat.eqb t u = false) as -> by (apply Nat.eqb_neq; auto). simpl. rewrite !app_nil_r. auto.
      + exists (shared c). simpl. split.
        * eapply serially_app; [exact HS|]. simpl. unfold eff. rewrite Hr. auto.
        * split; auto. intros u. destruct (Nat.eq_dec u t) as [->|N]; [rewrite set_same; auto|rewrite set_other; auto].
    - destruct (lock c) as [t0|] eqn:El; [|destruct HL as [_ HL]; rewrite HL in Ei; discriminate].
      destruct HL as [(o & rest & k & Ht & Hi & Hr) Ho].
      destruct (Nat.eq_dec t t0) as [<-|N]; [|rewrite Ho in Ei by auto; discriminate].
      rewrite Ei in Hi. injection Hi as <-. pose proof (reach_step _ _ _ _ Hr) as Hr'. destruct (f (shared c)) as [s1 k1] eqn:Ef. simpl in Hr'.
      exists []. rewrite app_nil_r. split.
      + intros u. simpl. destruct (Nat.eq_dec u t) as [->|N]; [rewrite set_same; apply HA|rewrite set_other by auto; apply HA].
      + exists s'. split; auto. cbn [lock threads shared]. split.
        * exists o, rest, k1. rewrite set_same. auto.
        * intros u N. rewrite set_other; auto.
    - exists []. rewrite app_nil_r. destruct (todo (threads c t)) as [|o rest] eqn:Et.
      { split; auto. exists s'. auto. }
      destruct (lock c) as [t0|] eqn:El.
      { split; auto. exists s'. rewrite El. auto. }
      destruct HL as [Hs Hi]. split.
      + intros u. simpl. destruct (Nat.eq_dec u t) as [->|N]; [rewrite set_same; simpl; rewrite <- Et; apply HA|rewrite set_other by auto; apply HA].
      + exists s'. split; auto. cbn [lock threads shared]. split.
        * exists o, rest, (body o). rewrite set_same. simpl. split; auto. split; auto. rewrite Hs. constructor.
        * intros u N. rewrite set_other; auto.
  Qed.

  Lemma Inv_exec s programs sch : forall log (c : cfg), Inv s programs log c -> exists since, Inv s programs (log ++ since) (exec body c sch).
  Proof.
    induction sch as [|t sch IH]; intros log c H; simpl.
    - exists []. rewrite app_nil_r. auto.
    - destruct (Inv_turn _ _ _ _ t H) as [l1 H1]. destruct (IH _ _ H1) as [l2 H2]. exists (l1 ++ l2). rewrite app_assoc. auto.
  Qed.

  Lemma exec_app (c : cfg) a b : exec body c (a ++ b) = exec body (exec body c a) b.
  Proof. revert c; induction a; simpl; auto. Qed.

  Lemma reach_inv s programs sch : exists log, Inv s programs log (exec body (start R s programs) sch).
  Proof. destruct (Inv_exec s programs sch [] _ (Inv_start s programs)) as [l H]. exists l. exact H. Qed.

  (** with an [effect] that describes the bodies of the calls the programs make *)
  Section Effect.
    Variable effect : S -> O -> S * R.
    Variable programs : nat -> list O.
    Hypothesis Hb : forall t o, In o (programs t) -> forall s, run_code s (body o) = effect s o.

    Lemma serially_effect log : (forall e, In e log -> forall s, eff s (snd (fst e)) = effect s (snd (fst e))) ->
      forall s s', serially eff s log s' -> serially effect s log s'.
    Proof.
      induction log as [|[[t o] r] log IH]; intros H s s' Hs; simpl in *; auto.
      rewrite (H _ (or_introl eq_refl)) in Hs. simpl in Hs. destruct Hs as [-> Hs]. split; auto.
    Qed.

    Lemma log_in (log : list (nat * O * R)) (c : cfg) : accounts_for log programs c -> forall e, In e log -> In (snd (fst e)) (programs (fst (fst e))).
    Proof.
      intros HA [[t o] r] Hin. simpl. destruct (HA t) as [-> _]. apply in_or_app. left. unfold of_thread. rewrite map_map.
      apply in_map_iff. exists (t, o, r). split; auto. apply filter_In. simpl. rewrite Nat.eqb_refl. auto.
    Qed.

    Lemma Inv_explains s log c : Inv s programs log c -> explains effect log s programs c.
    Proof.
      intros [HA (s' & HS & HL)]. split; auto. exists s'. split.
      - apply serially_effect; auto. intros e He s0. unfold eff. apply (Hb (fst (fst e))). eapply log_in; eauto.
      - intros E. rewrite E in HL. tauto.
    Qed.

    Lemma over_time s sch1 sch2 :
      explained_over_time effect s programs (exec body (start R s programs) sch1) (exec body (start R s programs) (sch1 ++ sch2)).
    Proof.
      destruct (reach_inv s programs sch1) as [l H]. rewrite exec_app. destruct (Inv_exec s programs sch2 _ _ H) as [l2 H2].
      exists l, l2. split; apply Inv_explains; auto.
    Qed.

    Lemma serializable_ok s sch : serializable effect s programs (exec body (start R s programs) sch).
    Proof. destruct (reach_inv s programs sch) as [l H]. exists l. apply Inv_explains; auto. Qed.
  End Effect.

  Lemma exclusive s programs sch t t' :
    let c := exec body (start R s programs) sch in
    inside (threads c t) <> None -> inside (threads c t') <> None -> t = t'.
  Proof.
    intros c H H'. destruct (reach_inv s programs sch) as (l & _ & s' & _ & HL). fold c in HL.
    destruct (lock c) as [t0|]; [|destruct HL as [_ HL]; rewrite HL in H; tauto].
    destruct HL as [_ HL]. destruct (Nat.eq_dec t t0), (Nat.eq_dec t' t0); try congruence; [rewrite (HL t') in H'|rewrite (HL t) in H|rewrite (HL t) in H]; tauto.
  Qed.

  (** progress *)
  Lemma finish t k : forall c : cfg, lock c = Some t -> inside (threads c t) = Some k ->
    exists n, let c' := exec body c (repeat t n) in
      lock c' = None /\ todo (threads c' t) = tl (todo (threads c t)) /\ inside (threads c' t) = None /\ forall u, u <> t -> threads c' u = threads c u.
  Proof.
    induction k as [r|f IH] using code_rect'; intros c El Ei.
    - exists 1%nat. simpl. unfold turn. rewrite Ei. simpl. rewrite set_same. simpl. repeat split; auto. intros; apply set_other; auto.
    - destruct (f (shared c)) as [s1 k1] eqn:Ef.
      specialize (IH (shared c)). rewrite Ef in IH. simpl in IH.
      set (c1 := mk_config (lock c) s1 (set_thread c t (mk_thread (todo (threads c t)) (Some k1) (results (threads c t))))).
      assert (turn body c t = c1) as E1 by (unfold turn; rewrite Ei, Ef; reflexivity).
      destruct (IH c1) as (n & H1 & H2 & H3 & H4); [exact El|unfold c1; simpl; rewrite set_same; reflexivity|].
      exists (Datatypes.S n). simpl. rewrite E1. split; auto. split; [|split]; auto.
      + rewrite H2. unfold c1. simpl. rewrite set_same. reflexivity.
      + intros u N. rewrite H4 by auto. unfold c1. simpl. apply set_other; auto.
  Qed.

  Lemma calm t l : forall c : cfg, lock c = None -> (forall u, inside (threads c u) = None) -> todo (threads c t) = l ->
    exists sch, let c' := exec body c sch in lock c' = None /\ (forall u, inside (threads c' u) = None) /\ todo (threads c' t) = [] /\
      forall u, u <> t -> threads c' u = threads c u.
  Proof.
    induction l as [|o l IH]; intros c El Hi Ht.
    - exists []. simpl. auto.
    - set (c1 := mk_config (Some t) (shared c) (set_thread c t (mk_thread (todo (threads c t)) (Some (body o)) (results (threads c t))))).
      assert (turn body c t = c1) as E1 by (unfold turn; rewrite Hi, Ht, El; unfold c1; rewrite Ht; reflexivity).
      destruct (finish t (body o) c1) as (n & H1 & H2 & H3 & H4); [reflexivity|unfold c1; simpl; rewrite set_same; reflexivity|].
      assert (forall u, u <> t -> threads c1 u = threads c u) as Hc1 by (intros u N; unfold c1; simpl; apply set_other; auto).
      destruct (IH (exec body c1 (repeat t n))) as (sch & H5 & H6 & H7 & H8).
      + exact H1.
      + intros u. destruct (Nat.eq_dec u t) as [->|N]; auto. rewrite H4, Hc1; auto.
      + rewrite H2. unfold c1. simpl. rewrite set_same. simpl. rewrite Ht. reflexivity.
      + exists (t :: repeat t n ++ sch). simpl. rewrite E1, exec_app. split; auto. split; auto. split; auto.
        intros u N. rewrite H8, H4, Hc1; auto.
  Qed.

  Lemma calm_all n : forall c : cfg, lock c = None -> (forall u, inside (threads c u) = None) ->
    exists sch, let c' := exec body c sch in lock c' = None /\ (forall u, inside (threads c' u) = None) /\
      forall u, (u < n)%nat -> todo (threads c' u) = [].
  Proof.
    induction n as [|n IH]; intros c El Hi.
    - exists []. simpl. split; auto. split; auto. intros; lia.
    - destruct (IH c El Hi) as (sch & H1 & H2 & H3). destruct (calm n _ _ H1 H2 eq_refl) as (sch2 & H4 & H5 & H6 & H7).
      exists (sch ++ sch2). simpl. rewrite exec_app. split; auto. split; auto. intros u Hu.
      destruct (Nat.eq_dec u n) as [->|N]; auto. rewrite H7 by auto. apply H3. lia.
  Qed.

  Lemma can_finish s programs sch n : exists more, all_over n (exec body (start R s programs) (sch ++ more)).
  Proof.
    destruct (reach_inv s programs sch) as (l & _ & s' & _ & HL). set (c := exec body (start R s programs) sch) in *.
    assert (exists sch1, lock (exec body c sch1) = None /\ forall u, inside (threads (exec body c sch1) u) = None) as (sch1 & H1 & H2).
    { destruct (lock c) as [t|] eqn:El.
      - destruct HL as [(o & rest & k & Ht & Hi & _) Ho]. destruct (finish t k c El Hi) as (m & H1 & H2 & H3 & H4).
        exists (repeat t m). split; auto. intros u. destruct (Nat.eq_dec u t) as [->|N]; auto. rewrite H4; auto.
      - exists []. simpl. rewrite El. tauto. }
    destruct (calm_all n _ H1 H2) as (sch2 & _ & _ & H3). exists (sch1 ++ sch2). unfold all_over. rewrite exec_app. fold c. rewrite exec_app. exact H3.
  Qed.

  (** nobody is inside when everything is over *)
  Lemma over_free s programs log c n : Inv s programs log c -> (forall t, (n <= t)%nat -> programs t = []) -> all_over n c -> lock c = None.
  Proof.
    intros [HA (s' & _ & HL)] Hn Ho. destruct (lock c) as [t|]; auto. destruct HL as [(o & rest & k & Ht & _) _].
    destruct (Nat.lt_ge_cases t n) as [L|L]; [rewrite Ho in Ht by auto; discriminate|].
    destruct (HA t) as [H _]. rewrite Hn in H by auto. rewrite Ht in H. symmetry in H. apply app_eq_nil in H. destruct H; discriminate.
  Qed.

  (** the log, thread by thread *)
  Definition strip (log : list (nat * O * R)) : list (O * R) := map (fun e => (snd (fst e), snd e)) log.
  Lemma by_thread (log : list (nat * O * R)) n : (forall e, In e log -> (fst (fst e) < n)%nat) ->
    Permutation (flat_map (fun t => of_thread t log) (seq 0 n)) (strip log).
  Proof.
    induction log as [|[[t o] r] log IH]; intros H.
    - simpl. assert (forall l : list nat, flat_map (fun t => of_thread t (@nil (nat * O * R))) l = []) as -> by (induction l; simpl; auto). constructor.
    - assert (t < n)%nat as Ht by (apply (H (t, o, r)); left; auto).
      assert (seq 0 n = seq 0 t ++ t :: seq (Datatypes.S t) (n - Datatypes.S t)) as Es.
      { replace n with (t + Datatypes.S (n - Datatypes.S t))%nat at 1 by lia. rewrite seq_app. reflexivity. }
      assert (IH' : Permutation (flat_map (fun u => of_thread u log) (seq 0 n)) (strip log)) by (apply IH; intros; apply H; right; auto).
      rewrite Es, flat_map_app in *. simpl in *.
      assert (forall l, ~ In t l -> flat_map (fun u => of_thread u ((t, o, r) :: log)) l = flat_map (fun u => of_thread u log) l) as Hne.
      { induction l as [|u l IHl]; intros Hn; simpl; auto. rewrite IHl by (intros K; apply Hn; right; auto).
        unfold of_thread at 1. simpl. assert (Nat.eqb t u = false) as -> by (apply Nat.eqb_neq; intros ->; apply Hn; left; auto). reflexivity. }
      rewrite !Hne by (rewrite in_seq; lia).
      unfold of_thread at 2. simpl. rewrite Nat.eqb_refl. simpl. fold (of_thread t log).
      etransitivity; [|apply perm_skip; exact IH']. symmetry. apply Permutation_middle.
  Qed.
  Lemma log_below (log : list (nat * O * R)) programs (c : cfg) n : accounts_for log programs c -> (forall t, (n <= t)%nat -> programs t = []) ->
    forall e, In e log -> (fst (fst e) < n)%nat.
  Proof.
    intros HA Hn e He. pose proof (log_in programs log c HA e He) as H. destruct (Nat.lt_ge_cases (fst (fst e)) n) as [L|L]; auto.
    rewrite Hn in H by auto. destruct H.
  Qed.
End Generic.

(** ** AtomicNumber *)
Lemma number_body_ok o : no_mod o -> forall v, run_code v (number_body o) = number_effect v o.
Proof.
  intros H v. destruct o as [b n|b n|b n|c n|u|]; try reflexivity; destruct b; try destruct H; simpl; try reflexivity;
    destruct (_ : bool); reflexivity.
Qed.

Lemma sum_app a b : sum (a ++ b) = sum a + sum b.
Proof. induction a; simpl; lia. Qed.
Lemma sum_perm a b : Permutation a b -> sum a = sum b.
Proof. induction 1; simpl; lia. Qed.

Definition amount (o : number_op) : Z := match o with InPlace Add n => n | InPlace Sub n => - n | _ => 0 end.
Lemma serial_sum log : forall s s', serially number_effect s log s' -> Forall (fun e => exists n, snd (fst e) = InPlace Add n) log ->
  s' = s + sum (map (fun e => amount (fst e)) (strip _ _ log)).
Proof.
  induction log as [|[[t o] r] log IH]; simpl; intros s s' H F.
  - lia.
  - inversion F as [|? ? [n Hn] F']; subst. simpl in *. subst o. destruct H as [_ H]. apply IH in H; auto. simpl in *. lia.
Qed.

Lemma no_lost_updates s amounts n sch :
  (forall t, (n <= t)%nat -> amounts t = []) ->
  let c := exec number_body (start (res answer) s (fun t => map (InPlace Add) (amounts t))) sch in
  all_over n c -> shared c = s + sum (map (fun t => sum (amounts t)) (seq 0 n)).
Proof.
  intros Hn c Ho. set (programs := fun t => map (InPlace Add) (amounts t)) in *.
  destruct (reach_inv _ _ _ number_body s programs sch) as [log HI]. fold c in HI.
  assert (forall t, (n <= t)%nat -> programs t = []) as Hp by (intros t Ht; unfold programs; rewrite Hn; auto).
  pose proof (over_free _ _ _ _ _ _ _ _ _ HI Hp Ho) as Hl.
  assert (forall t o, In o (programs t) -> forall v, run_code v (number_body o) = number_effect v o) as Hb.
  { intros t o Hin. apply number_body_ok. apply in_map_iff in Hin. destruct Hin as (x & <- & _). exact I. }
  pose proof (Inv_explains _ _ _ _ _ _ Hb _ _ _ HI) as (HA & s' & HS & Hs). rewrite Hs by auto.
  rewrite (serial_sum _ _ _ HS).
  2:{ apply Forall_forall. intros e He. pose proof (log_in _ _ _ _ _ _ HA e He) as Hin. apply in_map_iff in Hin. destruct Hin as (x & Hx & _). eauto. }
  f_equal. rewrite <- (sum_perm _ _ (Permutation_map _ (by_thread _ _ log n (log_below _ _ _ _ _ _ _ HA Hp)))).
  assert (forall l, (forall t, In t l -> (t < n)%nat) ->
     sum (map (fun e => amount (fst e)) (flat_map (fun t => of_thread t log) l)) = sum (map (fun t => sum (amounts t)) l)) as G.
  { induction l as [|t l IH]; intros Hl'; simpl; auto. rewrite map_app, sum_app, IH by (intros; apply Hl'; right; auto). f_equal.
    destruct (HA t) as [H1 _]. rewrite (Ho t) in H1 by (apply Hl'; left; auto). rewrite app_nil_r in H1.
    rewrite <- (map_map fst amount), <- H1. unfold programs. rewrite map_map. simpl. rewrite map_id. reflexivity. }
  apply G. intros t Ht. apply in_seq in Ht. lia.
Qed.

(** ** MonitorSet *)
Section Sets.
  Variable A : Type.
  Variable eqb : A -> A -> bool.
  Hypothesis He : forall x y, eqb x y = true <-> x = y.
  Let body := insert_and_check eqb.

  Lemma insert_body_ok o s : run_code s (body o) = insert_effect eqb s o.
  Proof. unfold body, insert_and_check, insert_effect. simpl. destruct (memb eqb o s); reflexivity. Qed.

  Lemma memb_cons x y s : memb eqb x (y :: s) = eqb y x || memb eqb x s.
  Proof. reflexivity. Qed.

  Lemma serial_insert x log : forall s s', serially (insert_effect eqb) s log s' ->
    let mine := filter (fun e => eqb (fst e) x) (strip _ _ log) in
    length (filter snd mine) = (if memb eqb x s then 0 else match mine with [] => 0 | _ => 1 end)%nat /\
    (forall y, In y s -> In y s') /\ (mine <> [] -> In x s').
  Proof.
    induction log as [|[[t o] r] log IH]; simpl; intros s s' H.
    - subst. split; [destruct (memb eqb x s'); auto|]. split; auto. intros K; destruct (K eq_refl).
    - destruct H as [-> H]. specialize (IH _ _ H). simpl in IH. unfold insert_effect in *.
      destruct IH as (I1 & I2 & I3). destruct (eqb o x) eqn:E.
      + apply He in E. subst o. simpl. destruct (memb eqb x s) eqn:Em; simpl in *.
        * rewrite ?Em in *. split; [rewrite I1; reflexivity|]. split; auto. intros _. apply I2. apply (memb_In He). auto.
        * rewrite ?memb_cons in I1. assert (eqb x x = true) as Ex by (apply He; auto). rewrite Ex in I1. simpl in I1. rewrite I1.
          split; auto.
      + destruct (memb eqb o s) eqn:Em; simpl in *; [auto|]. rewrite ?memb_cons, E in I1. simpl in I1. auto.
  Qed.

  Lemma combine_fst_snd {X Y} (l : list (X * Y)) rest : combine (map fst l ++ rest) (map snd l) = l.
  Proof. induction l as [|[a b] l IH]; simpl; [destruct rest; reflexivity|rewrite IH; reflexivity]. Qed.

  Lemma filter_flat_map {X Y} (p : Y -> bool) (f : X -> list Y) l : filter p (flat_map f l) = flat_map (fun x => filter p (f x)) l.
  Proof. induction l; simpl; auto. rewrite filter_app, IHl. reflexivity. Qed.
  Lemma filter_perm {X} (p : X -> bool) a b : Permutation a b -> Permutation (filter p a) (filter p b).
  Proof.
    induction 1; simpl; auto.
    - destruct (p x); auto.
    - destruct (p x), (p y); auto. constructor.
    - etransitivity; eauto.
  Qed.

  (** the element stays while somebody is inside *)
  Lemma reaches_grows s o s1 k : reaches _ _ s (body o) s1 k ->
    (forall y, In y s -> In y s1) /\
    (k = body o \/ (exists b, k = Return b) \/ k = Step (fun s => (o :: s, Return true))).
  Proof.
    intros H. remember (body o) as k0 eqn:E0. induction H as [|s1 f H IH].
    - auto.
    - destruct IH as [I1 I2]. subst k0. destruct I2 as [I2|[[b I2]|I2]]; [|discriminate|].
      + injection I2 as ->. simpl. split; auto. destruct (memb eqb o s1); eauto.
      + injection I2 as ->. simpl. split; [|eauto]. intros; right; auto.
  Qed.

  Lemma insert_once s programs n sch x :
    (forall t, (n <= t)%nat -> programs t = []) ->
    let c := exec body (start bool s programs) sch in
    let over := calls_over eqb programs c x n in
    length (filter snd over) = (if memb eqb x s then 0 else match over with [] => 0 | _ => 1 end)%nat /\
    (over <> [] -> In x (shared c)) /\ (forall y, In y s -> In y (shared c)).
  Proof.
    intros Hn c over. destruct (reach_inv _ _ _ body s programs sch) as [log HI]. fold c in HI.
    pose proof (Inv_explains _ _ _ _ (insert_effect eqb) programs (fun t o _ s => insert_body_ok o s) _ _ _ HI) as (HA & s' & HS & _).
    destruct HI as (_ & s2 & HS2 & HL).
    assert (s2 = s') as ->.
    { clear -HS HS2. revert s HS HS2. induction log as [|[[t o] r] log IH]; simpl; intros s H1 H2; [congruence|].
      destruct H1 as [_ H1], H2 as [_ H2]. unfold eff in H2. rewrite insert_body_ok in H2. eauto. }
    assert (forall y, In y s' -> In y (shared c)) as Hsh.
    { destruct (lock c) as [t|]; [|destruct HL as [-> _]; auto]. destruct HL as [(o & rest & k & _ & _ & Hr) _].
      apply reaches_grows in Hr. tauto. }
    assert (Permutation over (filter (fun e => eqb (fst e) x) (strip _ _ log))) as HP.
    { unfold over, calls_over. etransitivity; [|apply filter_perm, (by_thread _ _ log n (log_below _ _ _ _ _ _ _ HA Hn))].
      rewrite filter_flat_map. assert (forall l, flat_map (Monitor_Spec.over eqb programs c x) l =
         flat_map (fun t => filter (fun e => eqb (fst e) x) (of_thread t log)) l) as ->; [|reflexivity].
      induction l as [|t l IH]; simpl; auto. rewrite IH. f_equal. unfold Monitor_Spec.over. destruct (HA t) as [H1 H2].
      rewrite H1, H2, combine_fst_snd. reflexivity. }
    destruct (serial_insert x log s s' HS) as (I1 & I2 & I3).
    rewrite (Permutation_length (filter_perm snd _ _ HP)), I1. split.
    - destruct (memb eqb x s); auto. destruct over as [|e over'].
      + apply Permutation_nil in HP. rewrite HP. reflexivity.
      + destruct (filter _ (strip _ _ log)); auto. apply Permutation_sym, Permutation_nil in HP. discriminate.
    - split; auto. intros K. apply Hsh, I3. intros E. rewrite E in HP. apply Permutation_sym, Permutation_nil in HP. auto.
  Qed.
End Sets.

(** ** Locks of two numbers *)
Lemma itself sch : forall c, calls (lockers c 0%nat) = [(0, 0)%nat] ->
  (at_ (lockers c 0%nat) = Want /\ held c 0%nat = Some 0%nat) -> (forall t, t <> 0%nat -> calls (lockers c t) = []) ->
  finished (lockers (lock_exec c sch) 0%nat) = finished (lockers c 0%nat).
Proof.
  induction sch as [|t sch IH]; intros c Hc Ha Ho; simpl; auto.
  assert (lock_turn c t = c) as ->; [|apply IH; auto].
  unfold lock_turn. destruct (Nat.eq_dec t 0) as [->|N]; [|rewrite Ho; auto].
  rewrite Hc. destruct Ha as [-> ->]; auto.
Qed.
Lemma itself_ok sch : finished (lockers (lock_exec (start_locks (fun t => if Nat.eqb t 0 then [(0, 0)%nat] else [])) sch) 0%nat) = 0%nat.
Proof.
  induction sch as [|t sch IH]; auto. simpl. destruct t as [|t]; [|exact IH].
  rewrite itself; simpl; auto. intros t N. unfold fset. destruct t; [lia|]. reflexivity.
Qed.

Lemma stuck sch c : calls (lockers c 0%nat) = [(0, 1)%nat] -> calls (lockers c 1%nat) = [(1, 0)%nat] ->
  at_ (lockers c 0%nat) = Want -> at_ (lockers c 1%nat) = Want -> held c 0%nat <> None -> held c 1%nat <> None ->
  (forall t, (2 <= t)%nat -> calls (lockers c t) = []) -> lock_exec c sch = c.
Proof.
  intros H0 H1 A0 A1 K0 K1 Ho. induction sch as [|t sch IH]; simpl; auto.
  assert (lock_turn c t = c) as ->; auto.
  unfold lock_turn. destruct t as [|[|t]].
  - rewrite H0, A0. destruct (held c 1%nat); auto. destruct (K1 eq_refl).
  - rewrite H1, A1. destruct (held c 0%nat); auto. destruct (K0 eq_refl).
  - rewrite Ho by lia. reflexivity.
Qed.

(** ** The issuer and the allocator, called from many threads *)
From Verif Require Import IDAlloc_Model IDAlloc_Spec IDAlloc_Proofs.
Lemma serial_si log : forall start s', serially (fun s o => let (x, s') := si_step s o in (s', x)) start log s' ->
  map snd log = fst (si_run start (map (fun e => snd (fst e)) log)).
Proof.
  induction log as [|[[t o] r] log IH]; simpl; intros s s' H; auto.
  destruct (si_step s o) as [x s1]. simpl in H. destruct H as [-> H]. rewrite (IH _ _ H). destruct (si_run s1 _). reflexivity.
Qed.
Lemma serial_ida start_at top_limit log : forall s s', serially (ida_step start_at top_limit) s log s' ->
  map snd log = fst (ida_run start_at top_limit s (map (fun e => snd (fst e)) log)).
Proof.
  induction log as [|[[t o] r] log IH]; simpl; intros s s' H; auto.
  destruct (ida_step start_at top_limit s o) as [s1 x]. simpl in H. destruct H as [-> H]. rewrite (IH _ _ H). destruct (ida_run _ _ s1 _). reflexivity.
Qed.

Lemma si_concurrent body start programs sch :
  (forall o s, run_code s (body o) = let (x, s') := si_step s o in (s', x)) ->
  exists log, accounts_for log programs (exec body (Monitor_Model.start Z start programs) sch) /\
    issued [] (map (fun e => snd (fst e)) log) (map snd log).
Proof.
  intros Hb. destruct (serializable_ok _ _ _ body (fun s o => let (x, s') := si_step s o in (s', x)) programs (fun t o _ s => Hb o s) start sch)
    as (log & HA & s' & HS & _).
  exists log. split; auto. rewrite (serial_si _ _ _ HS). exact (si_run_issued _ start [] (fun y (f : In y []) => match f with end)).
Qed.
Lemma ida_concurrent body start_at top_limit programs sch :
  (forall o s, run_code s (body o) = ida_step start_at top_limit s o) ->
  exists log, accounts_for log programs (exec body (Monitor_Model.start ida_out ia_init programs) sch) /\
    ida_session (ident_call start_at top_limit) none_held (map (fun e => snd (fst e)) log) (map snd log).
Proof.
  intros Hb. destruct (serializable_ok _ _ _ body (ida_step start_at top_limit) programs (fun t o _ s => Hb o s) ia_init sch)
    as (log & HA & s' & HS & _).
  exists log. split; auto. rewrite (serial_ida _ _ _ _ _ HS).
  exact (ident_session_ok start_at top_limit _ ia_init none_held
           (ia_init_inv top_limit) (fun y => conj (fun f : False => f) (fun f : False => f))).
Qed.
