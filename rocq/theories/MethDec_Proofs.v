From Coq Require Import Lia.
From Verif Require Import Prelude PreludeFacts MoreFacts MethDec_Model MethDec_Spec.
Set Implicit Arguments.

Section CachedP.
  Variables V S : Type.
  Variable veq : V -> V -> bool.
  Variable not_loaded : V.
  Variable fun_ : nat -> S -> S * res V.
  Notation step := (cstep veq not_loaded fun_).
  Notation run := (crun veq not_loaded fun_).

  Lemma keep_attr : forall l s o, veq (attr s o) not_loaded = false -> (forall v, ~ In (Assign o v) l) ->
    attr (run s l) o = attr s o /\ count_occ Nat.eq_dec (calls (run s l)) o = count_occ Nat.eq_dec (calls s) o.
  Proof.
    induction l as [|op l IH]; intros s o H N; [auto|].
    cbn [crun fold_left]. change (fold_left _ l ?x) with (run x l).
    assert (N' : forall v, ~ In (Assign o v) l) by (intros v I; apply (N v); right; auto).
    destruct op as [p|p v]; cbn [cstep fst].
    - unfold cached_get. destruct (Nat.eq_dec p o) as [->|Hp].
      + rewrite H. cbn. apply IH; auto.
      + destruct (veq (attr s p) not_loaded); [|apply IH; auto].
        destruct (fun_ p (rest s)) as [r [v|e]]; cbn [fst].
        * match goal with |- context [run ?x l] => set (x0 := x) end.
          assert (A : attr x0 o = attr s o).
          { unfold x0. cbn. destruct (Nat.eqb_spec o p); [congruence|auto]. }
          destruct (IH x0 o) as [A1 A2]; auto. { rewrite A; auto. }
          rewrite A1, A2, A. split; auto. unfold x0. cbn. rewrite count_occ_app. cbn.
          destruct (Nat.eq_dec p o); [congruence|lia].
        * match goal with |- context [run ?x l] => set (x0 := x) end.
          destruct (IH x0 o) as [A1 A2]; auto. rewrite A1, A2. split; auto.
          unfold x0. cbn. rewrite count_occ_app. cbn. destruct (Nat.eq_dec p o); [congruence|lia].
    - destruct (Nat.eq_dec p o) as [->|Hp]; [exfalso; apply (N v); left; auto|].
      match goal with |- context [run ?x l] => set (x0 := x) end.
      assert (A : attr x0 o = attr s o). { unfold x0. cbn. destruct (Nat.eqb_spec o p); [congruence|auto]. }
      destruct (IH x0 o) as [A1 A2]; auto. { rewrite A; auto. }
      rewrite A1, A2, A. auto.
  Qed.
  Lemma get_ok s o s' v : cached_get veq not_loaded fun_ s o = (s', Ok v) -> attr s' o = v.
  Proof.
    unfold cached_get. destruct (veq (attr s o) not_loaded) eqn:E.
    - destruct (fun_ o (rest s)) as [r [w|e]]; intros [= <- <-]; cbn. now rewrite Nat.eqb_refl.
    - intros [= <- <-]; auto.
  Qed.
End CachedP.

(** ** the heap *)
(** an element of a copy *)
Definition fresh (b : nat) (v : val) : Prop := match v with Imm _ => True | Ref n => b <= n end.
Definition look (memo : list (nat * nat)) (n : nat) : nat := match dget Nat.eqb memo n with Some m => m | None => 0 end.
Definition known (memo : list (nat * nat)) (v : val) : Prop := match v with Imm _ => True | Ref n => dget Nat.eqb memo n <> None end.

Section Deep.
  Variable h0 : heap.
  Notation b := (next h0).
  (* originals untouched; new cells refer to new cells; the memo goes from old to new *)
  Record inv (h : heap) (memo : list (nat * nat)) : Prop := {
    i_next : b <= next h;
    i_old : forall n, n < b -> cells h n = cells h0 n;
    i_new : forall n, b <= n -> n < next h -> Forall (fun v => fresh b v /\ good h v) (cells h n);
    i_memo : forall n m, dget Nat.eqb memo n = Some m -> n < b /\ b <= m /\ m < next h;
    i_inj : forall n n' m, dget Nat.eqb memo n = Some m -> dget Nat.eqb memo n' = Some m -> n = n' }.
  Hypothesis C0 : closed h0.

  Definition ext (m m' : list (nat * nat)) := forall n x, dget Nat.eqb m n = Some x -> dget Nat.eqb m' n = Some x.
  (* what a copying does *)
  Definition post (h : heap) (memo : list (nat * nat)) (v : val) (h' : heap) (memo' : list (nat * nat)) (v' : val) : Prop :=
    inv h' memo' /\ ext memo memo' /\ next h <= next h' /\
    (forall n, b <= n -> n < next h -> cells h' n = cells h n) /\
    v' = via (look memo') v /\ known memo' v /\
    (forall n m, dget Nat.eqb memo n = None -> dget Nat.eqb memo' n = Some m ->
       next h <= m /\ cells h' m = map (via (look memo')) (cells h0 n) /\ Forall (known memo') (cells h0 n)).

  Lemma good_mono h h' v : next h <= next h' -> good h v -> good h' v.
  Proof. destruct v; cbn; lia. Qed.
  Lemma known_ext m m' v : ext m m' -> known m v -> known m' v.
  Proof. intros E. destruct v as [z|n]; cbn; auto. intros K. destruct (dget Nat.eqb m n) eqn:D; [|congruence]. rewrite (E _ _ D). discriminate. Qed.
  Lemma via_ext m m' v : ext m m' -> known m v -> via (look m') v = via (look m) v.
  Proof. intros E. destruct v as [z|n]; cbn; auto. intros K. unfold look. destruct (dget Nat.eqb m n) eqn:D; [|congruence]. now rewrite (E _ _ D). Qed.
  Lemma map_via_ext m m' l : ext m m' -> Forall (known m) l -> map (via (look m')) l = map (via (look m)) l.
  Proof. intros E F. apply map_ext_in. intros v I. apply via_ext; auto. rewrite Forall_forall in F. auto. Qed.
  Lemma via_fresh h memo v : inv h memo -> known memo v -> fresh b (via (look memo) v) /\ good h (via (look memo) v).
  Proof.
    intros I. destruct v as [z|n]; cbn; auto. intros K. unfold look.
    destruct (dget Nat.eqb memo n) as [m|] eqn:D; [|congruence]. destruct (i_memo I _ D); lia.
  Qed.

  Definition missing (memo : list (nat * nat)) : nat := length (filter (fun n => match dget Nat.eqb memo n with None => true | _ => false end) (seq 0 b)).
  Lemma missing_ext m m' : ext m m' -> missing m' <= missing m.
  Proof.
    intros E. unfold missing. induction (seq 0 b) as [|x l IH]; cbn; [lia|].
    destruct (dget Nat.eqb m x) eqn:D.
    - rewrite (E _ _ D). lia.
    - destruct (dget Nat.eqb m' x); cbn; lia.
  Qed.
  Lemma missing_less m m' n : ext m m' -> n < b -> dget Nat.eqb m n = None -> dget Nat.eqb m' n <> None -> missing m' < missing m.
  Proof.
    intros E L D D'. assert (I : In n (seq 0 b)) by (apply in_seq; lia). unfold missing.
    induction (seq 0 b) as [|x l IH]; [easy|]. cbn [filter].
    assert (LE : length (filter (fun n => match dget Nat.eqb m' n with None => true | _ => false end) l) <= length (filter (fun n => match dget Nat.eqb m n with None => true | _ => false end) l)).
    { clear -E. induction l as [|y l IH]; cbn; [lia|]. destruct (dget Nat.eqb m y) eqn:D; [rewrite (E _ _ D); lia|].
      destruct (dget Nat.eqb m' y); cbn; lia. }
    destruct I as [->|I].
    - rewrite D. destruct (dget Nat.eqb m' n); [cbn; lia|congruence].
    - specialize (IH I). destruct (dget Nat.eqb m x) eqn:Dx; [rewrite (E _ _ Dx); lia|].
      destruct (dget Nat.eqb m' x); cbn; lia.
  Qed.

  Lemma deep_ok : forall fuel h memo v, inv h memo -> good h0 v -> missing memo <= fuel ->
    exists h' memo' v', deep fuel h memo v = Some (h', memo', v') /\ post h memo v h' memo' v'.
  Proof.
    induction fuel as [|fuel IH]; intros h memo v I G M.
    - destruct v as [z|n].
      + exists h, memo, (Imm z). split; auto. unfold post. split; [auto|]. split; [red; auto|]. split; [lia|]. split; [auto|]. split; [auto|]. split; [exact Logic.I|]. intros; congruence.
      + cbn [deep]. destruct (dget Nat.eqb memo n) as [m|] eqn:D.
        * exists h, memo, (Ref m). split; auto. unfold post. split; [auto|]. split; [red; auto|]. split; [lia|]. split; [auto|].
          split; [cbn; unfold look; now rewrite D|]. split; [cbn; congruence|]. intros; congruence.
        * exfalso. cbn in G. assert (In n (filter (fun n => match dget Nat.eqb memo n with None => true | _ => false end) (seq 0 b))).
          { apply filter_In. split; [apply in_seq; lia|now rewrite D]. }
          unfold missing in M. destruct (filter _ _); [easy|cbn in M; lia].
    - destruct v as [z|n].
      + exists h, memo, (Imm z). split; auto. unfold post. split; [auto|]. split; [red; auto|]. split; [lia|]. split; [auto|]. split; [auto|]. split; [exact Logic.I|]. intros; congruence.
      + cbn [deep]. destruct (dget Nat.eqb memo n) as [m|] eqn:D.
        * exists h, memo, (Ref m). split; auto. unfold post. split; [auto|]. split; [red; auto|]. split; [lia|]. split; [auto|].
          split; [cbn; unfold look; now rewrite D|]. split; [cbn; congruence|]. intros; congruence.
        * cbn in G. set (m := next h).
          match goal with |- context [?f (cells h n) (alloc h []) _ []] => set (items := f) end.
          rewrite (i_old I) by auto.
          assert (P : forall l h1 memo1 done_src,
            cells h0 n = done_src ++ l -> inv h1 memo1 -> ext memo memo1 -> dget Nat.eqb memo1 n = Some m -> m < next h1 ->
            missing memo1 <= fuel ->
            (forall k, b <= k -> k < m -> cells h1 k = cells h k) ->
            cells h1 m = map (via (look memo1)) done_src -> Forall (known memo1) done_src ->
            (forall k x, dget Nat.eqb memo k = None -> k <> n -> dget Nat.eqb memo1 k = Some x ->
               m < x /\ cells h1 x = map (via (look memo1)) (cells h0 k) /\ Forall (known memo1) (cells h0 k)) ->
            exists h' memo' v', items l h1 memo1 (map (via (look memo1)) done_src) = Some (h', memo', v') /\ post h memo (Ref n) h' memo' v').
          { induction l as [|x l IHl]; intros h1 memo1 src E I1 X1 D1 L1 M1 K1 C1 F1 N1.
            - exists h1, memo1, (Ref m). split; [reflexivity|]. rewrite app_nil_r in E. unfold post.
              split; [auto|]. split; [auto|]. split; [unfold m in L1; lia|]. split; [auto|].
              split; [cbn; unfold look; now rewrite D1|]. split; [cbn; congruence|].
              intros k y Dk Dy. destruct (Nat.eq_dec k n) as [->|Hk].
              + assert (y = m) by congruence. subst y. rewrite E. unfold m. auto.
              + destruct (N1 k y Dk Hk Dy) as (A & B & B'). split; [unfold m in A; lia|auto].
            - change (items (x :: l) h1 memo1 (map (via (look memo1)) src)) with
                (match deep fuel h1 memo1 x with
                 | Some (h', memo', x') => items l (write h' m (map (via (look memo1)) src ++ [x'])) memo' (map (via (look memo1)) src ++ [x'])
                 | None => None end).
              assert (Gx : good h0 x).
              { pose proof (C0 G) as F. rewrite E in F. apply Forall_app in F. destruct F as [_ F]. now apply Forall_inv in F. }
              destruct (IH h1 memo1 x I1 Gx M1) as (h2 & memo2 & x' & E2 & I2 & X2 & L2 & K2 & V2 & Kn2 & N2).
              rewrite E2.
              assert (S2 : map (via (look memo1)) src ++ [x'] = map (via (look memo2)) (src ++ [x])).
              { rewrite map_app. cbn [map]. rewrite V2. f_equal. symmetry. apply map_via_ext; auto. }
              rewrite S2.
              assert (F2 : Forall (known memo2) (src ++ [x])).
              { apply Forall_app. split; [|constructor; auto]. eapply Forall_impl; [|exact F1]. intros v. apply known_ext; auto. }
              assert (bm : b <= m) by apply (i_next I).
              apply IHl.
              + rewrite <- app_assoc. exact E.
              + constructor; cbn.
                * apply I2.
                * intros k Hk. destruct (Nat.eqb_spec k m); [lia|]. apply (i_old I2); auto.
                * intros k Hk Hk'. destruct (Nat.eqb_spec k m) as [->|_].
                  -- apply Forall_map. eapply Forall_impl; [|exact F2]. intros v Kv. apply (via_fresh _ I2 Kv).
                  -- apply (i_new I2); auto.
                * apply (i_memo I2).
                * apply (i_inj I2).
              + intros k y Dk. apply X2, X1; auto.
              + apply X2; auto.
              + cbn. lia.
              + etransitivity; [apply (missing_ext X2)|auto].
              + intros k Hk Hk'. cbn. destruct (Nat.eqb_spec k m); [lia|]. rewrite K2 by lia. apply K1; auto.
              + cbn. now rewrite Nat.eqb_refl.
              + auto.
              + intros k y Dk Hk Dy. cbn. destruct (dget Nat.eqb memo1 k) as [y1|] eqn:D1k.
                * assert (y1 = y). { apply X2 in D1k. congruence. } subst y1.
                  destruct (N1 k y Dk Hk D1k) as (A & B & B'). split; [auto|].
                  destruct (Nat.eqb_spec y m); [lia|]. split.
                  -- destruct (i_memo I1 _ D1k) as (_ & Hy & Hy'). rewrite K2 by auto. rewrite B. symmetry. apply map_via_ext; auto.
                  -- eapply Forall_impl; [|exact B']. intros v. apply known_ext; auto.
                * destruct (N2 k y D1k Dy) as (A & B & B'). split; [lia|].
                  destruct (Nat.eqb_spec y m); [lia|]. split; auto. }
          apply (P (cells h0 n) (alloc h []) ((n, m) :: memo) []).
          -- reflexivity.
          -- constructor; cbn.
             ++ pose proof (i_next I). lia.
             ++ intros k Hk. destruct (Nat.eqb_spec k (next h)); [pose proof (i_next I); lia|]. apply (i_old I); auto.
             ++ intros k Hk Hk'. destruct (Nat.eqb_spec k (next h)); [constructor|].
                eapply Forall_impl; [|apply (i_new I); lia]. intros v [A B]. split; auto. eapply good_mono; [|exact B]. cbn. lia.
             ++ intros k y. destruct (Nat.eqb_spec n k) as [<-|Hk].
                ** intros [= <-]. pose proof (i_next I). unfold m. lia.
                ** intros Dy. destruct (i_memo I _ Dy). lia.
             ++ intros k k' y. destruct (Nat.eqb_spec n k) as [<-|Hk]; destruct (Nat.eqb_spec n k') as [<-|Hk']; auto.
                ** intros [= <-] Dy. destruct (i_memo I _ Dy) as (_ & _ & Q). unfold m in Q. lia.
                ** intros Dy [= <-]. destruct (i_memo I _ Dy) as (_ & _ & Q). unfold m in Q. lia.
                ** apply (i_inj I).
          -- intros k y Dk. cbn. destruct (Nat.eqb_spec n k) as [<-|Hk]; [congruence|auto].
          -- cbn. now rewrite Nat.eqb_refl.
          -- cbn. unfold m. lia.
          -- assert (missing ((n, m) :: memo) < missing memo); [|lia].
             apply missing_less with n; auto.
             ++ intros k y Dk. cbn. destruct (Nat.eqb_spec n k) as [<-|Hk]; [congruence|auto].
             ++ cbn. rewrite Nat.eqb_refl. discriminate.
          -- intros k Hk Hk'. cbn. destruct (Nat.eqb_spec k (next h)); [unfold m in Hk'; lia|auto].
          -- cbn. unfold m. now rewrite Nat.eqb_refl.
          -- constructor.
          -- intros k y Dk Hk. cbn. destruct (Nat.eqb_spec n k) as [<-|_]; [congruence|]. congruence.
  Qed.
End Deep.

(** whatever is below b keeps its contents and what is above refers only above *)
Record apart (b : nat) (h0 h : heap) : Prop := {
  a_next : b <= next h;
  a_old : forall n, n < b -> cells h n = cells h0 n;
  a_new : forall n, b <= n -> n < next h -> Forall (fun v => fresh b v /\ good h v) (cells h n) }.

Lemma apart_closed h0 h : closed h0 -> apart (next h0) h0 h -> closed h.
Proof.
  intros C A n L. destruct (Nat.lt_ge_cases n (next h0)) as [Q|Q].
  - rewrite (a_old A) by auto. eapply Forall_impl; [|apply C; auto]. intros v. destruct v; cbn; auto. pose proof (a_next A). lia.
  - eapply Forall_impl; [|apply (a_new A); auto]. intros v [_ B]; auto.
Qed.
Lemma apart_trans h0 h1 h2 : apart (next h0) h0 h1 -> apart (next h1) h1 h2 -> apart (next h0) h0 h2.
Proof.
  intros A B. pose proof (a_next A) as LA. pose proof (a_next B) as LB. constructor.
  - lia.
  - intros n L. rewrite (a_old B) by lia. apply A; auto.
  - intros n L L'. destruct (Nat.lt_ge_cases n (next h1)) as [Q|Q].
    + rewrite (a_old B) by auto. eapply Forall_impl; [|apply (a_new A); auto]. intros v [F G]. split; auto. destruct v; cbn in *; auto; lia.
    + eapply Forall_impl; [|apply (a_new B); auto]. intros v [F G]. split; auto. destruct v; cbn in *; auto; lia.
Qed.

Lemma missing_nil h : missing h [] = next h.
Proof. unfold missing. cbn. transitivity (length (seq 0 (next h))); [|apply seq_length]. f_equal. induction (seq 0 (next h)); cbn; congruence. Qed.

Lemma reach_known h0 memo v : known memo v -> (forall n m, dget Nat.eqb memo n = Some m -> Forall (known memo) (cells h0 n)) ->
  forall n, reach h0 [v] n -> dget Nat.eqb memo n <> None.
Proof.
  intros K F n R. induction R as [n [->|[]]|m n R IH I]; [exact K|].
  destruct (dget Nat.eqb memo m) as [y|] eqn:D; [|congruence].
  specialize (F _ _ D). rewrite Forall_forall in F. exact (F _ I).
Qed.

Lemma deep_arg h v fuel : closed h -> good h v -> next h <= fuel ->
  exists h' memo' v', deep fuel h [] v = Some (h', memo', v') /\ apart (next h) h h' /\ fresh (next h) v' /\ good h' v' /\ is_copy h v h' v'.
Proof.
  intros C G L.
  assert (I0 : inv h h []).
  { constructor; auto; intros; try discriminate. lia. }
  destruct (@deep_ok h C fuel h [] v I0 G) as (h' & memo' & v' & E & I & _ & _ & _ & V & K & N).
  { rewrite missing_nil. auto. }
  exists h', memo', v'. split; [auto|].
  split; [constructor; apply I|].
  destruct (via_fresh v I K) as [F G'].
  split; [now rewrite V|]. split; [now rewrite V|].
  assert (RK : forall n, reach h [v] n -> dget Nat.eqb memo' n <> None).
  { apply reach_known; auto. intros n m D. apply (N n m); auto. }
  exists (look memo'). split; [auto|]. split.
  - intros n R. pose proof (RK n R) as Q. unfold look at 1. destruct (dget Nat.eqb memo' n) as [m|] eqn:D; [|congruence].
    apply (N n m); auto.
  - intros n m R R' Q. pose proof (RK n R) as A. pose proof (RK m R') as B. unfold look in Q.
    destruct (dget Nat.eqb memo' n) as [x|] eqn:D; [|congruence]. destruct (dget Nat.eqb memo' m) as [y|] eqn:D'; [|congruence].
    subst y. apply (i_inj I _ _ D D').
Qed.

Lemma is_copy_later h v h1 v1 h2 : closed h -> good h v -> is_copy h v h1 v1 -> apart (next h1) h1 h2 -> (forall n, reach h1 [v1] n -> n < next h1) ->
  is_copy h v h2 v1.
Proof.
  intros C G (f & E & F & J) A R1. exists f. split; auto. split; auto.
  assert (R : forall n, reach h [v] n -> reach h1 [v1] (f n)).
  { intros n R. induction R as [n [->|[]]|m n R IH I].
    - constructor. rewrite E. left; auto.
    - apply reach_in with (f m); auto. rewrite (F m R). change (Ref (f n)) with (via f (Ref n)). apply in_map; auto. }
  intros n Rn. rewrite (a_old A); auto.
Qed.

Lemma reach_good h vs : closed h -> Forall (good h) vs -> forall n, reach h vs n -> n < next h.
Proof.
  intros C F n R. induction R as [n I|m n R IH I].
  - rewrite Forall_forall in F. apply (F _ I).
  - pose proof (C m IH) as Q. rewrite Forall_forall in Q. apply (Q _ I).
Qed.

(** a value of [h] as seen in a heap grown from it *)
Lemma reach_old h0 h vs : apart (next h0) h0 h -> closed h0 -> Forall (good h0) vs -> forall n, reach h vs n -> reach h0 vs n /\ n < next h0.
Proof.
  intros A C F n R. induction R as [n I|m n R [IH L] I].
  - split; [constructor; auto|]. rewrite Forall_forall in F. apply (F _ I).
  - rewrite (a_old A) in I by auto. split; [eapply reach_in; eauto|].
    pose proof (C m L) as Q. rewrite Forall_forall in Q. apply (Q _ I).
Qed.
Lemma reach_grown h0 h vs : apart (next h0) h0 h -> closed h0 -> Forall (good h0) vs -> forall n, reach h0 vs n -> reach h vs n.
Proof.
  intros A C F n R. pose proof (reach_good C F) as L. induction R as [n I|m n R IH I]; [constructor; auto|].
  eapply reach_in; [exact IH|]. rewrite (a_old A) by (apply L; auto). auto.
Qed.
Lemma is_copy_earlier h0 h v h' v' : apart (next h0) h0 h -> closed h0 -> good h0 v -> is_copy h v h' v' -> is_copy h0 v h' v'.
Proof.
  intros A C G (f & E & F & J). exists f. split; auto.
  assert (GG : Forall (good h0) [v]) by (constructor; auto).
  split.
  - intros n R. rewrite (F n (reach_grown A C GG R)). rewrite (a_old A); auto. apply (reach_good C GG R).
  - intros n m R R'. apply J; apply (reach_grown A C GG); auto.
Qed.

Lemma copy_deep : forall args h h0, closed h0 -> apart (next h0) h0 h -> Forall (good h0) args ->
  exists h' args', copy_args true h args = Some (h', args') /\ apart (next h) h h' /\
    Forall (fun v => fresh (next h) v /\ good h' v) args' /\ Forall2 (fun v v' => is_copy h0 v h' v') args args'.
Proof.
  induction args as [|a t IH]; intros h h0 C A G.
  - exists h, []. split; [reflexivity|]. split; [|split; constructor]. constructor; auto; intros; lia.
  - inversion_clear G as [|? ? Ga Gt]. cbn [copy_args].
    assert (Ch : closed h) by (eapply apart_closed; eauto).
    assert (Gh : good h a) by (eapply good_mono; [|exact Ga]; apply A).
    destruct (@deep_arg h a (next h) Ch Gh) as (h1 & memo1 & a' & E & A1 & F1 & G1 & CP); [lia|].
    rewrite E.
    assert (A' : apart (next h0) h0 h1) by (eapply apart_trans; eauto).
    destruct (IH h1 h0 C A' Gt) as (h2 & t' & E2 & A2 & F2 & CP2).
    rewrite E2. exists h2, (a' :: t'). split; [reflexivity|]. split; [eapply apart_trans; eauto|]. split.
    + constructor.
      * split; auto. eapply good_mono; [|exact G1]. apply A2.
      * eapply Forall_impl; [|exact F2]. intros v [P Q]. split; auto. destruct v; cbn in *; auto. pose proof (a_next A1). lia.
    + constructor; auto. apply (is_copy_earlier A C Ga).
      eapply (is_copy_later Ch Gh CP A2).
      apply reach_good; [eapply apart_closed; eauto|]. constructor; auto.
Qed.

Lemma reach_fresh b h0 h vs : apart b h0 h -> Forall (fun v => fresh b v /\ good h v) vs -> forall n, reach h vs n -> b <= n /\ n < next h.
Proof.
  intros A F n R. induction R as [n I|m n R IH I].
  - rewrite Forall_forall in F. apply (F _ I).
  - pose proof (a_new A (proj1 IH) (proj2 IH)) as Q. rewrite Forall_forall in Q. apply (Q _ I).
Qed.

Lemma copy_shallow : forall args h, exists h' args', copy_args false h args = Some (h', args') /\ next h <= next h' /\
  (forall n, n < next h -> cells h' n = cells h n) /\
  Forall2 (fun v v' => match v with Imm z => v' = Imm z | Ref n => exists m, v' = Ref m /\ next h <= m /\ m < next h' /\ (n < next h -> cells h' m = cells h n) end) args args'.
Proof.
  induction args as [|a t IH]; intros h.
  - exists h, []. repeat split; auto.
  - cbn [copy_args]. destruct a as [z|n]; cbn [shallow].
    + destruct (IH h) as (h' & t' & E & L & K & F). rewrite E. exists h', (Imm z :: t'). repeat split; auto.
    + destruct (IH (alloc h (cells h n))) as (h' & t' & E & L & K & F). rewrite E. cbn in L.
      exists h', (Ref (next h) :: t'). split; [reflexivity|]. split; [lia|]. split.
      * intros k Hk. rewrite K by (cbn; lia). cbn. destruct (Nat.eqb_spec k (next h)); [lia|auto].
      * constructor.
        -- exists (next h). repeat split; try lia. intros _. rewrite K by (cbn; lia). cbn. now rewrite Nat.eqb_refl.
        -- clear E IH. induction F as [|v v' l l' Q0 F IHF]; constructor; auto. clear IHF F. revert Q0. destruct v as [z|k]; auto.
           intros (m & -> & B & B' & Q). exists m. cbn in B. repeat split; try lia. intros Hk.
           rewrite Q by (cbn; lia). cbn. destruct (Nat.eqb_spec k (next h)); [lia|auto].
Qed.
