From Coq Require Import Lia.
From Verif Require Import Prelude PreludeFacts MoreFacts KeyAware_Model KeyAware_Spec.
Set Implicit Arguments.

Scheme worth_min := Minimality for worth Sort Prop with comes_to_min := Minimality for comes_to Sort Prop.
Combined Scheme worth_both from worth_min, comes_to_min.

Section P.
  Context {K V : Type}.
  Variable eqb : K -> K -> bool.
  Hypothesis ok : eqb_ok eqb.
  Variable own : K -> option V.
  Variable factory : K -> prog K V.
  Notation worth := (worth own factory).
  Notation comes_to := (comes_to own factory).
  Notation getitem := (getitem eqb factory).
  Notation store := (store eqb).

  (** ** with heights *)
  Inductive wh : nat -> K -> res V -> Prop :=
  | h_own k v : own k = Some v -> wh 0 k (Ok v)
  | h_made n k r : own k = None -> ch n (factory k) r -> wh (S n) k r
  with ch : nat -> prog K V -> res V -> Prop :=
  | h_ret v : ch 0 (Ret v) (Ok v)
  | h_fail e : ch 0 (Fail e) (Err e)
  | h_ask n m k c a r : wh n k a -> ch m (c a) r -> ch (Nat.max n m) (Ask k c) r.
  Scheme wh_min := Minimality for wh Sort Prop with ch_min := Minimality for ch Sort Prop.
  Combined Scheme wh_both from wh_min, ch_min.
  Lemma h_worth : (forall n k r, wh n k r -> worth k r) /\ (forall n p r, ch n p r -> comes_to p r).
  Proof. apply wh_both; intros; econstructor; eauto. Qed.
  Lemma h_fun : (forall n k r, wh n k r -> forall m r', wh m k r' -> n = m /\ r = r') /\ (forall n p r, ch n p r -> forall m r', ch m p r' -> n = m /\ r = r').
  Proof.
    apply wh_both.
    - intros k v E m r' H. inversion H; subst; [split; congruence|congruence].
    - intros n k r E _ IH m r' H. inversion H; subst; [congruence|]. destruct (IH _ _ H1). split; congruence.
    - intros v m r' H. inversion H; auto.
    - intros e m r' H. inversion H; auto.
    - intros n m k c a r _ IH1 _ IH2 m' r' H. inversion H as [| |n2 m2 k2 c2 a2 r2 A B E1 E2 E3]; subst. destruct (IH1 _ _ A) as [-> ->]. destruct (IH2 _ _ B) as [-> ->]. auto.
  Qed.
  Lemma worth_h : (forall k r, worth k r -> exists n, wh n k r) /\ (forall p r, comes_to p r -> exists n, ch n p r).
  Proof.
    apply worth_both.
    - intros k v E. exists 0. now constructor.
    - intros k r E _ (n & H). exists (S n). now constructor.
    - intros v. exists 0. constructor.
    - intros e. exists 0. constructor.
    - intros k c a r _ (n & H1) _ (m & H2). exists (Nat.max n m). econstructor; eauto.
  Qed.
  Lemma worth_fun k r r' : worth k r -> worth k r' -> r = r'.
  Proof. intros A B. apply (proj1 worth_h) in A as (n & A). apply (proj1 worth_h) in B as (m & B). exact (proj2 (proj1 h_fun _ _ _ A _ _ B)). Qed.

  (** ** reads *)
  Record good (s : ka K V) : Prop := {
    g_own : forall k v, own k = Some v -> dget eqb (items s) k = Some v;
    g_items : forall k v, dget eqb (items s) k = Some v -> worth k (Ok v) }.
  Lemma good_own s k : good s -> dget eqb (items s) k = None -> own k = None.
  Proof. intros G E. destruct (own k) eqn:O; [|reflexivity]. apply (g_own G) in O. congruence. Qed.
  Lemma dget_store (s : ka K V) k v x : dget eqb (items (store s k v)) x = if eqb k x then Some v else dget eqb (items s) x.
  Proof.
    cbn [items store]. destruct (eqb k x) eqn:E.
    - apply ok in E. subst. apply (dget_dset_eq ok).
    - apply (dget_dset_neq ok). intros ->. assert (eqb k k = true) by now apply ok. congruence.
  Qed.
  Lemma good_store (s : ka K V) k v : good s -> worth k (Ok v) -> good (store s k v).
  Proof.
    intros G W. constructor; intros x u; rewrite dget_store.
    - intros O. destruct (eqb k x) eqn:E; [|now apply (g_own G)]. apply ok in E. subst x. assert (X : worth k (Ok u)) by now constructor.
      injection (worth_fun W X) as ->. reflexivity.
    - destruct (eqb k x) eqn:E; [|apply (g_items G)]. apply ok in E. subst x. intros [= <-]. exact W.
  Qed.
  Definition grows (s s' : ka K V) : Prop := exists new, calls s' = calls s ++ new /\
    (forall k v, dget eqb (items s) k = Some v -> dget eqb (items s') k = Some v).
  Definition read_ok (read : ka K V -> K -> ka K V * res V) : Prop := forall s k s' r, good s -> read s k = (s', r) ->
    good s' /\ (r <> Err Diverges -> worth k r) /\ grows s s'.
  Lemma grows_refl s : grows s s.
  Proof. exists []. rewrite app_nil_r. auto. Qed.
  Lemma grows_trans a b d : grows a b -> grows b d -> grows a d.
  Proof. intros (n1 & E1 & H1) (n2 & E2 & H2). exists (n1 ++ n2). rewrite E2, E1, app_assoc. auto. Qed.
  Lemma run_ok read p : read_ok read -> forall s s' r, good s -> run read p s = (s', r) -> good s' /\ (r <> Err Diverges -> comes_to p r) /\ grows s s'.
  Proof.
    intros R. induction p as [v|e|k c IH]; intros s s' r G; simpl.
    - intros [= <- <-]. split; [exact G|]. split; [constructor|apply grows_refl].
    - intros [= <- <-]. split; [exact G|]. split; [constructor|apply grows_refl].
    - destruct (read s k) as [s1 a] eqn:E. destruct (R _ _ _ _ G E) as (G1 & W & S1).
      assert (D : a = Err Diverges \/ a <> Err Diverges) by (destruct a as [|[]]; auto; right; discriminate).
      destruct D as [->|D].
      + intros [= <- <-]. split; [exact G1|]. split; [congruence|exact S1].
      + intros H. replace (match a with Err Diverges => (s1, Err Diverges) | _ => run read (c a) s1 end) with (run read (c a) s1) in H
          by (destruct a as [|[]]; congruence).
        destruct (IH _ _ _ _ G1 H) as (G' & W' & S'). split; [exact G'|]. split; [|eapply grows_trans; eauto].
        intros N. econstructor; [apply W; exact D|auto].
  Qed.
  Lemma getitem_eq f s k : getitem f s k = match dget eqb (items s) k with
    | Some v => (s, Ok v)
    | None => match f with
              | O => (s, Err Diverges)
              | S f => match run (getitem f) (factory k) {| items := items s; calls := calls s ++ [k] |} with
                       | (s', Ok v) => (store s' k v, Ok v)
                       | (s', Err e) => (s', Err e)
                       end
              end
    end.
  Proof.
    destruct f; [reflexivity|]. cbn [KeyAware_Model.getitem]. destruct (dget eqb (items s) k); [reflexivity|]. destruct (run _ _ _) as [s' [v|e]]; [|reflexivity].
    rewrite dget_store. assert (eqb k k = true) as -> by now apply ok. reflexivity.
  Qed.
  Lemma getitem_ok f : read_ok (getitem f).
  Proof.
    induction f as [|f IH]; intros s k s' r G; rewrite getitem_eq; destruct (dget eqb (items s) k) as [v|] eqn:E.
    - intros [= <- <-]. split; [exact G|]. split; [intros _; now apply (g_items G)|apply grows_refl].
    - intros [= <- <-]. split; [exact G|]. split; [congruence|apply grows_refl].
    - intros [= <- <-]. split; [exact G|]. split; [intros _; now apply (g_items G)|apply grows_refl].
    - set (s1 := {| items := items s; calls := calls s ++ [k] |}). assert (G1 : good s1) by (destruct G; now constructor).
      assert (S1 : grows s s1) by (exists [k]; split; auto). pose proof (@good_own _ _ G E) as O.
      destruct (run (getitem f) (factory k) s1) as [s2 [v|e]] eqn:R; destruct (run_ok (factory k) IH G1 R) as (G2 & W & S2).
      + assert (Wk : worth k (Ok v)) by (apply w_made; auto; apply W; discriminate). intros [= <- <-].
        split; [now apply good_store|]. split; [auto|]. apply (grows_trans S1). apply (grows_trans S2). exists []. rewrite app_nil_r. split; [reflexivity|].
        intros x u H. rewrite dget_store. destruct (eqb k x) eqn:X; [|exact H]. apply ok in X. subst x. apply (g_items G2) in H.
        pose proof (worth_fun H Wk). congruence.
      + intros [= <- <-]. split; [exact G2|]. split; [|eapply grows_trans; eauto]. intros N. apply w_made; auto.
  Qed.

  (** ** each key is made once *)
  Section Once.
    Hypothesis total : forall k r, worth k r -> exists v, r = Ok v.
    Definition news (n : nat) (s s' : ka K V) : Prop := exists new, calls s' = calls s ++ new /\ NoDup new /\
      (forall x, In x new -> dget eqb (items s) x = None /\ dget eqb (items s') x <> None /\ exists m r, wh m x r /\ m <= n) /\
      (forall x, dget eqb (items s) x <> None -> dget eqb (items s') x <> None).
    Definition read_once (read : ka K V -> K -> ka K V * res V) : Prop := forall s k s' r, good s -> read s k = (s', r) -> r <> Err Diverges ->
      exists n, wh n k r /\ news n s s'.
    Lemma news_refl n s : news n s s.
    Proof. exists []. rewrite app_nil_r. repeat split; auto; try constructor; contradiction. Qed.
    Lemma news_trans n m s s1 s2 : news n s s1 -> news m s1 s2 -> news (Nat.max n m) s s2.
    Proof.
      intros (a & E1 & N1 & H1 & M1) (b & E2 & N2 & H2 & M2). exists (a ++ b). rewrite E2, E1, app_assoc. split; [reflexivity|]. split; [|split].
      - apply NoDup_app_intro; auto. intros x A B. destruct (H1 _ A) as (_ & X & _). destruct (H2 _ B) as (Y & _). contradiction.
      - intros x H. apply in_app_or in H as [H|H].
        + destruct (H1 _ H) as (A & B & m' & r & C & D). split; [exact A|]. split; [auto|]. exists m', r. split; [exact C|lia].
        + destruct (H2 _ H) as (A & B & m' & r & C & D). split; [|split; [exact B|exists m', r; split; [exact C|lia]]].
          destruct (dget eqb (items s) x) eqn:X; [|reflexivity]. exfalso. apply (M1 x); congruence.
      - auto.
    Qed.
    Lemma run_once read p : read_ok read -> read_once read -> forall s s' r, good s -> run read p s = (s', r) -> r <> Err Diverges ->
      exists n, ch n p r /\ news n s s'.
    Proof.
      intros R0 R. induction p as [v|e|k c IH]; intros s s' r G; simpl.
      - intros [= <- <-] _. exists 0. split; [constructor|apply news_refl].
      - intros [= <- <-] _. exists 0. split; [constructor|apply news_refl].
      - destruct (read s k) as [s1 a] eqn:E. intros H N. assert (D : a <> Err Diverges) by (intros ->; congruence).
        destruct (R0 _ _ _ _ G E) as (G1 & _ & _). destruct (R _ _ _ _ G E D) as (n & W & S1).
        replace (match a with Err Diverges => (s1, Err Diverges) | _ => run read (c a) s1 end) with (run read (c a) s1) in H by (destruct a as [|[]]; congruence).
        destruct (IH _ _ _ _ G1 H N) as (m & C & S2). exists (Nat.max n m). split; [econstructor; eauto|eapply news_trans; eauto].
    Qed.
    Lemma getitem_once f : read_once (getitem f).
    Proof.
      induction f as [|f IH]; intros s k s' r G; rewrite getitem_eq; destruct (dget eqb (items s) k) as [v|] eqn:E; try congruence.
      - intros [= <- <-] _. destruct (proj1 worth_h _ _ (g_items G _ E)) as (n & W). exists n. split; [exact W|apply news_refl].
      - intros [= <- <-] _. destruct (proj1 worth_h _ _ (g_items G _ E)) as (n & W). exists n. split; [exact W|apply news_refl].
      - set (s1 := {| items := items s; calls := calls s ++ [k] |}). assert (G1 : good s1) by (destruct G; now constructor).
        pose proof (@good_own _ _ G E) as O.
        destruct (run (getitem f) (factory k) s1) as [s2 x] eqn:R. intros H N.
        assert (X : x <> Err Diverges) by (intros ->; congruence).
        destruct (run_once (factory k) (@getitem_ok f) IH G1 R X) as (n & C & new & E2 & ND & F & M).
        assert (W : wh (S n) k x) by now constructor. destruct (total (proj1 h_worth _ _ _ W)) as (v & ->). injection H as <- <-.
        exists (S n). split; [exact W|]. exists (k :: new). cbn [calls store]. rewrite E2. unfold s1 at 1. cbn [calls]. rewrite <- app_assoc. split; [reflexivity|].
        cbn [items] in F, M. unfold s1 in F, M. cbn [items] in F, M. split; [|split].
        + constructor; [|exact ND]. intros I. destruct (F _ I) as (_ & _ & m & r & Wm & L). destruct (proj1 h_fun _ _ _ W _ _ Wm). lia.
        + intros y [<-|I].
          * split; [exact E|]. split; [rewrite dget_store; assert (eqb k k = true) as -> by (now apply ok); discriminate|]. eauto.
          * destruct (F _ I) as (A & B & m & r & Wm & L). split; [exact A|]. split; [rewrite dget_store; destruct (eqb k y); [discriminate|exact B]|].
            exists m, r. split; [exact Wm|lia].
        + intros y A. rewrite dget_store. destruct (eqb k y); [discriminate|auto].
    Qed.
  End Once.
End P.

(** ** users' calls *)
Section Users.
  Context {K V : Type}.
  Variable eqb : K -> K -> bool.
  Hypothesis ok : eqb_ok eqb.
  Variable factory : K -> prog K V.
  Notation ka_step := (ka_step eqb factory).
  Notation ka_run := (ka_run eqb factory).
  Section Reads.
    Variable d0 : dict K V.
    Notation own := (dget eqb d0).
    Notation good := (good eqb own factory).
    Notation worth := (worth own factory).
    Definition told (o : op K V) (x : out K V) : Prop :=
      match o with
      | KGet k => match x with OVal v => worth k (Ok v) | ORaise e => e <> Diverges -> worth k (Err e) | _ => False end
      | KIn k => match x with OBool true => exists v, worth k (Ok v) | OBool false => worth k (Err KeyError) | ORaise e => e <> Diverges -> worth k (Err e) | _ => False end
      | KGetDefault k v => match x with OVal u => worth k (Ok u) \/ (u = v /\ worth k (Err KeyError)) | ORaise e => e <> Diverges -> worth k (Err e) | _ => False end
      | _ => True
      end.
    Lemma step_reads f s o s' x : good s -> reading o -> ka_step f s o = (s', x) -> good s' /\ told o x.
    Proof.
      intros G R. destruct o; simpl in R; try contradiction; simpl.
      - destruct (getitem eqb factory f s k) as [s1 r] eqn:E. destruct (getitem_ok ok f k G E) as (G1 & W & _). intros [= <- <-]. split; [exact G1|].
        destruct r as [v|e]; simpl; [apply W; discriminate|]. intros N. apply W. congruence.
      - intros [= <- <-]. auto.
      - intros [= <- <-]. auto.
      - destruct (getitem eqb factory f s k) as [s1 r] eqn:E. destruct (getitem_ok ok f k G E) as (G1 & W & _).
        destruct r as [v|e]; [intros [= <- <-]; split; [exact G1|]; exists v; apply W; discriminate|].
        destruct e; intros [= <- <-]; (split; [exact G1|]); simpl; try (intros N; apply W; congruence); apply W; discriminate.
      - destruct (getitem eqb factory f s k) as [s1 r] eqn:E. destruct (getitem_ok ok f k G E) as (G1 & W & _).
        destruct r as [u|e]; [intros [= <- <-]; split; [exact G1|]; left; apply W; discriminate|].
        destruct e; intros [= <- <-]; (split; [exact G1|]); simpl; try (intros N; apply W; congruence). right. split; [reflexivity|]. apply W; discriminate.
    Qed.
    Lemma run_reads f l : forall s xs s', good s -> Forall reading l -> ka_run f s l = (xs, s') -> good s' /\ Forall2 told l xs.
    Proof.
      induction l as [|o l IH]; intros s xs s' G F; simpl; [intros [= <- <-]; auto|]. inversion F; subst.
      destruct (ka_step f s o) as [s1 x] eqn:E. destruct (ka_run f s1 l) as [ys s2] eqn:E2. intros [= <- <-].
      destruct (step_reads _ _ G H1 E) as [G1 T]. destruct (IH _ _ _ G1 H2 E2). auto.
    Qed.
    Lemma start_good : good (ka_new d0).
    Proof. constructor; simpl; auto. intros k v H. now constructor. Qed.
    Hypothesis total : forall k r, worth k r -> exists v, r = Ok v.
    Definition fresh (s s' : ka K V) : Prop := exists new, calls s' = calls s ++ new /\ NoDup new /\
      (forall x, In x new -> dget eqb (items s) x = None /\ dget eqb (items s') x <> None) /\
      (forall x, dget eqb (items s) x <> None -> dget eqb (items s') x <> None).
    Lemma fresh_refl s : fresh s s.
    Proof. exists []. rewrite app_nil_r. repeat split; auto; try constructor; contradiction. Qed.
    Lemma fresh_trans s s1 s2 : fresh s s1 -> fresh s1 s2 -> fresh s s2.
    Proof.
      intros (a & E1 & N1 & H1 & M1) (b & E2 & N2 & H2 & M2). exists (a ++ b). rewrite E2, E1, app_assoc. split; [reflexivity|]. split; [|split].
      - apply NoDup_app_intro; auto. intros x A B. destruct (H1 _ A) as (_ & X). destruct (H2 _ B) as (Y & _). contradiction.
      - intros x H. apply in_app_or in H as [H|H].
        + destruct (H1 _ H) as (A & B). auto.
        + destruct (H2 _ H) as (A & B). split; [|exact B]. destruct (dget eqb (items s) x) eqn:X; [|reflexivity]. exfalso. apply (M1 x); congruence.
      - auto.
    Qed.
    Lemma getitem_fresh f s k s' r : good s -> getitem eqb factory f s k = (s', r) -> r <> Err Diverges -> fresh s s'.
    Proof.
      intros G E N. destruct (getitem_once ok total f k G E N) as (n & _ & new & A & B & C & D). exists new. repeat split; auto; destruct (C _ H) as (X & Y & _); auto.
    Qed.
    Lemma step_fresh f s o s' x : good s -> reading o -> ka_step f s o = (s', x) -> x <> ORaise Diverges -> fresh s s'.
    Proof.
      intros G R. destruct o; simpl in R; try contradiction; simpl.
      - destruct (getitem eqb factory f s k) as [s1 r] eqn:E. intros [= <- <-] N. apply (getitem_fresh _ _ G E). intros ->. now apply N.
      - intros [= <- <-] _. apply fresh_refl.
      - intros [= <- <-] _. apply fresh_refl.
      - destruct (getitem eqb factory f s k) as [s1 r] eqn:E. intros H N. assert (D : r <> Err Diverges) by (intros ->; congruence).
        pose proof (getitem_fresh _ _ G E D). destruct r as [|[]]; injection H as <- <-; auto.
      - destruct (getitem eqb factory f s k) as [s1 r] eqn:E. intros H N. assert (D : r <> Err Diverges) by (intros ->; congruence).
        pose proof (getitem_fresh _ _ G E D). destruct r as [|[]]; injection H as <- <-; auto.
    Qed.
    Lemma run_fresh f l : forall s xs s', good s -> Forall reading l -> ka_run f s l = (xs, s') -> ~ In (ORaise Diverges) xs -> fresh s s'.
    Proof.
      induction l as [|o l IH]; intros s xs s' G F; simpl; [intros [= <- <-] _; apply fresh_refl|]. inversion F; subst.
      destruct (ka_step f s o) as [s1 x] eqn:E. destruct (ka_run f s1 l) as [ys s2] eqn:E2. intros [= <- <-] N.
      apply (@fresh_trans s s1 s2).
      - apply (step_fresh _ _ G H1 E). intros ->. apply N. now left.
      - apply (IH s1 ys s2); auto; [exact (proj1 (step_reads _ _ G H1 E))|]. intros I. apply N. now right.
    Qed.
  End Reads.

  (** ** factories that do not look *)
  Variable fn : K -> res V.
  Hypothesis S : simple fn factory.
  Lemma simple_get f s k : getitem eqb factory (Datatypes.S f) s k = match dget eqb (items s) k with
    | Some v => (s, Ok v)
    | None => match fn k with
              | Ok v => ({| items := dset eqb (items s) k v; calls := calls s ++ [k] |}, Ok v)
              | Err e => ({| items := items s; calls := calls s ++ [k] |}, Err e)
              end
    end.
  Proof. rewrite (getitem_eq ok). destruct (dget eqb (items s) k); [reflexivity|]. rewrite S. destruct (fn k); reflexivity. Qed.
  Lemma simple_step f s o : plain_op o -> items (fst (ka_step (Datatypes.S f) s o)) = fst (ref_step eqb fn (items s) o) /\
    snd (ka_step (Datatypes.S f) s o) = snd (ref_step eqb fn (items s) o).
  Proof.
    destruct o; simpl plain_op; try contradiction; intros _; cbn [KeyAware_Model.ka_step ref_step].
    - rewrite simple_get. destruct (dget eqb (items s) k); [split; reflexivity|]. destruct (fn k); split; reflexivity.
    - split; reflexivity.
    - unfold delitem. destruct (dmem eqb (items s) k); split; reflexivity.
    - split; reflexivity.
    - split; reflexivity.
  Qed.
  Lemma simple_run f l : forall s, Forall plain_op l -> fst (ka_run (Datatypes.S f) s l) = fst (ref_run eqb fn (items s) l) /\
    items (snd (ka_run (Datatypes.S f) s l)) = snd (ref_run eqb fn (items s) l).
  Proof.
    induction l as [|o l IH]; intros s F; cbn [KeyAware_Model.ka_run ref_run]; [split; reflexivity|]. inversion F; subst.
    destruct (simple_step f s o H1) as [A B]. destruct (ka_step (Datatypes.S f) s o) as [s1 x]. destruct (ref_step eqb fn (items s) o) as [d1 y]. simpl in A, B. subst d1 y.
    specialize (IH s1 H2). destruct (ka_run (Datatypes.S f) s1 l) as [xs s2]. destruct (ref_run eqb fn (items s1) l) as [ys d2]. simpl in *. destruct IH. split; congruence.
  Qed.
  Lemma ddel_dset (d : dict K V) k v : dget eqb d k = None -> ddel eqb (dset eqb d k v) k = d.
  Proof.
    assert (R : eqb k k = true) by now apply ok.
    induction d as [|[x u] d IH]; simpl; [now rewrite R|]. destruct (eqb x k) eqn:E; [discriminate|]. intros H. simpl. rewrite E. now rewrite (IH H).
  Qed.
End Users.
