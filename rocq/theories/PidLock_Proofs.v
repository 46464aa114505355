From Verif Require Import Prelude PidLock_Model PidLock_Spec.

Lemma exec_app s a b : exec s (a ++ b) = exec (exec s a) b.
Proof. revert s. induction a; simpl; auto. Qed.
Lemma throughout_induct (P : system -> event -> Prop) (I : system -> Prop) s :
  I s -> (forall s e, I s -> P s e -> I (step s e)) -> forall es, throughout P s es -> I (exec s es).
Proof.
  intros H0 Hs es. revert s H0. induction es as [|e es IH]; intros s H0 H; simpl; auto. apply IH.
  - apply Hs; auto. apply (H [] e es). auto.
  - intros b e' a E. apply (H (e :: b) e' a). rewrite E. auto.
Qed.
Lemma sp_same s p x : procs (set_proc s p x) p = x.
Proof. simpl. rewrite Nat.eqb_refl. auto. Qed.
Lemma sp_other s p x q : q <> p -> procs (set_proc s p x) q = procs s q.
Proof. simpl. intros H. apply Nat.eqb_neq in H. rewrite H. auto. Qed.

(** ** one call at a time, crashes anywhere *)
Definition inv_one (s : system) : Prop :=
  (forall p, has_lock s p -> exists i, file s = Some (i, Pid p)) /\
  (forall p, alive (procs s p) = false -> at_ (procs s p) = Idle) /\
  (forall p q, busy s p -> busy s q -> p = q) /\
  (forall p, alive (procs s p) = true -> match at_ (procs s p) with
     | Idle | Opening => True
     | Reading => file s <> None
     | Looking q => exists i, file s = Some (i, Pid q)
     | Unlinking => file s <> None /\ forall q, ~ has_lock s q
     | Writing i => file s = Some (i, Empty) /\ held (procs s p) = true
     | Freeing => held (procs s p) = true
     end) /\
  (forall p, alive (procs s p) = false -> held (procs s p) = false).
Definition upd_sys (s : system) (f : option (nat * content)) (n : nat) (p : nat) (x : process) : system := mk_system f n (fun q => if Nat.eqb q p then x else procs s q).
Lemma us_same s f n p x : procs (upd_sys s f n p x) p = x.
Proof. simpl. rewrite Nat.eqb_refl. auto. Qed.
Lemma us_other s f n p x q : q <> p -> procs (upd_sys s f n p x) q = procs s q.
Proof. simpl. intros H. apply Nat.eqb_neq in H. rewrite H. auto. Qed.
Lemma us_lock_other s f n p x q : q <> p -> has_lock (upd_sys s f n p x) q <-> has_lock s q.
Proof. intros H. unfold has_lock. rewrite us_other by auto. tauto. Qed.
Lemma solo s f n p x : inv_one s -> (forall q, q <> p -> ~ busy s q) -> alive x = true ->
  (held x = true -> (forall i, at_ x <> Writing i) -> exists i, f = Some (i, Pid p)) ->
  (forall q, q <> p -> has_lock s q -> exists i, f = Some (i, Pid q)) ->
  match at_ x with
  | Idle | Opening => True
  | Reading => f <> None
  | Looking q => exists i, f = Some (i, Pid q)
  | Unlinking => f <> None /\ (held x = false /\ forall q, q <> p -> ~ has_lock s q)
  | Writing i => f = Some (i, Empty) /\ held x = true
  | Freeing => held x = true
  end -> inv_one (upd_sys s f n p x).
Proof.
  intros (I1 & I2 & I3 & I4 & I5) Ho Ha H1 H2 H3. repeat split.
  - intros q Hq. destruct (Nat.eq_dec q p) as [->|N]; [|apply us_lock_other in Hq; auto]. destruct Hq as (Q1 & Q2 & Q3). rewrite us_same in *. auto.
  - intros q Hq. destruct (Nat.eq_dec q p) as [->|N]; [rewrite us_same in *; congruence|rewrite us_other in * by auto; auto].
  - intros q r. unfold busy. destruct (Nat.eq_dec q p) as [->|N]; destruct (Nat.eq_dec r p) as [->|M]; auto; rewrite ?(us_other _ _ _ _ _ q) by auto; rewrite ?(us_other _ _ _ _ _ r) by auto; intros B1 B2; [destruct (Ho r M B2)|destruct (Ho q N B1)|destruct (Ho q N B1)].
  - intros q Hq. destruct (Nat.eq_dec q p) as [->|N].
    + rewrite us_same in *. destruct (at_ x) eqn:Ex; auto. destruct H3 as (K1 & K2 & K3). split; auto. intros r. destruct (Nat.eq_dec r p) as [->|M]; [|rewrite us_lock_other by auto; auto]. unfold has_lock. rewrite us_same. intros (_ & B & _). congruence.
    + rewrite us_other in * by auto. destruct (at_ (procs s q)) eqn:E; auto; exfalso; apply (Ho q N); split; auto; congruence.
  - intros q Hq. destruct (Nat.eq_dec q p) as [->|N]; [rewrite us_same in *; congruence|rewrite us_other in * by auto; auto].
Qed.
Lemma inv_one_start running : inv_one (start running).
Proof. unfold inv_one, has_lock, busy, start. simpl. repeat split; auto; try (intros p (_ & H & _); discriminate); intros p q (_ & H); congruence. Qed.
Lemma inv_one_step s e : inv_one s -> one_at_a_time s e -> inv_one (step s e).
Proof.
  intros I Ho. pose proof I as (I1 & I2 & I3 & I4 & I5).
  assert (forall p, inv_one (upd_sys s (file s) (next_inode s) p (mk_process false false Idle (log (procs s p))))) as Hc.
  { intros p. repeat split.
    - intros q Hq. destruct (Nat.eq_dec q p) as [->|N]; [destruct Hq as (Q1 & _); rewrite us_same in Q1; discriminate|]. apply us_lock_other in Hq; auto.
    - intros q. destruct (Nat.eq_dec q p) as [->|N]; [rewrite us_same; auto|rewrite us_other by auto; auto].
    - intros q r. unfold busy. destruct (Nat.eq_dec q p) as [->|N]; [rewrite us_same; intros (_ & B); simpl in B; congruence|]. destruct (Nat.eq_dec r p) as [->|M]; [rewrite us_same; intros _ (_ & B); simpl in B; congruence|]. rewrite !us_other by auto. apply I3.
    - intros q. destruct (Nat.eq_dec q p) as [->|N]; [rewrite us_same; simpl; discriminate|rewrite us_other by auto]. intros Hq. specialize (I4 q Hq). destruct (at_ (procs s q)); auto. destruct I4 as (A & B). split; auto. intros r. destruct (Nat.eq_dec r p) as [->|M]; [unfold has_lock; rewrite us_same; intros (X & _); discriminate|rewrite us_lock_other by auto; auto].
    - intros q. destruct (Nat.eq_dec q p) as [->|N]; [rewrite us_same; auto|rewrite us_other by auto; auto]. }
  destruct e as [p|p|p|p|p]; simpl in Ho.
  - simpl. destruct (at_ (procs s p)) eqn:Ea; auto. destruct (alive (procs s p)) eqn:El; auto. apply (solo s (file s) (next_inode s) p); simpl; auto. intros Hh _. apply I1. split; auto. split; auto. congruence.
  - simpl. destruct (at_ (procs s p)) eqn:Ea; auto. destruct (alive (procs s p)) eqn:El; auto. destruct (held (procs s p)) eqn:Eh; apply (solo s (file s) (next_inode s) p); simpl; auto; try discriminate. intros _ _. apply I1. split; auto. split; auto. congruence.
  - simpl. unfold turn. destruct (alive (procs s p)) eqn:El; simpl; auto. specialize (I4 p El).
    assert (forall q, q <> p -> has_lock s q -> exists i, file s = Some (i, Pid q)) as Hother by (intros; auto).
    assert (held (procs s p) = true -> (forall i, at_ (procs s p) <> Writing i) -> exists i, file s = Some (i, Pid p)) as Hme by (intros; apply I1; split; auto).
    destruct (at_ (procs s p)) eqn:Ea; auto.
    + destruct (file s) as [[i c]|] eqn:Ef.
      * apply (solo s (file s) (next_inode s) p); simpl; auto; rewrite ?Ef; try discriminate; auto. intros Hh _. apply Hme; auto. discriminate.
      * apply (solo s (Some (next_inode s, Empty)) (S (next_inode s)) p); simpl; auto. { intros _ K. destruct (K (next_inode s)). auto. } intros q N Hq. destruct (Hother q N Hq) as (i & E). discriminate.
    + destruct (file s) as [[i c]|] eqn:Ef; [|tauto]. assert (held (procs s p) = true -> exists j, Some (i, c) = Some (j, Pid p)) as Hm by (intros; apply Hme; auto; discriminate).
      destruct c as [|q|]; apply (solo s (file s) (next_inode s) p); simpl; auto; rewrite ?Ef; eauto.
      * split; [discriminate|]. split; [destruct (held (procs s p)); auto; destruct (Hm eq_refl); discriminate|]. intros q N Hq. destruct (Hother q N Hq). discriminate.
      * split; [discriminate|]. split; [destruct (held (procs s p)); auto; destruct (Hm eq_refl); discriminate|]. intros q N Hq. destruct (Hother q N Hq). discriminate.
    + destruct I4 as (i & Ef). assert (held (procs s p) = true -> exists j, file s = Some (j, Pid p)) as Hm by (intros; apply Hme; auto; discriminate).
      destruct (alive (procs s p0)) eqn:El0; apply (solo s (file s) (next_inode s) p); simpl; auto.
      split; [congruence|]. split; [destruct (held (procs s p)) eqn:Eh; auto; destruct (Hm eq_refl) as (j & K); congruence|]. intros q N Hq. destruct (Hother q N Hq) as (j & K). destruct Hq as (Q & _). congruence.
    + destruct I4 as (Ef & Hn). destruct (file s) as [[i c]|] eqn:Ef'; [|tauto]. apply (solo s None (next_inode s) p); simpl; auto.
      * intros Hh _. exfalso. apply (Hn p). split; auto. split; auto. congruence.
      * intros q _ Hq. destruct (Hn q Hq).
    + destruct I4 as (Ef & Hh). rewrite Ef. rewrite Nat.eqb_refl. apply (solo s (Some (inode, Pid p)) (next_inode s) p); simpl; eauto. intros q N Hq. destruct (Hother q N Hq) as (j & K). congruence.
    + destruct (Hme I4) as (i & Ef); [discriminate|]. rewrite Ef. apply (solo s None (next_inode s) p); simpl; auto; try discriminate. intros q N Hq. destruct (Hother q N Hq) as (j & K). congruence.
  - apply Hc.
  - simpl. destruct (alive (procs s p)) eqn:El; auto.
    change (inv_one (upd_sys s (file s) (next_inode s) p (mk_process true false Idle (log (procs s p))))). repeat split.
    + intros q Hq. destruct (Nat.eq_dec q p) as [->|N]; [destruct Hq as (_ & Q1 & _); rewrite us_same in Q1; discriminate|]. apply us_lock_other in Hq; auto.
    + intros q. destruct (Nat.eq_dec q p) as [->|N]; [rewrite us_same; auto|rewrite us_other by auto; auto].
    + intros q r. unfold busy. destruct (Nat.eq_dec q p) as [->|N]; [rewrite us_same; intros (_ & B); simpl in B; congruence|]. destruct (Nat.eq_dec r p) as [->|M]; [rewrite us_same; intros _ (_ & B); simpl in B; congruence|]. rewrite !us_other by auto. apply I3.
    + intros q. destruct (Nat.eq_dec q p) as [->|N]; [rewrite us_same; simpl; auto|rewrite us_other by auto]. intros Hq. specialize (I4 q Hq). destruct (at_ (procs s q)); auto. destruct I4 as (A & B). split; auto. intros r. destruct (Nat.eq_dec r p) as [->|M]; [unfold has_lock; rewrite us_same; intros (_ & X & _); discriminate|rewrite us_lock_other by auto; auto].
    + intros q. destruct (Nat.eq_dec q p) as [->|N]; [rewrite us_same; auto|rewrite us_other by auto; auto].
Qed.
Theorem exclusive_one running es : throughout one_at_a_time (start running) es -> exclusive (exec (start running) es).
Proof.
  intros H. assert (inv_one (exec (start running) es)) as (I1 & _) by (apply (throughout_induct one_at_a_time inv_one); auto using inv_one_start, inv_one_step).
  intros p q Hp Hq. destruct (I1 p Hp) as (i & E1). destruct (I1 q Hq) as (j & E2). congruence.
Qed.
Theorem no_missing running es p : throughout one_at_a_time (start running) es -> ~ In Missing (log (procs (exec (start running) es) p)).
Proof.
  intros H. revert p. apply (throughout_induct one_at_a_time (fun s => inv_one s /\ forall p, ~ In Missing (log (procs s p)))) with (es := es); auto.
  - split; [apply inv_one_start|]. simpl. auto.
  - clear H es running. intros s e (I & L) Ho. split; [apply inv_one_step; auto|]. destruct I as (I1 & I2 & I3 & I4 & I5).
    assert (forall s0 q x, (forall r, ~ In Missing (log (procs s0 r))) -> ~ In Missing (log x) -> forall r, ~ In Missing (log (procs (set_proc s0 q x) r))) as K.
    { intros s0 q x A B r. destruct (Nat.eq_dec r q) as [->|N]; [rewrite sp_same; auto|rewrite sp_other by auto; auto]. }
    assert (forall q h o, o <> Missing -> ~ In Missing (log (finish (procs s q) h o))) as F.
    { intros q h o N. simpl. rewrite in_app_iff. simpl. intros [X|[X|[]]]; [destruct (L q X)|congruence]. }
    destruct e as [q|q|q|q|q]; simpl.
    + destruct (at_ (procs s q)); auto. destruct (alive (procs s q)); auto. apply K; auto. apply L.
    + destruct (at_ (procs s q)); auto. destruct (alive (procs s q)); auto. apply K; auto. destruct (held (procs s q)); [apply L|apply F; discriminate].
    + unfold turn. destruct (alive (procs s q)) eqn:El; simpl; auto. specialize (I4 q El). destruct (at_ (procs s q)) eqn:Ea; auto.
      * destruct (file s); apply K; auto; apply L.
      * destruct (file s) as [[i [|r|]]|]; [apply K; auto; apply L|apply K; auto; apply L|apply K; auto; apply L|tauto].
      * destruct (alive (procs s p)); apply K; auto; try apply L. apply F; discriminate.
      * destruct (file s); [apply K; auto; apply L|tauto].
      * apply K; auto. apply F; discriminate.
      * destruct (I1 q) as (i & Ef); [repeat split; auto; congruence|]. rewrite Ef. apply K; auto. apply F; discriminate.
    + apply K; auto. apply L.
    + destruct (alive (procs s q)); auto. apply K; auto. apply L.
Qed.

(** ** nobody dies *)
Definition owned (s : system) (o : option nat) : Prop :=
  (forall q, held (procs s q) = true <-> o = Some q) /\
  match o with
  | None => file s = None
  | Some p => alive (procs s p) = true /\ exists i, (at_ (procs s p) = Writing i /\ file s = Some (i, Empty)) \/ (file s = Some (i, Pid p) /\ forall j, at_ (procs s p) <> Writing j)
  end.
Definition proc_ok (s : system) (x : process) : Prop :=
  match at_ x with Looking n => alive (procs s n) = true | Unlinking => False | Writing _ | Freeing => held x = true | _ => True end.
Definition inv_ord (s : system) : Prop := (exists o, owned s o) /\ forall q, proc_ok s (procs s q).
(** a process moves without changing the file or what it holds *)
Lemma move s p x : inv_ord s -> held x = held (procs s p) -> (alive (procs s p) = true -> alive x = true) -> (forall i, at_ (procs s p) <> Writing i) -> (forall i, at_ x <> Writing i) ->
  proc_ok s x -> inv_ord (set_proc s p x).
Proof.
  intros ((o & O1 & O2) & Hq) Hh Ha Hw Hw' Hx. assert (forall q, alive (procs s q) = true -> alive (procs (set_proc s p x) q) = true) as Hal.
  { intros q Hl. destruct (Nat.eq_dec q p) as [->|N]; [rewrite sp_same; auto|rewrite sp_other; auto]. }
  split.
  - exists o. split.
    + intros q. destruct (Nat.eq_dec q p) as [->|N]; [rewrite sp_same, Hh; auto|rewrite sp_other; auto].
    + destruct o as [r|]; auto. destruct O2 as (A & i & B). split; auto. exists i. simpl file. destruct (Nat.eq_dec r p) as [->|N]; [|rewrite sp_other by auto; auto]. rewrite sp_same. destruct B as [(B & _)|(B & _)]; [destruct (Hw i B)|auto].
  - intros q. assert (proc_ok s (procs (set_proc s p x) q)) as K by (destruct (Nat.eq_dec q p) as [->|N]; [rewrite sp_same; auto|rewrite sp_other; auto]). unfold proc_ok in *. destruct (at_ (procs (set_proc s p x) q)); auto.
Qed.
(** a process changes the file *)
Lemma change s f n p x : inv_ord s -> alive (procs s p) = true -> alive x = true -> (forall q, q <> p -> held (procs s q) = false) -> proc_ok s x ->
  (held x = false /\ f = None \/ held x = true /\ exists i, (at_ x = Writing i /\ f = Some (i, Empty)) \/ (f = Some (i, Pid p) /\ forall j, at_ x <> Writing j)) ->
  inv_ord (upd_sys s f n p x).
Proof.
  intros (_ & Hq) Ha Hx Ho Hp Hf. assert (forall q, alive (procs s q) = true -> alive (procs (upd_sys s f n p x) q) = true) as Hal.
  { intros q Hl. destruct (Nat.eq_dec q p) as [->|N]; [rewrite us_same; auto|rewrite us_other; auto]. }
  split.
  - exists (if held x then Some p else None). split.
    + intros q. destruct (Nat.eq_dec q p) as [->|N]; [rewrite us_same; destruct (held x); split; congruence|rewrite us_other by auto]. rewrite Ho by auto. destruct (held x); split; congruence.
    + destruct Hf as [(-> & ->)|(-> & Hf)]; auto. rewrite us_same. auto.
  - intros q. assert (proc_ok s (procs (upd_sys s f n p x) q)) as K by (destruct (Nat.eq_dec q p) as [->|N]; [rewrite us_same; auto|rewrite us_other; auto]). unfold proc_ok in *. destruct (at_ (procs (upd_sys s f n p x) q)); auto.
Qed.
Lemma inv_ord_start running : inv_ord (start running).
Proof. split; [exists None; split; simpl; auto; split; discriminate|]. simpl. intros q. exact I. Qed.
Definition dead_idle (s : system) : Prop := forall p, alive (procs s p) = false -> at_ (procs s p) = Idle.
Lemma dead_idle_step s e : dead_idle s -> dead_idle (step s e).
Proof.
  intros D. assert (forall s0 p x, dead_idle s0 -> (alive x = false -> at_ x = Idle) -> dead_idle (set_proc s0 p x)) as K.
  { intros s0 p x A B q. destruct (Nat.eq_dec q p) as [->|N]; [rewrite sp_same; auto|rewrite sp_other by auto; auto]. }
  destruct e as [p|p|p|p|p]; simpl.
  - destruct (at_ (procs s p)); auto. destruct (alive (procs s p)) eqn:E; auto. apply K; auto. simpl. congruence.
  - destruct (at_ (procs s p)); auto. destruct (alive (procs s p)) eqn:E; auto. apply K; auto. destruct (held (procs s p)); simpl; auto. congruence.
  - unfold turn. destruct (alive (procs s p)) eqn:E; simpl; auto. destruct (at_ (procs s p)); auto.
    + destruct (file s); apply K; auto; simpl; congruence.
    + destruct (file s) as [[i [|r|]]|]; apply K; auto; simpl; congruence.
    + destruct (alive (procs s p0)); apply K; auto; simpl; congruence.
    + destruct (file s); apply K; auto; simpl; congruence.
    + destruct (file s); apply K; auto; simpl; congruence.
  - apply K; auto.
  - destruct (alive (procs s p)); auto.
Qed.
Lemma inv_ord_step s e : dead_idle s -> inv_ord s -> orderly s e -> inv_ord (step s e).
Proof.
  intros Hd I Ho. pose proof I as ((o & O1 & O2) & Hq). destruct e as [p|p|p|p|p]; simpl in Ho.
  - simpl. destruct (at_ (procs s p)) eqn:Ea; auto. destruct (alive (procs s p)) eqn:El; auto. apply move; simpl; auto; try congruence; unfold proc_ok; simpl; auto; try discriminate.
  - simpl. destruct (at_ (procs s p)) eqn:Ea; auto. destruct (alive (procs s p)) eqn:El; auto. destruct (held (procs s p)) eqn:Eh; apply move; simpl; auto; try congruence; unfold proc_ok; simpl; auto; try discriminate.
  - simpl. unfold turn. destruct (alive (procs s p)) eqn:El; simpl; auto. pose proof (Hq p) as Hp. unfold proc_ok in Hp. destruct (at_ (procs s p)) eqn:Ea; auto.
    + destruct (file s) as [[i c]|] eqn:Ef; [apply move; simpl; auto; try congruence; unfold proc_ok; simpl; auto; discriminate|].
      assert (o = None) as -> by (destruct o as [r|]; auto; destruct O2 as (_ & i & [(_ & K)|(K & _)]); congruence).
      apply (change s (Some (next_inode s, Empty)) (S (next_inode s)) p); simpl; auto.
      * intros q _. destruct (held (procs s q)) eqn:E; auto. apply O1 in E. discriminate.
      * unfold proc_ok; simpl; auto.
      * right. split; auto. exists (next_inode s). auto.
    + destruct (file s) as [[i c]|] eqn:Ef; [|apply move; simpl; auto; try congruence; unfold proc_ok; simpl; auto; discriminate].
      destruct c as [|q|].
      * exfalso. apply Ho. split; auto. eauto.
      * destruct o as [r|]; [|congruence]. destruct O2 as (A & j & [(_ & K)|(K & _)]); [congruence|]. injection K as <- <-. apply move; simpl; auto; try congruence; unfold proc_ok; simpl; auto; discriminate.
      * exfalso. destruct o as [r|]; [|congruence]. destruct O2 as (A & j & [(_ & K)|(K & _)]); congruence.
    + rewrite Hp. apply move; simpl; auto; try congruence; unfold proc_ok; simpl; auto; discriminate.
    + tauto.
    + apply O1 in Hp. subst o. destruct O2 as (A & j & [(K & Ef)|(_ & K)]); [|destruct (K inode Ea)]. assert (inode = j) by congruence. subst j. rewrite Ef, Nat.eqb_refl.
      apply (change s (Some (inode, Pid p)) (next_inode s) p); simpl; auto.
      * intros q N. destruct (held (procs s q)) eqn:E; auto. apply O1 in E. congruence.
      * unfold proc_ok; simpl; auto.
      * right. split; auto. exists inode. right. split; auto. discriminate.
    + apply O1 in Hp. subst o. destruct O2 as (A & j & [(K & Ef)|(Ef & _)]); [congruence|]. rewrite Ef.
      apply (change s None (next_inode s) p); simpl; auto.
      * intros q N. destruct (held (procs s q)) eqn:E; auto. apply O1 in E. congruence.
      * unfold proc_ok; simpl; auto.
  - tauto.
  - simpl. destruct (alive (procs s p)) eqn:El; auto.
    specialize (Hd p El). apply move; simpl; auto; try congruence; try (unfold proc_ok; simpl; auto; fail).
    destruct (held (procs s p)) eqn:Eh; auto. apply O1 in Eh. subst o. destruct O2 as (A & _). congruence.
Qed.

Theorem exclusive_ord running es : throughout orderly (start running) es -> exclusive (exec (start running) es).
Proof.
  intros H. assert (dead_idle (exec (start running) es) /\ inv_ord (exec (start running) es)) as (_ & ((o & O1 & _) & _)).
  { apply (throughout_induct orderly (fun s => dead_idle s /\ inv_ord s)); auto; [split; [intros p _; reflexivity|apply inv_ord_start]|]. intros s e (D & I) Ho. split; auto using dead_idle_step, inv_ord_step. }
  intros p q (_ & Hp & _) (_ & Hq & _). apply O1 in Hp, Hq. congruence.
Qed.
(** ** alone *)
Definition view (s0 s : system) (p : nat) (f : option (nat * content)) (x : process) : Prop :=
  procs s p = x /\ file s = f /\ forall q, q <> p -> procs s q = procs s0 q.
Lemma view_idle s0 s p f x : view s0 s p f x -> at_ x = Idle -> turn s p = s.
Proof. intros (V1 & _) E. unfold turn. rewrite V1, E. destruct (alive x); auto. Qed.
Lemma view_set s0 s p f f' x x' : view s0 s p f x -> view s0 (set_proc (set_file s f') p x') p f' x'.
Proof. intros (V1 & V2 & V3). split; [apply sp_same|]. split; auto. intros q N. rewrite sp_other by auto. apply V3; auto. Qed.
Lemma view_put s0 s p f x x' : view s0 s p f x -> view s0 (set_proc s p x') p f x'.
Proof. intros (V1 & V2 & V3). split; [apply sp_same|]. split; auto. intros q N. rewrite sp_other by auto. apply V3; auto. Qed.
Lemma view_create s0 s p h l : view s0 s p None (mk_process true h Opening l) -> exists i, view s0 (turn s p) p (Some (i, Empty)) (mk_process true true (Writing i) l).
Proof.
  intros (V1 & V2 & V3). exists (next_inode s). unfold turn. rewrite V1, V2. simpl. split; [simpl; rewrite Nat.eqb_refl; auto|]. split; auto. intros q N. simpl. apply Nat.eqb_neq in N. rewrite N. apply V3. apply Nat.eqb_neq. auto.
Qed.
Lemma view_write s0 s p i l : view s0 s p (Some (i, Empty)) (mk_process true true (Writing i) l) -> view s0 (turn s p) p (Some (i, Pid p)) (mk_process true true Idle (l ++ [Acquired])).
Proof. intros V. pose proof V as (V1 & V2 & V3). unfold turn. rewrite V1, V2. simpl. rewrite Nat.eqb_refl. eapply view_set; eauto. Qed.
Lemma view_exists s0 s p c h l : view s0 s p (Some c) (mk_process true h Opening l) -> view s0 (turn s p) p (Some c) (mk_process true h Reading l).
Proof. intros V. pose proof V as (V1 & V2 & V3). unfold turn. rewrite V1, V2. simpl. eapply view_put; eauto. Qed.
Lemma view_unlink s0 s p c h l : view s0 s p (Some c) (mk_process true h Unlinking l) -> view s0 (turn s p) p None (mk_process true h Opening l).
Proof. intros V. pose proof V as (V1 & V2 & V3). unfold turn. rewrite V1, V2. simpl. eapply view_set; eauto. Qed.
Lemma turns_idle s0 s p f x n : view s0 s p f x -> at_ x = Idle -> exec s (repeat (Turn p) n) = s.
Proof. intros V E. induction n; simpl; auto. rewrite (view_idle s0 s p f x); auto. Qed.
Lemma view_take s0 s p h l n : view s0 s p None (mk_process true h Opening l) ->
  exists i, view s0 (exec s (repeat (Turn p) (2 + n))) p (Some (i, Pid p)) (mk_process true true Idle (l ++ [Acquired])).
Proof. intros V. destruct (view_create _ _ _ _ _ V) as (i & V1). apply view_write in V1. exists i. simpl. erewrite turns_idle; eauto. Qed.
Lemma view_steal s0 s p c h l : view s0 s p (Some c) (mk_process true h Unlinking l) ->
  forall n, exists i, view s0 (exec s (repeat (Turn p) (3 + n))) p (Some (i, Pid p)) (mk_process true true Idle (l ++ [Acquired])).
Proof. intros V n. apply view_unlink in V. apply (view_take _ _ _ _ _ n V). Qed.
Lemma view_read_pid s0 s p i q h l : view s0 s p (Some (i, Pid q)) (mk_process true h Reading l) -> view s0 (turn s p) p (Some (i, Pid q)) (mk_process true h (Looking q) l).
Proof. intros V. pose proof V as (V1 & V2 & V3). unfold turn. rewrite V1, V2. simpl. eapply view_put; eauto. Qed.
Lemma view_read_other s0 s p i c h l : (forall q, c <> Pid q) -> view s0 s p (Some (i, c)) (mk_process true h Reading l) -> view s0 (turn s p) p (Some (i, c)) (mk_process true h Unlinking l).
Proof. intros N V. pose proof V as (V1 & V2 & V3). unfold turn. rewrite V1, V2. simpl. destruct c; [eapply view_put; eauto|destruct (N p0); auto|eapply view_put; eauto]. Qed.
Lemma view_look s0 s p f q h l : alive (procs s0 p) = true -> view s0 s p f (mk_process true h (Looking q) l) ->
  view s0 (turn s p) p f (if alive (procs s0 q) then mk_process true h Idle (l ++ [Locked q]) else mk_process true h Unlinking l).
Proof.
  intros Ha V. pose proof V as (V1 & V2 & V3). assert (alive (procs s q) = alive (procs s0 q)) as E by (destruct (Nat.eq_dec q p) as [->|N]; [rewrite V1; auto|rewrite V3; auto]).
  unfold turn. rewrite V1. simpl. rewrite E. destruct (alive (procs s0 q)); eapply view_put; eauto.
Qed.
Local Opaque turn.
Theorem alone s p : alive (procs s p) = true -> at_ (procs s p) = Idle -> held (procs s p) = false ->
  let s' := exec s (Acquire p :: repeat (Turn p) 6) in
  (forall q, taken_by s q -> file s' = file s /\ procs s' p = mk_process true false Idle (log (procs s p) ++ [Locked q])) /\
  ((forall q, ~ taken_by s q) -> (exists i, file s' = Some (i, Pid p)) /\ procs s' p = mk_process true true Idle (log (procs s p) ++ [Acquired])) /\
  forall q, q <> p -> procs s' q = procs s q.
Proof.
  intros Ha Hi Hh s'. set (l := log (procs s p)). set (s1 := step s (Acquire p)).
  assert (view s s1 p (file s) (mk_process true false Opening l)) as V.
  { unfold s1. simpl. rewrite Hi, Ha. unfold goto. rewrite Ha, Hh. split; [apply sp_same|]. split; auto. intros q N. apply sp_other; auto. }
  assert (s' = exec s1 (repeat (Turn p) 6)) as Es by (unfold s', s1; generalize (repeat (Turn p) 6); reflexivity). rewrite Es. clear Es s'. clearbody s1.
  assert (forall v : exists i, view s (exec s1 (repeat (Turn p) 6)) p (Some (i, Pid p)) (mk_process true true Idle (l ++ [Acquired])),
    ((exists i, file (exec s1 (repeat (Turn p) 6)) = Some (i, Pid p)) /\ procs (exec s1 (repeat (Turn p) 6)) p = mk_process true true Idle (l ++ [Acquired])) /\ forall q, q <> p -> procs (exec s1 (repeat (Turn p) 6)) q = procs s q) as Good.
  { intros (i & W1 & W2 & W3). eauto. }
  destruct (file s) as [[i c]|] eqn:Ef.
  - apply view_exists in V. assert ((forall q, c <> Pid q) \/ exists q, c = Pid q) as [N|(q & ->)] by (destruct c; [left; discriminate|right; eauto|left; discriminate]).
    + apply view_read_other in V; auto. destruct (Good (view_steal _ _ _ _ _ _ V 1)) as (G1 & G2). split; [|split; auto]. intros q (j & K & _). exfalso. apply (N q). congruence.
    + apply view_read_pid, view_look in V; auto. destruct (alive (procs s q)) eqn:El.
      * assert (exec s1 (repeat (Turn p) 6) = turn (turn (turn s1 p) p) p) as -> by (exact (turns_idle _ _ _ _ _ 3 V eq_refl)).
        destruct V as (W1 & W2 & W3). split; [|split; auto].
        -- intros r (j & K & _). assert (r = q) by congruence. subst r. auto.
        -- intros K. exfalso. apply (K q). exists i. auto.
      * destruct (Good (view_steal _ _ _ _ _ _ V 0)) as (G1 & G2). split; [|split; auto].
        intros r (j & K & Hr). congruence.
  - destruct (Good (view_take _ _ _ _ _ 4 V)) as (G1 & G2). split; [|split; auto]. intros q (j & K & _). congruence.
Qed.
Local Transparent turn.
(** ResourceLocked is true *)
Theorem locked_truthful s e p q : log (procs (step s e) p) = log (procs s p) ++ [Locked q] -> alive (procs s q) = true /\ e = Turn p /\ at_ (procs s p) = Looking q.
Proof.
  intros H.
  assert (forall s0 r x, log (procs (set_proc s0 r x) p) = log (procs s p) ++ [Locked q] -> log (procs s0 p) = log (procs s p) -> r = p /\ log x = log (procs s p) ++ [Locked q]) as K.
  { intros s0 r x A B. destruct (Nat.eq_dec p r) as [->|N]; [rewrite sp_same in A; auto|]. rewrite sp_other in A by auto. rewrite B in A. exfalso. apply (f_equal (@length _)) in A. rewrite app_length in A. simpl in A. lia. }
  assert (forall l : list outcome, l = l ++ [Locked q] -> False) as N by (intros l A; apply (f_equal (@length _)) in A; rewrite app_length in A; simpl in A; lia).
  destruct e as [r|r|r|r|r]; simpl in H.
  - destruct (at_ (procs s r)); try (destruct (N _ H)). destruct (alive (procs s r)); [|destruct (N _ H)]. apply K in H; auto. destruct H as (-> & H). destruct (N _ H).
  - destruct (at_ (procs s r)); try (destruct (N _ H)). destruct (alive (procs s r)); [|destruct (N _ H)]. apply K in H; auto. destruct H as (-> & H). destruct (held (procs s p)); simpl in H; [destruct (N _ H)|]. apply app_inj_tail in H. destruct H; discriminate.
  - unfold turn in H. destruct (alive (procs s r)) eqn:El; simpl in H; [|destruct (N _ H)]. destruct (at_ (procs s r)) eqn:Ea; try (destruct (N _ H); fail).
    + destruct (file s) as [c|]; (apply K in H; [destruct H as (-> & H); destruct (N _ H)|auto]).
    + destruct (file s) as [[i [|u|]]|]; (apply K in H; [|auto]); destruct H as (-> & H); try (destruct (N _ H); fail). simpl in H. apply app_inj_tail in H. destruct H; discriminate.
    + destruct (alive (procs s p0)) eqn:E0; (apply K in H; [|auto]); destruct H as (-> & H); try (destruct (N _ H); fail). simpl in H. apply app_inj_tail in H. destruct H as (_ & H). injection H as ->. auto.
    + destruct (file s) as [c|]; (apply K in H; [|auto]); destruct H as (-> & H); try (destruct (N _ H); fail). simpl in H. apply app_inj_tail in H. destruct H; discriminate.
    + apply K in H; auto. destruct H as (-> & H). simpl in H. apply app_inj_tail in H. destruct H; discriminate.
    + destruct (file s) as [c|]; (apply K in H; [|auto]); destruct H as (-> & H); simpl in H; apply app_inj_tail in H; destruct H; discriminate.
  - apply K in H; auto. destruct H as (-> & H). destruct (N _ H).
  - destruct (alive (procs s r)); [destruct (N _ H)|]. apply K in H; auto. destruct H as (-> & H). destruct (N _ H).
Qed.
Lemma throughout_nil P s : throughout P s [].
Proof. intros [|] ? ?; discriminate. Qed.
Lemma throughout_cons (P : system -> event -> Prop) s e es : P s e -> throughout P (step s e) es -> throughout P s (e :: es).
Proof. intros H1 H2 [|b0 b] e' a E; injection E as <- E; [auto|]. apply (H2 b e' a E). Qed.
Theorem release_frees s p i c : alive (procs s p) = true -> at_ (procs s p) = Idle -> file s = Some (i, c) ->
  let s' := exec s [Release p; Turn p] in
  (held (procs s p) = true -> file s' = None /\ ~ has_lock s' p /\ log (procs s' p) = log (procs s p) ++ [Released]) /\
  (held (procs s p) = false -> file s' = file s /\ log (procs s' p) = log (procs s p) ++ [NotAcquired]).
Proof.
  intros Ha Hi Hf. cbn [exec step]. rewrite Hi, Ha. split; intros Hh; rewrite Hh.
  - unfold turn. rewrite sp_same. cbn [goto alive at_]. rewrite Ha. cbn [negb]. change (file (set_proc s p (goto (procs s p) Freeing))) with (file s). rewrite Hf. split; auto. split; [|rewrite sp_same; auto]. intros (_ & K & _). rewrite sp_same in K. discriminate.
  - unfold turn. rewrite sp_same. cbn [finish alive at_]. rewrite Ha. simpl. rewrite Nat.eqb_refl. auto.
Qed.
Definition refused (p : nat) : list event := Acquire p :: repeat (Turn p) 3.
Lemma refused_again s p i l : alive (procs s p) = true -> procs s p = mk_process true false Idle l -> file s = Some (i, Pid p) ->
  forall n, log (procs (exec s (concat (repeat (refused p) n))) p) = l ++ repeat (Locked p) n.
Proof.
  intros Ha Hp Hf n. revert s l Ha Hp Hf. induction n as [|n IH]; intros s l Ha Hp Hf; cbn [repeat concat]; [simpl; rewrite Hp, app_nil_r; auto|].
  rewrite exec_app. set (s1 := step s (Acquire p)). assert (view s s1 p (Some (i, Pid p)) (mk_process true false Opening l)) as V.
  { unfold s1. simpl. rewrite Hp. simpl. split; [apply sp_same|]. split; auto. intros q N. apply sp_other; auto. }
  apply view_exists, view_read_pid, view_look in V; auto. rewrite Ha in V. change (exec s (refused p)) with (turn (turn (turn s1 p) p) p). destruct V as (W1 & W2 & W3).
  rewrite (IH _ (l ++ [Locked p])); auto; [rewrite <- app_assoc; auto|rewrite W1; auto].
Qed.
Lemma same_pid n : log (procs (exec (start (fun _ => true)) ((Acquire 1 :: repeat (Turn 1) 2) ++ [Crash 1; Start 1] ++ concat (repeat (refused 1) n))) 1) = Acquired :: repeat (Locked 1) n.
Proof. rewrite app_assoc, exec_app. rewrite (refused_again _ 1 0 [Acquired]); auto. Qed.
