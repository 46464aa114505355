(** Proofs about ExclusiveWritebackCache used by several threads. *)
From Coq Require Import Lia.
From Verif Require Import Prelude PreludeFacts MoreFacts MetrThr_Model MetrThr_Spec MetrThr_Proofs WbThr_Model WbThr_Spec.
Set Implicit Arguments.

Section WbThrProofs.
  Context {K V : Type}.
  Variable eqb : K -> K -> bool.
  Hypothesis ok : eqb_ok eqb.
  Variables ske deletable : bool.
  Notation cfg := (config (cache_state K V) (call K V) (code K V) (option V)).
  Notation exec := (exec eqb ske deletable).
  Notation answer := (answer deletable).
  Notation after_call := (after_call deletable).
  Notation value_after := (value_after deletable).

  Lemma eqb_refl k : eqb k k = true.
  Proof. apply ok. reflexivity. Qed.
  Lemma eqb_neq k k' : k <> k' -> eqb k k' = false.
  Proof. intros N. destruct (eqb k k') eqn:E; auto. apply ok in E. contradiction. Qed.
  Lemma key_dec (k k' : K) : {k = k'} + {k <> k'}.
  Proof. destruct (eqb k k') eqn:E; [left; apply ok; auto|right; intros ->; rewrite eqb_refl in E; discriminate]. Qed.

  (** ** the storage after the pending jobs *)
  Definition effect (k : K) (x : option V) (j : job) : option V :=
    match j with JWrite k' v => if eqb k' k then Some v else x | JDelete k' => if eqb k' k then None else x | JRead _ _ => x end.
  Definition est (k : K) (s : cache_state K V) : option V := fold_left (effect k) (jobs s) (dget eqb (store s) k).
  Definition quiet (k : K) (l : list (@job K V)) : Prop := forall j x, In j l -> effect k x j = x.
  Lemma quiet_fold k l : quiet k l -> forall x, fold_left (effect k) l x = x.
  Proof.
    induction l as [|j l IH]; intros Q x; simpl; auto. rewrite (Q j x) by (left; auto). apply IH. intros j' x' I. apply Q. right. auto.
  Qed.
  Definition tickets (l : list (@job K V)) : list nat := flat_map (fun j => match j with JRead _ i => [i] | _ => [] end) l.
  Lemma tickets_app l m : tickets (l ++ m) = tickets l ++ tickets m.
  Proof. apply flat_map_app. Qed.
  Definition ticket_ok (k : K) (i : nat) (cur : option V) (s : cache_state K V) : Prop :=
    nth_error (answers s) i = Some (Some cur) \/
    (nth_error (answers s) i = Some None /\ exists a b, jobs s = a ++ JRead k i :: b /\ quiet k b).

  Record good (s : cache_state K V) : Prop := {
    g_store : dwf (store s); g_cache : dwf (cache s); g_nodup : NoDup (tickets (jobs s));
    g_open : forall i, In i (tickets (jobs s)) -> nth_error (answers s) i = Some None }.

  Definition fits (d : call K V) (a : code K V) : Prop :=
    match d with
    | Get k =>
      match a with
      | ORead w | OWrite w _ | OTest w | OSnap w | OSet w _ | OZero w => w = ThenGet k
      | GTest k' | GSubmit k' | GWait k' _ | GAdd k' _ | GStore k' _ | GMiss k' | GLook k' | GGive k' => k' = k
      | _ => False
      end
    | Put k v =>
      match a with
      | ORead w | OWrite w _ | OTest w | OSnap w | OSet w _ | OZero w => w = Done
      | PStore k' v' | PAdd k' v' | PSubmit k' v' => k' = k /\ v' = v
      | _ => False
      end
    | Del k =>
      match a with
      | ORead w | OWrite w _ | OTest w | OSnap w | OSet w _ | OZero w => w = Done /\ deletable = true
      | DType k' => k' = k
      | DAdd k' | DDrop k' | DSubmit k' => k' = k /\ deletable = true
      | _ => False
      end
    | Work => a = WTake
    end.
  Lemma fits_first d : fits d (first d).
  Proof. destruct d; simpl; auto. Qed.
  Lemma fits_next d a s s' a' : fits d a -> exec a s = (s', Next a') -> fits d a'.
  Proof.
    destruct d, a; simpl; intros F E; try contradiction; try discriminate; subst;
      repeat match goal with H : _ /\ _ |- _ => destruct H; subst end;
      repeat match type of E with context [if ?b then _ else _] => destruct b end;
      repeat match type of E with context [match ?b with _ => _ end] => destruct b end;
      simpl in E; try discriminate; inversion E; subst; simpl; auto.
  Qed.

  Definition inlock (a : code K V) : Prop := match a with OSet _ _ | OZero _ | GStore _ _ | PAdd _ _ => True | _ => False end.

  Lemma good_exec a s : good s -> good (fst (exec a s)).
  Proof.
    intros [G1 G2 G3 G4].
    destruct a; simpl; repeat match goal with |- context [if ?b then _ else _] => destruct b end; try (split; simpl; auto; fail);
      try (split; simpl; auto using (dset_wf ok), (@ddel_wf _ _ eqb); fail).
    - split; simpl; auto.
      + rewrite tickets_app. simpl. apply NoDup_app_intro; auto; [constructor; [intros []|constructor]|].
        intros i I [<-|[]]. apply G4 in I. assert (H : nth_error (answers s) (length (answers s)) <> None) by congruence.
        apply nth_error_Some in H. lia.
      + intros i I. rewrite tickets_app in I. apply in_app_iff in I as [I|[<-|[]]].
        * rewrite nth_error_app1; auto. apply nth_error_Some. rewrite G4; auto. discriminate.
        * rewrite nth_error_app2, Nat.sub_diag by lia. reflexivity.
    - split; simpl; auto; rewrite tickets_app; simpl; rewrite app_nil_r; auto.
    - split; simpl; auto; rewrite tickets_app; simpl; rewrite app_nil_r; auto.
    - destruct (jobs s) as [|[k v|k|k i] r] eqn:E; simpl in *.
      + split; auto. rewrite E. auto. rewrite E. auto.
      + split; simpl; auto using (dset_wf ok).
      + split; simpl; auto using (@ddel_wf _ _ eqb).
      + inversion G3 as [|x l N1 N2]; subst. split; simpl; auto. intros j I. rewrite nth_error_upd_neq; auto. intros ->. contradiction.
  Qed.

  (** ** steps that leave a key alone *)
  Definition touches (k : K) (a : code K V) : Prop :=
    match a with GStore k' _ | PStore k' _ | PSubmit k' _ | DDrop k' | DSubmit k' => k' = k | _ => False end.
  Definition adds (k : K) (a : code K V) : Prop :=
    match a with GAdd k' _ | GMiss k' | PAdd k' _ | DAdd k' => k' = k | _ => False end.
  Lemma quiet_snoc k l j : quiet k l -> (forall x, effect k x j = x) -> quiet k (l ++ [j]).
  Proof. intros Q H j' x I. apply in_app_iff in I as [I|[<-|[]]]; auto. Qed.
  Lemma exec_frame k a s : good s -> ~ touches k a ->
    let s' := fst (exec a s) in
    dget eqb (cache s') k = dget eqb (cache s) k /\ est k s' = est k s /\
    (forall i, ticket_ok k i (est k s) s -> ticket_ok k i (est k s) s') /\
    (In k (in_cache s') -> In k (in_cache s) \/ adds k a \/ exists w ks, a = OSet w ks /\ In k ks).
  Proof.
    intros [G1 G2 G3 G4] T.
    assert (Snoc : forall j an, (forall x, effect k x j = x) -> (exists l, an = answers s ++ l) ->
      est k (set_store s (store s) (jobs s ++ [j]) an) = est k s /\
      (forall i, ticket_ok k i (est k s) s -> ticket_ok k i (est k s) (set_store s (store s) (jobs s ++ [j]) an))).
    { intros j an H (l & ->). split.
      - unfold est. simpl. rewrite fold_left_app. simpl. apply H.
      - intros i. unfold ticket_ok. simpl. intros [A|(A & a1 & b & E & Q)].
        + left. rewrite nth_error_app1; auto. apply nth_error_Some. congruence.
        + right. split; [rewrite nth_error_app1; auto; apply nth_error_Some; congruence|].
          exists a1, (b ++ [j]). rewrite E, <- app_assoc. split; auto. apply quiet_snoc; auto. }
    destruct a; simpl; simpl in T;
      repeat match goal with |- context [if ?b then _ else _] => destruct b end; simpl;
      try (split; [auto|split; [auto|split; [auto|intros; auto]]]; fail).
    - split; [auto|split; [auto|split; [auto|]]]. intros I. right. right. exists w, ks. auto.
    - destruct (Snoc (JRead k0 (length (answers s))) (answers s ++ [None])) as [S1 S2]; [auto|eauto|]. auto.
    - split; [auto|split; [auto|split; [auto|]]]. intros [->|I]; auto.
    - split; [apply (dget_dset_neq ok); auto|split; [auto|split; auto]].
    - split; [auto|split; [auto|split; [auto|]]]. intros [->|I]; auto.
    - split; [apply (dget_dset_neq ok); auto|split; [auto|split; auto]].
    - split; [auto|split; [auto|split; [auto|]]]. intros [->|I]; auto.
    - destruct (Snoc (JWrite k0 v) (answers s)) as [S1 S2]; [intros x; simpl; rewrite eqb_neq; auto|exists []; rewrite app_nil_r; auto|]. auto.
    - split; [auto|split; [auto|split; [auto|]]]. intros [->|I]; auto.
    - split; [apply (dget_ddel_neq ok); auto|split; [auto|split; auto]].
    - destruct (Snoc (JDelete k0) (answers s)) as [S1 S2]; [intros x; simpl; rewrite eqb_neq; auto|exists []; rewrite app_nil_r; auto|]. auto.
    - destruct (jobs s) as [|j r] eqn:E; [simpl; auto|].
      assert (H : forall j st, st = (match j with JWrite k v => dset eqb (store s) k v | JDelete k => ddel eqb (store s) k | JRead _ _ => store s end) -> j :: r = jobs s ->
        fold_left (effect k) r (dget eqb st k) = est k s).
      { intros j' st -> E'. unfold est. rewrite <- E'. simpl. f_equal. destruct j' as [k' v|k'|k' i]; simpl; auto.
        - destruct (key_dec k' k) as [->|N]; [rewrite eqb_refl; apply (dget_dset_eq ok)|rewrite eqb_neq by auto; apply (dget_dset_neq ok); auto].
        - destruct (key_dec k' k) as [->|N]; [rewrite eqb_refl; apply (dget_ddel_eq ok); auto|rewrite eqb_neq by auto; apply (dget_ddel_neq ok); auto]. }
      assert (Tk : forall an i, (forall k', j <> JRead k' i) -> nth_error an i = nth_error (answers s) i -> forall st, ticket_ok k i (est k s) s -> ticket_ok k i (est k s) (set_store s st r an)).
      { intros an i N1 N2 st. unfold ticket_ok. simpl. rewrite N2. intros [A|(A & a1 & b & E' & Q)]; auto. right. split; auto.
        rewrite E in E'. destruct a1 as [|j' a1]; simpl in E'; injection E' as E1 E2; [destruct (N1 k); auto|]. exists a1, b. auto. }
      destruct j as [k' v|k'|k' i]; simpl.
      + split; auto. split; [apply (H (JWrite k' v) _); auto|]. split; auto. intros i. apply Tk; auto. discriminate.
      + split; auto. split; [apply (H (JDelete k') _); auto|]. split; auto. intros i. apply Tk; auto. discriminate.
      + split; auto. split; [apply (H (JRead k' i) _); auto|]. split; auto. intros i' Ti.
        destruct (Nat.eq_dec i' i) as [->|N].
        * destruct Ti as [A|(A & a1 & b & E' & Q)].
          { rewrite (G4 i) in A; [discriminate|]. simpl. auto. }
          left. simpl. rewrite E in E'. destruct a1 as [|j' a1]; simpl in E'; injection E' as E1 E2.
          { subst k'. rewrite nth_error_upd_eq; [|apply nth_error_Some; congruence]. unfold est. rewrite E. simpl. subst r. rewrite quiet_fold; auto. }
          { exfalso. simpl in G3. inversion G3 as [|x l N1 N2]; subst. apply N1. rewrite tickets_app. apply in_app_iff. right. simpl. auto. }
        * apply Tk; auto; [intros k'' E'; injection E' as _ ->; contradiction|]. apply nth_error_upd_neq; auto.
  Qed.

  (** ** one key *)
  Definition stage (k : K) (x cur : option V) (d : call K V) (a : code K V) (s : cache_state K V) : Prop :=
    match a with
    | ORead _ | OWrite _ _ | OTest _ | OSnap _ | OSet _ _ | OZero _ => est k s = after_call cur d /\ x = after_call cur d
    | GTest _ | GSubmit _ | PStore _ _ | DType _ | DAdd _ | DDrop _ => est k s = cur /\ x = cur
    | GWait _ i => est k s = cur /\ x = cur /\ ticket_ok k i cur s
    | GAdd _ v | GStore _ v => est k s = cur /\ x = cur /\ cur = Some v
    | GMiss _ => est k s = cur /\ x = cur /\ cur = None
    | GLook _ | GGive _ => est k s = cur /\ x = cur /\ (dget eqb (cache s) k = None -> cur = None)
    | PAdd _ v => est k s = cur /\ x = Some v /\ dget eqb (cache s) k = Some v
    | PSubmit _ v => est k s = cur /\ x = Some v
    | DSubmit _ => est k s = cur /\ x = None
    | WTake => False
    end.
  Definition excused (k : K) (a : code K V) : Prop := match a with GStore k' _ | DDrop k' => k' = k | _ => False end.
  Notation threads := (nat -> option (call K V * code K V)).
  Record J (k : K) (x cur : option V) (s : cache_state K V) (cu : threads) : Prop := {
    j_in : forall t d a, cu t = Some (d, a) -> key d = Some k -> stage k x cur d a s;
    j_out : (forall t d a, cu t = Some (d, a) -> key d <> Some k) -> est k s = cur /\ x = cur;
    j_hit : forall v, dget eqb (cache s) k = Some v -> x = Some v;
    j_miss : dget eqb (cache s) k = None -> In k (in_cache s) -> x = None \/ exists t d a, cu t = Some (d, a) /\ excused k a;
    j_snap : forall t d w ks, cu t = Some (d, OSet w ks) -> In k ks -> dget eqb (cache s) k = None -> x = None }.

  Lemma stage_frame k x cur d a s s' : stage k x cur d a s -> dget eqb (cache s') k = dget eqb (cache s) k -> est k s' = est k s ->
    (forall i, ticket_ok k i (est k s) s -> ticket_ok k i (est k s) s') -> stage k x cur d a s'.
  Proof.
    intros S C E T. destruct a; simpl in *; rewrite ?C, ?E; auto. destruct S as (S1 & S2 & S3). split; auto. split; auto. subst cur. auto.
  Qed.
  Lemma fits_key d a k : fits d a -> touches k a \/ adds k a -> key d = Some k.
  Proof. destruct d, a; simpl; intros F [H|H]; try contradiction; try discriminate; subst; try destruct F; subst; auto. Qed.
  Lemma fits_excused d k a : fits d a -> excused k a -> key d = Some k.
  Proof. destruct d, a; simpl; intros F E; try contradiction; try discriminate; subst; auto. destruct F as [-> _]. auto. Qed.
  Lemma next_snap (a : code K V) (s s' : cache_state K V) w ks : exec a s = (s', Next (OSet w ks)) -> ks = dkeys (cache s) /\ s' = set_operations s (operations s) true.
  Proof.
    destruct a; simpl; unfold follows; intros E;
      repeat match type of E with context [if ?b then _ else _] => destruct b end;
      repeat match type of E with context [match ?b with _ => _ end] => destruct b end; inversion E; subst; auto.
  Qed.
  Lemma cache_free k (s : cache_state K V) : In k (dkeys (cache s)) -> dget eqb (cache s) k = None -> False.
  Proof. intros I H. apply (dget_None ok) in H. contradiction. Qed.

  (** a step of a call about another key *)
  Lemma J_foreign k x cur s (cu : threads) t d a s' n : J k x cur s cu -> cu t = Some (d, a) -> key d <> Some k -> fits d a -> good s ->
    exec a s = (s', n) ->
    J k x cur s' (put cu t (match n with Next a' => Some (d, a') | _ => None end)).
  Proof.
    intros [J1 J2 J3 J4 J5] Ct Nk F G E.
    assert (NT : ~ touches k a) by (intros H; apply Nk, (@fits_key d a); auto).
    assert (NA : ~ adds k a) by (intros H; apply Nk, (@fits_key d a); auto).
    pose proof (@exec_frame k a s G NT) as (F1 & F2 & F3 & F4). rewrite E in F1, F2, F3, F4. simpl in F1, F2, F3, F4.
    assert (O : forall u d' a', put cu t (match n with Next a' => Some (d, a') | _ => None end) u = Some (d', a') -> key d' = Some k -> u <> t /\ cu u = Some (d', a')).
    { intros u d' a' H Hk. unfold put in H. destruct (Nat.eqb u t) eqn:Eu.
      - destruct n; try discriminate. injection H as <- <-. contradiction.
      - apply Nat.eqb_neq in Eu. auto. }
    split.
    - intros u d' a' H Hk. destruct (O _ _ _ H Hk) as [N C]. apply (@stage_frame k x cur d' a' s); auto. apply (J1 u); auto.
    - intros H. rewrite F2. apply J2. intros u d' a' C Hk. destruct (Nat.eq_dec u t) as [->|N]; [congruence|].
      apply (H u d' a'); auto. rewrite put_neq; auto.
    - intros v. rewrite F1. apply J3.
    - rewrite F1. intros C I. destruct (F4 I) as [I'|[I'|(w & ks & -> & I')]]; [| contradiction |].
      + destruct (J4 C I') as [H|(u & d' & b & H & Ex)]; auto. right. exists u, d', b. rewrite put_neq; auto.
        intros ->. rewrite Ct in H. injection H as -> ->. apply Nk. apply (@fits_excused d' k b); auto.
      + left. apply (J5 t d w ks); auto.
    - intros u d' w ks. rewrite F1. unfold put. destruct (Nat.eqb u t) eqn:Eu; [|apply J5].
      destruct n as [a'| |]; try discriminate. intros H I C. injection H as <- ->. destruct (@next_snap _ _ _ _ _ E) as [-> _].
      destruct (cache_free _ _ I C).
  Qed.

  (** a step of the call about the key *)
  Section Own.
    Variables (k : K) (cur : option V) (cu : threads) (t : nat) (d : call K V).
    Hypothesis alone : forall u d' a', u <> t -> cu u = Some (d', a') -> key d' <> Some k.
    Hypothesis dk : key d = Some k.
    Lemma J_next x s a' : stage k x cur d a' s -> (forall v, dget eqb (cache s) k = Some v -> x = Some v) ->
      (dget eqb (cache s) k = None -> In k (in_cache s) -> x = None \/ excused k a') ->
      (forall u d' w ks, u <> t -> cu u = Some (d', OSet w ks) -> In k ks -> dget eqb (cache s) k = None -> x = None) ->
      (forall w ks, a' = OSet w ks -> In k ks -> dget eqb (cache s) k = None -> x = None) ->
      J k x cur s (put cu t (Some (d, a'))).
    Proof.
      intros S H M O1 O2. split; auto.
      - intros u d' b. unfold put. destruct (Nat.eqb u t) eqn:E; [intros X; injection X as <- <-; auto|].
        apply Nat.eqb_neq in E. intros C Hk. destruct (alone E C Hk).
      - intros N. exfalso. apply (N t d a'); auto. apply put_eq.
      - intros C I. destruct (M C I) as [?|X]; auto. right. exists t, d, a'. split; auto. apply put_eq.
      - intros u d' w ks. unfold put. destruct (Nat.eqb u t) eqn:E; [intros X; injection X as <- ->; eauto|]. apply Nat.eqb_neq in E. eauto.
    Qed.
    Lemma J_end x s : est k s = after_call cur d -> x = after_call cur d -> (forall v, dget eqb (cache s) k = Some v -> x = Some v) ->
      (dget eqb (cache s) k = None -> In k (in_cache s) -> x = None) ->
      (forall u d' w ks, u <> t -> cu u = Some (d', OSet w ks) -> In k ks -> dget eqb (cache s) k = None -> x = None) ->
      J k x (after_call cur d) s (put cu t None).
    Proof.
      intros E X H M O. split; auto.
      - intros u d' b. unfold put. destruct (Nat.eqb u t) eqn:Eu; [discriminate|].
        apply Nat.eqb_neq in Eu. intros C Hk. destruct (alone Eu C Hk).
      - intros u d' w ks. unfold put. destruct (Nat.eqb u t) eqn:Eu; [discriminate|]. apply Nat.eqb_neq in Eu. eauto.
    Qed.
  End Own.

  Definition outcome (k : K) (cur : option V) (s : cache_state K V) (cu : threads) (t : nat) (d : call K V) (n : next (code K V) (option V)) : Prop :=
    match n with
    | Next a' => exists x, J k x cur s (put cu t (Some (d, a')))
    | Returned r => Ok r = answer cur d /\ exists x, J k x (after_call cur d) s (put cu t None)
    | Raised e => Err e = answer cur d /\ exists x, J k x (after_call cur d) s (put cu t None)
    end.
  Lemma J_own k x cur s (cu : threads) t d a : J k x cur s cu -> cu t = Some (d, a) -> key d = Some k -> fits d a -> good s ->
    (forall u d' a', u <> t -> cu u = Some (d', a') -> key d' <> Some k) ->
    (forall u d' a', cu u = Some (d', a') -> fits d' a') ->
    (forall u d' a', cu u = Some (d', a') -> inlock a' -> locked s = true) ->
    (forall u v d' a' e b, cu u = Some (d', a') -> cu v = Some (e, b) -> inlock a' -> inlock b -> u = v) ->
    outcome k cur (fst (exec a s)) cu t d (snd (exec a s)).
  Proof.
    intros [J1 J2 J3 J4 J5] Ct Dk F G Al Fi L1 L2.
    pose proof (J1 t d a Ct Dk) as St. clear J1 J2.
    assert (M : dget eqb (cache s) k = None -> In k (in_cache s) -> x = None \/ excused k a).
    { intros C I. destruct (J4 C I) as [H|(u & d' & b & H & Ex)]; auto. right. destruct (Nat.eq_dec u t) as [->|N]; [congruence|].
      exfalso. apply (Al u d' _ N H). apply (@fits_excused d' k b); eauto. }
    assert (O5 : forall u d' w ks, u <> t -> cu u = Some (d', OSet w ks) -> In k ks -> dget eqb (cache s) k = None -> x = None) by eauto.
    assert (Lk : locked s = false -> forall u d' w ks, cu u = Some (d', OSet w ks) -> False).
    { intros L u d' w ks C. rewrite (L1 u _ _ C I) in L. discriminate. }
    assert (Lo : inlock a -> forall u d' w ks, u <> t -> cu u = Some (d', OSet w ks) -> False).
    { intros L u d' w ks N C. apply N. apply (L2 u t d' (OSet w ks) d a); auto. exact I. }
    pose proof J5 as J5'. clear J4 J5 L1 L2.
    (* the steps of _operate() before the last *)
    assert (Op : forall a' s', stage k x cur d a' s' -> cache s' = cache s -> (In k (in_cache s') -> In k (in_cache s)) ->
              ~ excused k a -> (forall w ks, a' <> OSet w ks) -> exists y, J k y cur s' (put cu t (Some (d, a')))).
    { intros a' s' S' C' I' NG NS. exists x. apply J_next; auto; rewrite ?C'; auto.
      - intros C I. destruct (M C (I' I)) as [?|H]; auto. contradiction.
      - intros w ks H. destruct (NS _ _ H). }
    assert (Ends : forall s', est k s' = after_call cur d -> x = after_call cur d -> cache s' = cache s -> (In k (in_cache s') -> In k (in_cache s)) ->
              ~ excused k a -> exists y, J k y (after_call cur d) s' (put cu t None)).
    { intros s' E' X' C' I' NG. exists x. apply J_end; auto; rewrite ?C'; auto.
      intros C I. destruct (M C (I' I)) as [?|H]; auto. contradiction. }
    assert (Done_ : forall s' w, (w = Done /\ (forall k', d <> Get k') /\ (forall k', d = Del k' -> deletable = true) \/ w = ThenGet k /\ d = Get k) ->
              est k s' = after_call cur d -> x = after_call cur d -> cache s' = cache s -> (In k (in_cache s') -> In k (in_cache s)) ->
              ~ excused k a -> outcome k cur s' cu t d (follows w)).
    { intros s' w [(-> & NG & ND)|[-> ->]] E' X' C' I' NS; simpl.
      - split; [|apply Ends; auto]. destruct d as [k'|k' v|k'|]; simpl in *; auto; [destruct (NG k'); auto|]. rewrite (ND k'); auto.
      - apply Op; simpl; auto. discriminate. }
    destruct a; simpl in St |- *.
    (* ORead, OWrite, OTest *)
    - apply Op; simpl; auto; discriminate.
    - apply Op; simpl; auto; discriminate.
    - destruct (Nat.ltb 100 (operations s)); [apply Op; simpl; auto; discriminate|].
      apply Done_; try tauto. destruct d; simpl in F, Dk; try discriminate; try (injection Dk as ->); intuition (try discriminate); subst; auto.
    (* OSnap *)
    - destruct (locked s) eqn:L; [apply Op; simpl; auto; discriminate|]. exists x. apply J_next; auto.
      intros w0 ks H I0 C. injection H as <- <-. destruct (cache_free _ _ I0 C).
    (* OSet *)
    - exists x. apply J_next; simpl; auto.
      + intros C I0. left. apply (J5' t d w ks); auto.
      + discriminate.
    (* OZero *)
    - apply Done_; simpl; try tauto. destruct d; simpl in F, Dk; try discriminate; try (injection Dk as ->); intuition (try discriminate); subst; auto.
    (* GTest *)
    - destruct d as [k'|k' v'|k'|]; simpl in F; try contradiction; try discriminate. simpl in Dk. injection Dk as ->. subst k0. destruct St as [S1 S2].
      destruct (memb eqb k (in_cache s)) eqn:Mb; [|apply Op; simpl; auto; discriminate].
      apply (memb_In ok) in Mb. apply Op; simpl; auto; try discriminate. split; auto. split; auto. intros C. destruct (M C Mb) as [H|[]]. congruence.
    (* GSubmit *)
    - destruct d as [k'|k' v'|k'|]; simpl in F; try contradiction; try discriminate. simpl in Dk. injection Dk as ->. subst k0. destruct St as [S1 S2].
      apply Op; simpl; auto; try discriminate. unfold est in *. simpl. rewrite fold_left_app. simpl. split; auto. split; auto.
      right. simpl. split; [rewrite nth_error_app2, Nat.sub_diag by lia; reflexivity|]. exists (jobs s), []. split; auto. intros j y [].
    (* GWait *)
    - destruct d as [k'|k' v'|k'|]; simpl in F; try contradiction; try discriminate. simpl in Dk. injection Dk as ->. subst k0. destruct St as (S1 & S2 & [S3|[S3 S4]]); rewrite S3.
      + destruct cur as [v|]; apply Op; simpl; auto; discriminate.
      + apply Op; simpl; auto; try discriminate. split; auto. split; auto. right. auto.
    (* GAdd *)
    - destruct d as [k'|k' v'|k'|]; simpl in F; try contradiction; try discriminate. simpl in Dk. injection Dk as ->. subst k0. destruct St as (S1 & S2 & S3).
      destruct (locked s) eqn:L; [apply Op; simpl; auto; discriminate|]. exists x. apply J_next; simpl; auto. discriminate.
    (* GStore *)
    - destruct d as [k'|k' v'|k'|]; simpl in F; try contradiction; try discriminate. simpl in Dk. injection Dk as ->. subst k0. destruct St as (S1 & S2 & S3).
      split; [simpl; rewrite S3; auto|]. exists x. apply J_end; simpl; auto; rewrite (dget_dset_eq ok); try discriminate. intros v' H. injection H as <-. congruence.
    (* GMiss *)
    - destruct d as [k'|k' v'|k'|]; simpl in F; try contradiction; try discriminate. simpl in Dk. injection Dk as ->. subst k0. destruct St as (S1 & S2 & S3).
      destruct ske; [destruct (locked s) eqn:L; [apply Op; simpl; auto; discriminate|]|]; simpl.
      + split; [rewrite S3; auto|]. exists x. apply (@J_end k cur cu t (Get k)); simpl; auto. congruence.
      + split; [rewrite S3; auto|]. apply Ends; simpl; auto.
    (* GLook *)
    - destruct d as [k'|k' v'|k'|]; simpl in F; try contradiction; try discriminate. simpl in Dk. injection Dk as ->. subst k0. destruct St as (S1 & S2 & S3).
      destruct (negb (dmem eqb (cache s) k) && ske) eqn:B; [|apply Op; simpl; auto; discriminate].
      apply andb_prop in B as [B _]. unfold dmem in B. destruct (dget eqb (cache s) k) eqn:C; [discriminate|].
      split; [rewrite (S3 eq_refl); auto|]. apply Ends; simpl; auto.
    (* GGive *)
    - destruct d as [k'|k' v'|k'|]; simpl in F; try contradiction; try discriminate. simpl in Dk. injection Dk as ->. subst k0. destruct St as (S1 & S2 & S3).
      destruct (dget eqb (cache s) k) as [v|] eqn:C.
      + split; [rewrite <- S2, (J3 v); auto|]. apply Ends; simpl; auto.
      + split; [rewrite (S3 eq_refl); auto|]. apply Ends; simpl; auto.
    (* PStore *)
    - destruct d as [k'|k' v'|k'|]; simpl in F; try contradiction; try discriminate. simpl in Dk. injection Dk as ->. destruct F as [-> ->]. destruct St as [S1 S2].
      destruct (locked s) eqn:L; [apply Op; simpl; auto; discriminate|]. exists (Some v'). apply J_next; simpl; auto; rewrite (dget_dset_eq ok); auto; discriminate.
    (* PAdd *)
    - destruct d as [k'|k' v'|k'|]; simpl in F; try contradiction; try discriminate. simpl in Dk. injection Dk as ->. destruct F as [-> ->]. destruct St as (S1 & S2 & S3).
      exists (Some v'). apply J_next; simpl; auto; rewrite S3; auto; discriminate.
    (* PSubmit *)
    - destruct d as [k'|k' v'|k'|]; simpl in F; try contradiction; try discriminate. simpl in Dk. injection Dk as ->. destruct F as [-> ->]. destruct St as [S1 S2].
      apply Op; simpl; auto; try discriminate. split; auto. unfold est. simpl. rewrite fold_left_app. simpl. rewrite eqb_refl. auto.
    (* DType *)
    - destruct d as [k'|k' v'|k'|]; simpl in F; try contradiction; try discriminate. simpl in Dk. injection Dk as ->. subst k0. destruct St as [S1 S2].
      assert (D : deletable = true \/ deletable = false) by (destruct deletable; auto).
      destruct D as [D|D]; rewrite D; [apply Op; simpl; auto; discriminate|]. split; [simpl; rewrite D; auto|]. apply Ends; simpl; rewrite ?D; auto.
    (* DAdd *)
    - destruct d as [k'|k' v'|k'|]; simpl in F; try contradiction; try discriminate. simpl in Dk. injection Dk as ->. destruct F as [-> D]. destruct St as [S1 S2].
      destruct ske; [destruct (locked s) eqn:L; [apply Op; simpl; auto; discriminate|]|apply Op; simpl; auto; discriminate].
      exists x. apply J_next; simpl; auto. discriminate.
    (* DDrop *)
    - destruct d as [k'|k' v'|k'|]; simpl in F; try contradiction; try discriminate. simpl in Dk. injection Dk as ->. destruct F as [-> D]. destruct St as [S1 S2].
      exists None. apply J_next; simpl; auto. rewrite (dget_ddel_eq ok) by apply G. discriminate.
    (* DSubmit *)
    - destruct d as [k'|k' v'|k'|]; simpl in F; try contradiction; try discriminate. simpl in Dk. injection Dk as ->. destruct F as [-> D]. destruct St as [S1 S2].
      apply Op; simpl; auto; try discriminate. rewrite D. split; auto. unfold est. simpl. rewrite fold_left_app. simpl. rewrite eqb_refl. auto.
    (* WTake *)
    - contradiction.
  Qed.

  (** ** the lock *)
  Lemma lock_step (a : code K V) (s s' : cache_state K V) n : exec a s = (s', n) ->
    (~ inlock a -> locked s = true -> locked s' = true) /\
    (forall a', n = Next a' -> inlock a' -> locked s' = true /\ (inlock a \/ locked s = false)).
  Proof.
    destruct a; simpl; unfold follows; intros E;
      repeat match type of E with context [if ?b then _ else _] => destruct b eqn:? end;
      repeat match type of E with context [match ?b with _ => _ end] => destruct b eqn:? end; inversion E; subst; simpl;
      (split; [intros; congruence || tauto|intros b Eb Ib; try discriminate; injection Eb as <-; simpl in Ib; try contradiction; auto]).
  Qed.

  (** ** all keys *)
  Lemma history_app k (l m : list (call K V * res (option V))) : history eqb k (l ++ m) = history eqb k l ++ history eqb k m.
  Proof. apply filter_app. Qed.
  Lemma history_own k (d : call K V) r : key d = Some k -> history eqb k [(d, r)] = [(d, r)].
  Proof. intros H. unfold history. simpl. rewrite H, eqb_refl. auto. Qed.
  Lemma history_other k (d : call K V) r : key d <> Some k -> history eqb k [(d, r)] = [].
  Proof. intros H. unfold history. simpl. destruct (key d) as [k'|]; auto. rewrite eqb_neq; auto. congruence. Qed.
  Lemma value_app (x : option V) (l m : list (call K V * res (option V))) : value_after x (l ++ m) = value_after (value_after x l) m.
  Proof. apply fold_left_app. Qed.
  Lemma as_dict_snoc (l : list (call K V * res (option V))) : forall x d r, as_dict deletable x (l ++ [(d, r)]) <-> as_dict deletable x l /\ r = answer (value_after x l) d.
  Proof. induction l as [|[d0 r0] l IH]; intros x d r; simpl; [tauto|]. rewrite IH. unfold value_after. simpl. tauto. Qed.

  Section Lock.
    Variable programs : nat -> list (call K V).
    Record LInv (c : cfg) : Prop := {
      l_todo : forall t d, In d (todo c t) -> In d (programs t);
      l_current : forall t d a, current c t = Some (d, a) -> In d (programs t) /\ fits d a;
      l_locked : forall t d a, current c t = Some (d, a) -> inlock a -> locked (shared c) = true;
      l_one : forall u v d a e b, current c u = Some (d, a) -> current c v = Some (e, b) -> inlock a -> inlock b -> u = v;
      l_good : good (shared c) }.
    Lemma LInv_start (store0 : dict K V) : dwf store0 -> LInv (wb_start store0 programs).
    Proof. intros W. split; simpl; try discriminate; auto. split; simpl; auto using NoDup_nil. constructor. contradiction. Qed.
    Lemma LInv_turn c t : LInv c -> LInv (turn (first (V := V)) exec c t).
    Proof.
      intros [I1 I2 I3 I4 I5]. unfold turn. destruct (current c t) as [[d a]|] eqn:Ct.
      - destruct (I2 _ _ _ Ct) as [Pt F]. pose proof (@good_exec a _ I5) as G'. destruct (exec a (shared c)) as [s n] eqn:E. simpl in G'.
        destruct (@lock_step _ _ _ _ E) as [Lk1 Lk2].
        set (o := match n with Next a' => Some (d, a') | _ => None end).
        assert (Keep : forall u d' a', put (current c) t o u = Some (d', a') -> u <> t /\ current c u = Some (d', a') \/ u = t /\ n = Next a' /\ d' = d).
        { intros u d' a'. unfold put. destruct (Nat.eqb u t) eqn:Eu; [|apply Nat.eqb_neq in Eu; auto]. apply Nat.eqb_eq in Eu. unfold o.
          destruct n; try discriminate. intros H. injection H as <- <-. auto. }
        assert (H2 : forall u d' a', put (current c) t o u = Some (d', a') -> In d' (programs u) /\ fits d' a').
        { intros u d' a' H. destruct (Keep _ _ _ H) as [[_ H']|(-> & -> & ->)]; eauto. split; auto. apply (@fits_next d a _ _ a' F E). }
        assert (H3 : forall u d' a', put (current c) t o u = Some (d', a') -> inlock a' -> locked s = true).
        { intros u d' a' H L. destruct (Keep _ _ _ H) as [[N H']|(-> & -> & ->)]; [|apply (Lk2 a'); auto].
          apply Lk1; [intros La; apply N; apply (I4 u t d' a' d a); auto|]. apply (I3 u d' a'); auto. }
        assert (H4 : forall u v d' a' e b, put (current c) t o u = Some (d', a') -> put (current c) t o v = Some (e, b) -> inlock a' -> inlock b -> u = v).
        { assert (X : forall u d' a' a2, u <> t -> current c u = Some (d', a') -> inlock a' -> n = Next a2 -> inlock a2 -> False).
          { intros u d' a' a2 N H La En Lb. destruct (Lk2 a2 En Lb) as [_ [L|L]]; [apply N; apply (I4 u t d' a' d a); auto|]. rewrite (I3 u d' a') in L; auto. discriminate. }
          intros u v d' a' e b Hu Hv La Lb. destruct (Keep _ _ _ Hu) as [[N H']|(-> & En & ->)], (Keep _ _ _ Hv) as [[N2 H2']|(-> & En2 & ->)]; auto.
          - apply (I4 u v d' a' e b); auto.
          - destruct (X u d' a' b); auto.
          - destruct (X v e b a'); auto. }
        destruct n as [a'|r|e]; (split; simpl; auto).
      - destruct (todo c t) as [|d r] eqn:Et; [split; auto|].
        assert (Pt : In d (programs t)) by (apply I1; rewrite Et; left; auto).
        assert (NL : ~ inlock (first d)) by (destruct d; simpl; auto).
        assert (Keep : forall u d' a', put (current c) t (Some (d, first d)) u = Some (d', a') -> u <> t /\ current c u = Some (d', a') \/ u = t /\ a' = first d /\ d' = d).
        { intros u d' a'. unfold put. destruct (Nat.eqb u t) eqn:Eu; [|apply Nat.eqb_neq in Eu; auto]. apply Nat.eqb_eq in Eu.
          intros H. injection H as <- <-. auto. }
        split; simpl; auto.
        + intros u d'. unfold put. destruct (Nat.eqb u t) eqn:Eu; [|apply I1]. apply Nat.eqb_eq in Eu. subst u. intros H. apply I1. rewrite Et. right. auto.
        + intros u d' a' H. destruct (Keep _ _ _ H) as [[_ H']|(-> & -> & ->)]; eauto using fits_first.
        + intros u d' a' H L. destruct (Keep _ _ _ H) as [[_ H']|(-> & -> & ->)]; [eauto|contradiction].
        + intros u v d' a' e b Hu Hv La Lb. destruct (Keep _ _ _ Hu) as [[_ H']|(-> & -> & ->)]; [|contradiction].
          destruct (Keep _ _ _ Hv) as [[_ H2']|(-> & -> & ->)]; [eauto|contradiction].
    Qed.
  End Lock.

  (** ** a key the calls of which do not overlap *)
  Section Turns.
    Variable store0 : dict K V.
    Hypothesis wf0 : dwf store0.
    Variable programs : nat -> list (call K V).
    Variable k : K.
    Notation worth c := (value_after (dget eqb store0 k) (history eqb k (log c))).
    Record KInv (c : cfg) : Prop := {
      k_lock : LInv programs c;
      k_one : forall u v d a e b, current c u = Some (d, a) -> current c v = Some (e, b) -> key d = Some k -> key e = Some k -> u = v;
      k_dict : as_dict deletable (dget eqb store0 k) (history eqb k (log c));
      k_J : exists x, J k x (worth c) (shared c) (current c) }.
    Lemma KInv_start : KInv (wb_start store0 programs).
    Proof.
      split; simpl; try discriminate; auto; [apply LInv_start; auto|]. exists (dget eqb store0 k). split; simpl; try discriminate; auto. contradiction.
    Qed.
    Lemma KInv_turn c t : KInv c ->
      (forall d q, current c t = None -> todo c t = d :: q -> key d = Some k -> forall u e a, current c u = Some (e, a) -> key e <> Some k) ->
      KInv (turn (first (V := V)) exec c t).
    Proof.
      intros [L One A [x Jx]] Al. pose proof (@LInv_turn programs c t L) as L'. destruct L as [I1 I2 I3 I4 I5].
      revert L'. unfold turn. destruct (current c t) as [[d a]|] eqn:Ct.
      - destruct (I2 _ _ _ Ct) as [Pt F]. destruct (exec a (shared c)) as [s n] eqn:E. intros L'.
        set (o := match n with Next a' => Some (d, a') | _ => None end).
        assert (H4 : forall u v d' a' e b, put (current c) t o u = Some (d', a') -> put (current c) t o v = Some (e, b) -> key d' = Some k -> key e = Some k -> u = v).
        { assert (X : forall u d' a', put (current c) t o u = Some (d', a') -> exists b, current c u = Some (d', b)).
          { intros u d' a'. unfold put. destruct (Nat.eqb u t) eqn:Eu; [|eauto]. apply Nat.eqb_eq in Eu. subst u. unfold o. destruct n; try discriminate. intros H. injection H as <- <-. eauto. }
          intros u v d' a' e b Hu Hv. destruct (X _ _ _ Hu) as [b1 B1], (X _ _ _ Hv) as [b2 B2]. exact (One u v d' b1 e b2 B1 B2). }
        assert (Own' : key d = Some k -> outcome k (worth c) s (current c) t d n).
        { intros Dk. pose proof (@J_own k x _ _ _ t d a Jx Ct Dk F I5) as O. rewrite E in O. apply O; auto.
          - intros u d' a' N C Hk. apply N. apply (One u t d' a' d a); auto.
          - intros u d' a' C. apply (I2 _ _ _ C). }
        assert (Hk : (key d = Some k) \/ (key d <> Some k)).
        { destruct (key d) as [k'|]; [|right; discriminate]. destruct (key_dec k' k) as [->|N]; [auto|right; congruence]. }
        assert (Frn : key d <> Some k -> exists x, J k x (worth c) s (put (current c) t o)).
        { intros Dk. exists x. apply (@J_foreign k x _ _ _ t d a s n Jx); auto. }
        destruct n as [a'|r|e]; (split; [exact L'| | |]); simpl; auto.
        + destruct Hk as [Dk|Dk]; [apply (Own' Dk)|apply (Frn Dk)].
        + rewrite history_app. destruct Hk as [Dk|Dk]; [|rewrite history_other, app_nil_r by auto; auto].
          rewrite history_own by auto. destruct (Own' Dk) as [R _]. rewrite as_dict_snoc. auto.
        + rewrite history_app. destruct Hk as [Dk|Dk]; [|rewrite history_other, app_nil_r by auto; apply (Frn Dk)].
          rewrite history_own by auto. destruct (Own' Dk) as [_ [y Jy]]. rewrite value_app. exists y. exact Jy.
        + rewrite history_app. destruct Hk as [Dk|Dk]; [|rewrite history_other, app_nil_r by auto; auto].
          rewrite history_own by auto. destruct (Own' Dk) as [R _]. rewrite as_dict_snoc. auto.
        + rewrite history_app. destruct Hk as [Dk|Dk]; [|rewrite history_other, app_nil_r by auto; apply (Frn Dk)].
          rewrite history_own by auto. destruct (Own' Dk) as [_ [y Jy]]. rewrite value_app. exists y. exact Jy.
      - destruct (todo c t) as [|d r] eqn:Et; [split; eauto|]. intros L'.
        pose proof (Al d r eq_refl eq_refl) as Al'. clear Al.
        assert (Keep : forall u d' a', put (current c) t (Some (d, first d)) u = Some (d', a') -> u <> t /\ current c u = Some (d', a') \/ u = t /\ a' = first d /\ d' = d).
        { intros u d' a'. unfold put. destruct (Nat.eqb u t) eqn:Eu; [|apply Nat.eqb_neq in Eu; auto]. apply Nat.eqb_eq in Eu.
          intros H. injection H as <- <-. auto. }
        split; simpl; auto.
        + intros u v d' a' e b Hu Hv Ku Kv. destruct (Keep _ _ _ Hu) as [[_ H']|(-> & -> & ->)], (Keep _ _ _ Hv) as [[_ H2']|(-> & -> & ->)]; eauto.
          * exfalso. apply (Al' Kv u d' a' H' Ku).
          * exfalso. apply (Al' Ku v e b H2' Kv).
        + destruct Jx as [J1 J2 J3 J4 J5]. exists x. split; auto.
          * intros u d' a' H Dk. destruct (Keep _ _ _ H) as [[_ H']|(-> & -> & ->)]; [eauto|].
            destruct J2 as [E1 E2]; [intros u d' a' C Hk; apply (Al' Dk u d' a' C Hk)|].
            destruct d; simpl in *; auto. discriminate.
          * intros H. apply J2. intros u d' a' C. apply (H u d' a'). rewrite put_neq; auto. intros ->. congruence.
          * intros C I0. destruct (J4 C I0) as [?|(u & d' & b & H & Ex)]; auto. right. exists u, d', b. split; auto. rewrite put_neq; auto. intros ->. congruence.
          * intros u d' w ks H. destruct (Keep _ _ _ H) as [[_ H']|(_ & H' & _)]; [eauto|]. destruct d; discriminate.
    Qed.
    Lemma KInv_run schedule : forall c, KInv c -> in_turn eqb deletable ske k c schedule -> KInv (wb_run eqb ske deletable c schedule).
    Proof. induction schedule as [|t r IH]; intros c I0; simpl; auto. intros [H T]. apply (IH (turn (first (V := V)) exec c t)); auto. apply KInv_turn; auto. Qed.
    Lemma turns_log schedule : in_turn eqb deletable ske k (wb_start store0 programs) schedule ->
      as_dict deletable (dget eqb store0 k) (history eqb k (log (wb_run eqb ske deletable (wb_start store0 programs) schedule))).
    Proof. intros T. apply KInv_run; auto. apply KInv_start. Qed.
    Lemma turns_rest schedule : in_turn eqb deletable ske k (wb_start store0 programs) schedule ->
      let c := wb_run eqb ske deletable (wb_start store0 programs) schedule in
      at_rest c -> dget eqb (store (shared c)) k = worth c.
    Proof.
      intros T c [Id Jb]. destruct (KInv_run _ KInv_start T) as [_ _ _ [x [_ J2 _ _ _]]].
      destruct J2 as [E _]; [intros t d a C; unfold c in Id; rewrite Id in C; discriminate|]. fold c in E. unfold est in E. rewrite Jb in E. exact E.
    Qed.
    Lemma in_turn_app s1 s2 : forall c : cfg, in_turn eqb deletable ske k c s1 -> in_turn eqb deletable ske k (wb_run eqb ske deletable c s1) s2 -> in_turn eqb deletable ske k c (s1 ++ s2).
    Proof. induction s1 as [|t r IH]; intros c; simpl; auto. intros [H T] T2. split; auto. Qed.
    (* nobody but [t] has anything to do but work *)
    Definition lone (t : nat) (c : cfg) : Prop := forall u, u <> t -> only_works (todo c u) /\ forall d a, current c u = Some (d, a) -> d = Work.
    Lemma lone_turn t c u : lone t c -> lone t (turn (first (V := V)) exec c u).
    Proof.
      intros H v N. destruct (H v N) as [H1 H2]. unfold turn. destruct (current c u) as [[d a]|] eqn:Cu.
      - assert (X : forall o d' a', put (current c) u o v = Some (d', a') -> (forall d2 a2, o = Some (d2, a2) -> d2 = d) -> d' = Work).
        { intros o d' a'. unfold put. destruct (Nat.eqb v u) eqn:E; [|eauto]. apply Nat.eqb_eq in E. subst u. intros -> Ho. rewrite (Ho _ _ eq_refl). eauto. }
        destruct (exec a (shared c)) as [s [a'|r|e]]; simpl; (split; auto; intros d' b B; apply (X _ _ _ B); congruence).
      - destruct (todo c u) as [|d q] eqn:Et; auto. simpl. unfold put. destruct (Nat.eqb v u) eqn:E; auto. apply Nat.eqb_eq in E. subst u. rewrite Et in H1.
        split; [intros x I0; apply H1; right; auto|]. intros d' a' B. injection B as <- _. apply H1. left. auto.
    Qed.
    Lemma lone_in_turn t schedule : forall c, lone t c -> in_turn eqb deletable ske k c schedule.
    Proof.
      induction schedule as [|u r IH]; intros c H; simpl; auto. split; [|apply IH, lone_turn; auto].
      intros d q Cu Et Dk v e a Cv Ke. destruct (Nat.eq_dec u t) as [->|N].
      - destruct (Nat.eq_dec v t) as [->|M]; [congruence|]. destruct (H v M) as [_ H2]. rewrite (H2 _ _ Cv) in Ke. discriminate.
      - destruct (H u N) as [H1 _]. rewrite Et in H1. rewrite (H1 d (or_introl eq_refl)) in Dk. discriminate.
    Qed.
    Lemma log_grows (c : cfg) schedule : exists l, log (wb_run eqb ske deletable c schedule) = log c ++ l.
    Proof.
      revert c. induction schedule as [|t r IH]; intros c; [exists []; simpl; rewrite app_nil_r; auto|].
      assert (H : exists l, log (turn (first (V := V)) exec c t) = log c ++ l).
      { unfold turn. destruct (current c t) as [[d a]|]; [destruct (exec a (shared c)) as [s [a'|x|e]]|destruct (todo c t)]; simpl; eauto; exists []; rewrite app_nil_r; auto. }
      destruct H as [l H]. destruct (IH (turn (first (V := V)) exec c t)) as [m M]. exists (l ++ m).
      change (wb_run eqb ske deletable c (t :: r)) with (wb_run eqb ske deletable (turn (first (V := V)) exec c t) r). rewrite M, H, app_assoc. auto.
    Qed.
    Lemma turns_coherent s1 : in_turn eqb deletable ske k (wb_start store0 programs) s1 -> let c := wb_run eqb ske deletable (wb_start store0 programs) s1 in
      at_rest c -> forall t, todo c t = [Get k] -> (forall u, u <> t -> only_works (todo c u)) ->
      forall s2 r, In (Get k, r) (skipn (length (log c)) (log (wb_run eqb ske deletable c s2))) -> r = found (dget eqb (store (shared c)) k).
    Proof.
      intros T1 c R t T O s2 r I. pose proof (turns_rest _ T1 R) as E0. fold c in E0. rewrite E0. clear E0.
      set (P := fun c' : cfg => (forall u d, In d (todo c' u) -> d = Get k \/ d = Work) /\ (forall u d a, current c' u = Some (d, a) -> d = Get k \/ d = Work) /\
        forall d x, In (d, x) (skipn (length (log c)) (log c')) -> d = Get k \/ d = Work).
      assert (Pc : P (wb_run eqb ske deletable c s2)).
      { unfold wb_run. assert (G0 : exists l0, log c = log c ++ l0) by (exists []; rewrite app_nil_r; auto).
        enough (W : P (run (first (V := V)) exec c s2) /\ exists l, log (run (first (V := V)) exec c s2) = log c ++ l) by apply W.
        apply run_inv.
        - split; auto. split; [|split].
          + intros u d H. destruct (Nat.eq_dec u t) as [->|N]; [rewrite T in H; destruct H as [<-|[]]; auto|right; apply (O u N); auto].
          + intros u d a H. destruct R as [R _]. rewrite R in H. discriminate.
          + rewrite skipn_all. intros d x [].
        - intros c0 t0 [(P1 & P2 & P3) [l L]]. unfold turn. destruct (current c0 t0) as [[d a]|] eqn:E.
          + assert (D : d = Get k \/ d = Work) by eauto.
            assert (P2' : forall o u d' a', put (current c0) t0 o u = Some (d', a') -> (forall d2 a2, o = Some (d2, a2) -> d2 = d) -> d' = Get k \/ d' = Work).
            { intros o u d' a'. unfold put. destruct (Nat.eqb u t0); eauto. intros -> H. rewrite (H d' a' eq_refl). auto. }
            assert (P3' : forall e, (forall d' x, In (d', x) (skipn (length (log c)) (log c0 ++ [(d, e)])) -> d' = Get k \/ d' = Work) /\ exists l', log c0 ++ [(d, e)] = log c ++ l').
            { intros e. rewrite L in *. split; [|exists (l ++ [(d, e)]); rewrite app_assoc; auto]. intros d' x. rewrite <- app_assoc, skipn_app, skipn_all, Nat.sub_diag. simpl.
              intros H. apply in_app_iff in H as [H|[H|[]]]; [|injection H as <- _; auto]. apply (P3 d' x). rewrite skipn_app, skipn_all, Nat.sub_diag. auto. }
            destruct (exec a (shared c0)) as [s [a'|x|e]]; (split; [split; [|split]|]); simpl; auto; try (apply P3'); try (intros u d' b H; apply (P2' _ _ _ _ H); congruence).
            * eauto.
          + destruct (todo c0 t0) as [|d q] eqn:Et; [split; [split|]; eauto|]. assert (D : d = Get k \/ d = Work) by (apply (P1 t0); rewrite Et; left; auto).
            split; [split; [|split]|]; simpl; eauto.
            * intros u d'. unfold put. destruct (Nat.eqb u t0) eqn:Eu; [|apply P1]. intros H. apply (P1 t0). rewrite Et. right. auto.
            * intros u d' a'. unfold put. destruct (Nat.eqb u t0) eqn:Eu; [|apply P2]. intros H. injection H as <- _. auto. }
      destruct Pc as (_ & _ & P3). destruct (log_grows c s2) as [l L]. rewrite L in I, P3. rewrite skipn_app, skipn_all, Nat.sub_diag in I, P3. simpl in I, P3.
      assert (A : as_dict deletable (dget eqb store0 k) (history eqb k (log c ++ l))).
      { rewrite <- L. unfold c. unfold wb_run, run. rewrite <- fold_left_app. apply turns_log. apply in_turn_app; auto. apply (lone_in_turn (t := t)). intros u N. split; [apply (O u N)|]. intros d a C. destruct R as [R _]. unfold c in R. rewrite R in C. discriminate. }
      rewrite history_app in A. clear - A I P3 ok. revert A. generalize (history eqb k (log c)). intros h A.
      assert (H : as_dict deletable (value_after (dget eqb store0 k) h) (history eqb k l)).
      { revert A. generalize (dget eqb store0 k). induction h as [|[d x] h IH]; intros y; simpl; auto. intros [_ A]. apply IH in A. exact A. }
      clear A. revert H. generalize (value_after (dget eqb store0 k) h). intros y.
      induction l as [|[d x] l IH]; intros H; [destruct I|]. unfold history in H. simpl in H.
      destruct (P3 d x (or_introl eq_refl)) as [-> | ->]; simpl in H.
      - rewrite eqb_refl in H. simpl in H. destruct H as [Hx H]. destruct I as [I|I]; [injection I as <-; exact Hx|]. apply IH; auto. intros d' x' I'. apply (P3 d' x'). right. auto.
      - destruct I as [I|I]; [discriminate|]. apply IH; auto. intros d' x' I'. apply (P3 d' x'). right. auto.
    Qed.
  End Turns.
  (* in_turn for finitely many threads, to be computed *)
  Definition about (k : K) (d : call K V) : bool := match key d with Some k' => eqb k' k | None => false end.
  Fixpoint in_turnb (n : nat) (k : K) (c : cfg) (schedule : list nat) : bool :=
    match schedule with
    | [] => true
    | t :: r =>
      match current c t, todo c t with
      | None, d :: _ => negb (about k d) || forallb (fun u => match current c u with Some (e, _) => negb (about k e) | None => true end) (seq 0 n)
      | _, _ => true
      end && in_turnb n k (turn (first (V := V)) exec c t) r
    end.
  Lemma about_true k d : about k d = true <-> key d = Some k.
  Proof. unfold about. destruct (key d) as [k'|]; [|split; discriminate]. split; [intros H; apply ok in H; congruence|intros H; injection H as ->; apply ok; auto]. Qed.
  Lemma in_turnb_ok n k schedule : forall c : cfg, (forall t, n <= t -> todo c t = [] /\ current c t = None) -> in_turnb n k c schedule = true -> in_turn eqb deletable ske k c schedule.
  Proof.
    induction schedule as [|t r IH]; intros c B; simpl; auto. intros H. apply andb_prop in H as [H1 H2]. split.
    - intros d q Ct Et Dk u e a Cu Ke. rewrite Ct, Et in H1. apply about_true in Dk. rewrite Dk in H1. simpl in H1. rewrite forallb_forall in H1.
      assert (Lu : u < n) by (destruct (Nat.lt_ge_cases u n) as [?|G]; auto; destruct (B u G) as [_ X]; congruence).
      specialize (H1 u ltac:(apply in_seq; lia)). rewrite Cu in H1. apply about_true in Ke. rewrite Ke in H1. discriminate.
    - apply IH; auto. intros u G. destruct (B u G) as [B1 B2]. unfold turn. destruct (current c t) as [[d a]|] eqn:Ct.
      + assert (N : u <> t) by (intros ->; congruence). destruct (exec a (shared c)) as [s [a'|x|e]]; simpl; rewrite put_neq by auto; auto.
      + destruct (todo c t) as [|d q] eqn:Et; auto. assert (N : u <> t) by (intros ->; congruence). simpl. rewrite !put_neq by auto. auto.
  Qed.
  Lemma apart_in_turn (programs : nat -> list (call K V)) (store0 : dict K V) k schedule : dwf store0 -> apart programs -> in_turn eqb deletable ske k (wb_start store0 programs) schedule.
  Proof.
    intros W Ap. enough (H : forall c : cfg, LInv programs c -> in_turn eqb deletable ske k c schedule) by (apply H, LInv_start; auto).
    induction schedule as [|t r IH]; intros c L; simpl; auto. split; [|apply IH, LInv_turn; auto].
    intros d q Ct Et Dk u e a Cu Ke. assert (u = t); [|congruence].
    apply (Ap u t e d); [apply (l_current L _ Cu)|apply (l_todo L); rewrite Et; left; auto|congruence|congruence].
  Qed.

  (** ** whatever the threads do *)
  Section Any.
    Variable programs : nat -> list (call K V).

    (** *** where the values come from *)
    Variable store0 : dict K V.
    Definition known (k : K) (v : V) : Prop := dget eqb store0 k = Some v \/ exists t, In (Put k v) (programs t).
    Definition mcode (a : code K V) (s : cache_state K V) : Prop :=
      match a with
      | GAdd k v | GStore k v => known k v
      | GWait k i => i < length (answers s) /\ (forall k', In (JRead k' i) (jobs s) -> k' = k) /\
                     forall v, nth_error (answers s) i = Some (Some (Some v)) -> known k v
      | _ => True
      end.
    Record values (s : cache_state K V) : Prop := {
      v_store : forall k v, dget eqb (store s) k = Some v -> known k v;
      v_cache : forall k v, dget eqb (cache s) k = Some v -> known k v;
      v_jobs : forall k v, In (JWrite k v) (jobs s) -> known k v }.
    Lemma dset_known (d : dict K V) k v : (forall k v, dget eqb d k = Some v -> known k v) -> known k v ->
      forall k' v', dget eqb (dset eqb d k v) k' = Some v' -> known k' v'.
    Proof.
      intros H Hk k' v'. destruct (key_dec k' k) as [->|N]; [rewrite (dget_dset_eq ok)|rewrite (dget_dset_neq ok) by auto; auto]. intros E. injection E as <-. auto.
    Qed.
    Lemma ddel_known (d : dict K V) k : dwf d -> (forall k v, dget eqb d k = Some v -> known k v) ->
      forall k' v', dget eqb (ddel eqb d k) k' = Some v' -> known k' v'.
    Proof.
      intros W H k' v'. destruct (key_dec k' k) as [->|N]; [rewrite (dget_ddel_eq ok) by auto; discriminate|rewrite (dget_ddel_neq ok) by auto; auto].
    Qed.
    Lemma answers_exec (a : code K V) s : good s ->
      length (answers s) <= length (answers (fst (exec a s))) /\
      (forall i k, i < length (answers s) -> In (JRead k i) (jobs (fst (exec a s))) -> In (JRead k i) (jobs s)) /\
      (forall i x, nth_error (answers (fst (exec a s))) i = Some (Some x) -> nth_error (answers s) i = Some (Some x) \/
         exists k r, jobs s = JRead k i :: r /\ x = dget eqb (store s) k).
    Proof.
      intros G. destruct a; simpl; repeat match goal with |- context [if ?b then _ else _] => destruct b end; simpl; auto.
      - rewrite app_length. simpl. split; [lia|]. split.
        + intros i k' L I. apply in_app_iff in I as [I|[I|[]]]; auto. injection I as <- <-. lia.
        + intros i x H. left. destruct (Nat.lt_ge_cases i (length (answers s))) as [L|L]; [rewrite nth_error_app1 in H; auto|].
          rewrite nth_error_app2 in H by lia. destruct (i - length (answers s)) as [|[|m]]; discriminate.
      - split; auto. split; auto. intros i k' L I. apply in_app_iff in I as [I|[I|[]]]; auto. discriminate.
      - split; auto. split; auto. intros i k' L I. apply in_app_iff in I as [I|[I|[]]]; auto. discriminate.
      - destruct (jobs s) as [|[k v|k|k i] r] eqn:E; simpl; auto; rewrite ?E.
        + split; auto.
        + rewrite upd_length. split; auto. split; auto. intros j x H. destruct (Nat.eq_dec j i) as [->|N].
          * right. exists k, r. split; auto. rewrite nth_error_upd_eq in H; [congruence|].
            apply nth_error_Some. rewrite (g_open G i); [discriminate|]. rewrite E. simpl. auto.
          * left. rewrite nth_error_upd_neq in H; auto.
    Qed.
    Record MInv (c : cfg) : Prop := {
      m_lock : LInv programs c;
      m_values : values (shared c);
      m_code : forall t d a, current c t = Some (d, a) -> mcode a (shared c);
      m_log : forall k v, In (Get k, Ok (Some v)) (log c) -> known k v }.
    Lemma values_exec t (d : call K V) a s : good s -> values s -> mcode a s -> fits d a -> In d (programs t) -> values (fst (exec a s)).
    Proof.
      intros G [V1 V2 V3] Mc F P.
      assert (Pk : forall k v, fits d (PStore k v) \/ fits d (PSubmit k v) -> known k v).
      { intros k v H. right. exists t. destruct d; simpl in H; destruct H as [H|H]; try contradiction; try discriminate; destruct H as [-> ->]; auto. }
      destruct a; simpl in *; repeat match goal with |- context [if ?b then _ else _] => destruct b end; simpl; try (split; auto; fail).
      - split; simpl; auto. intros k' v H. apply in_app_iff in H as [H|[H|[]]]; auto. discriminate.
      - split; simpl; auto. apply dset_known; auto.
      - split; simpl; auto. apply dset_known; auto.
      - split; simpl; auto. intros k' v' H. apply in_app_iff in H as [H|[H|[]]]; auto. injection H as <- <-. auto.
      - split; simpl; auto. apply ddel_known; auto. apply G.
      - split; simpl; auto. intros k' v' H. apply in_app_iff in H as [H|[H|[]]]; auto. discriminate.
      - destruct (jobs s) as [|[k v|k|k i] r] eqn:E; simpl in *.
        + split; auto. rewrite E. auto.
        + split; simpl; auto. apply dset_known; auto.
        + split; simpl; auto. apply ddel_known; auto. apply G.
        + split; simpl; auto.
    Qed.
    Lemma mcode_other a b s : good s -> values s -> mcode a s -> mcode a (fst (exec b s)).
    Proof.
      intros G [V1 V2 V3] H. destruct a; simpl in *; auto. destruct H as (H1 & H2 & H3). destruct (@answers_exec b s G) as (A1 & A2 & A3).
      split; [lia|]. split; [eauto|]. intros v E. destruct (A3 _ _ E) as [E'|(k' & r & E' & E2)]; auto.
      apply V1. rewrite E2. f_equal. symmetry. apply H2. rewrite E'. left. auto.
    Qed.
    Lemma mcode_next d a a' s s' : good s -> values s -> mcode a s -> fits d a -> exec a s = (s', Next a') -> mcode a' s'.
    Proof.
      intros G Vs Mc F E. pose proof (@answers_exec a s G) as An. pose proof (@mcode_other a a s G Vs Mc) as Mo. rewrite E in An, Mo. simpl in An, Mo.
      destruct a; simpl in E; unfold follows in E;
        repeat match type of E with context [if ?b then _ else _] => destruct b eqn:? end;
        try (injection E as <- <-; simpl; auto; fail);
        try (repeat match type of E with context [match ?b with _ => _ end] => destruct b eqn:? end; inversion E; subst; simpl; auto; fail).
      - injection E as <- <-. simpl. split; [rewrite app_length; simpl; lia|]. split.
        + intros k' I. apply in_app_iff in I as [I|[I|[]]]; [|congruence].
          assert (X : nth_error (answers s) (length (answers s)) <> None).
          { rewrite (g_open G); [discriminate|]. apply in_flat_map. exists (JRead k' (length (answers s))). simpl. auto. }
          apply nth_error_Some in X. lia.
        + intros v. rewrite nth_error_app2, Nat.sub_diag by lia. discriminate.
      - simpl in Mc. destruct Mc as (M1 & M2 & M3). destruct (nth_error (answers s) ticket) as [[[v|]|]|] eqn:En; injection E as <- <-; simpl; auto.
    Qed.
    Lemma result_known d a s s' v : good s -> values s -> mcode a s -> fits d a -> exec a s = (s', Returned (Some v)) -> forall k, d = Get k -> known k v.
    Proof.
      intros G [V1 V2 V3] Mc F E k ->. destruct a; simpl in F; try contradiction; simpl in E; subst;
        repeat match type of E with context [if ?b then _ else _] => destruct b eqn:? end; simpl in E; try discriminate.
      - destruct (nth_error (answers s) ticket) as [[[?|]|]|]; discriminate.
      - injection E as <- <-. exact Mc.
      - destruct (dget eqb (cache s) k) as [v'|] eqn:C; [|discriminate]. injection E as <- <-. auto.
    Qed.
    Lemma MInv_turn c t : MInv c -> MInv (turn (first (V := V)) exec c t).
    Proof.
      intros [L Vs Mc Lg]. split; [apply LInv_turn; auto| | |]; unfold turn; destruct (current c t) as [[d a]|] eqn:Ct.
      - destruct (l_current L _ Ct) as [P F]. pose proof (@values_exec t d a _ (l_good L) Vs (Mc _ _ _ Ct) F P) as H.
        destruct (exec a (shared c)) as [s [a'|r|e]]; auto.
      - destruct (todo c t); auto.
      - destruct (l_current L _ Ct) as [P F]. pose proof (fun b => @mcode_other b a _ (l_good L) Vs) as H.
        pose proof (fun a' s' => @mcode_next d a a' _ s' (l_good L) Vs (Mc _ _ _ Ct) F) as N.
        destruct (exec a (shared c)) as [s [a'|r|e]]; simpl in *; intros u d' b; unfold put; destruct (Nat.eqb u t); eauto; try discriminate.
        intros X. injection X as <- <-. eauto.
      - destruct (todo c t) as [|d r]; eauto. simpl. intros u d' b. unfold put. destruct (Nat.eqb u t); eauto. intros X. injection X as <- <-. destruct d; simpl; auto.
      - destruct (l_current L _ Ct) as [P F]. pose proof (fun s' v => @result_known d a _ s' v (l_good L) Vs (Mc _ _ _ Ct) F) as N.
        destruct (exec a (shared c)) as [s [a'|r|e]]; simpl; auto; intros k v I; apply in_app_iff in I as [I|[I|[]]]; auto; [|discriminate].
        injection I as -> ->. eauto.
      - destruct (todo c t); auto.
    Qed.
    Lemma made_of schedule : dwf store0 -> forall k v, In (Get k, Ok (Some v)) (log (wb_run eqb ske deletable (wb_start store0 programs) schedule)) -> known k v.
    Proof.
      intros W. apply m_log. unfold wb_run. apply run_inv; [|apply MInv_turn].
      split; [apply LInv_start; auto| | |]; simpl; try discriminate; try contradiction. split; simpl; try discriminate; try contradiction. intros k v H. left. auto.
    Qed.

    (** *** a key that was written and is never deleted is found *)
    Variable k : K.
    Hypothesis kept : forall t, ~ In (Del k) (programs t).
    Definition past (d : call K V) (a : code K V) : Prop :=
      exists v, d = Put k v /\ match a with PSubmit _ _ | ORead _ | OWrite _ _ | OTest _ | OSnap _ | OSet _ _ | OZero _ => True | _ => False end.
    Definition written (c : cfg) : Prop := (exists v r, In (Put k v, r) (log c)) \/ exists t d a, current c t = Some (d, a) /\ past d a.
    Record RInv (c : cfg) : Prop := {
      r_lock : LInv programs c;
      r_snap : dget eqb (cache (shared c)) k <> None -> forall t d w ks, current c t = Some (d, OSet w ks) -> In k ks;
      r_add : forall t d v, current c t = Some (d, PAdd k v) -> dget eqb (cache (shared c)) k <> None;
      r_written : written c -> dget eqb (cache (shared c)) k <> None /\ In k (in_cache (shared c)) }.
    Lemma cache_stays (a : code K V) (s : cache_state K V) : (forall d, a = DDrop d -> d <> k) -> dget eqb (cache s) k <> None -> dget eqb (cache (fst (exec a s))) k <> None.
    Proof.
      intros N H. destruct a; simpl; repeat match goal with |- context [if ?b then _ else _] => destruct b end; simpl; auto.
      - destruct (key_dec k k0) as [<-|M]; [rewrite (dget_dset_eq ok); discriminate|rewrite (dget_dset_neq ok); auto].
      - destruct (key_dec k k0) as [<-|M]; [rewrite (dget_dset_eq ok); discriminate|rewrite (dget_dset_neq ok); auto].
      - rewrite (dget_ddel_neq ok); auto. intros E. apply (N k0); auto.
      - destruct (jobs s) as [|[? ?|?|? ?] r]; auto.
    Qed.
    Lemma in_stays (a : code K V) (s : cache_state K V) : In k (in_cache s) -> (forall w ks, a = OSet w ks -> In k ks) -> In k (in_cache (fst (exec a s))).
    Proof.
      intros H N. destruct a; simpl; repeat match goal with |- context [if ?b then _ else _] => destruct b end; simpl; auto.
      - eapply N. reflexivity.
      - destruct (jobs s) as [|[? ?|?|? ?] r]; auto.
    Qed.
    (* the cache gets the key only while the lock was free or held by the thread *)
    Lemma cache_new (a : code K V) (s : cache_state K V) : dget eqb (cache s) k = None -> dget eqb (cache (fst (exec a s))) k <> None -> locked s = false \/ inlock a.
    Proof.
      intros N H. destruct a; simpl in *; auto; repeat match type of H with context [if ?b then _ else _] => destruct b eqn:? end; simpl in *; auto; try contradiction.
      - exfalso. apply H. destruct (key_dec k k0) as [<-|M]; [|rewrite (dget_ddel_neq ok); auto]. clear - N ok.
        induction (cache s) as [|[k' v'] r IH]; simpl in *; auto. destruct (eqb k' k) eqn:E; simpl; [discriminate|rewrite E; auto].
      - destruct (jobs s) as [|[? ?|?|? ?] r]; auto; contradiction.
    Qed.
    Lemma drop_other t d (c : cfg) a : LInv programs c -> current c t = Some (d, a) -> forall k', a = DDrop k' -> k' <> k.
    Proof.
      intros L Ct k' -> ->. destruct (l_current L _ Ct) as [P F]. destruct d; simpl in F; try contradiction; try discriminate. destruct F as [-> _]. apply (kept t P).
    Qed.
    Lemma snap_next (a : code K V) s w ks : snd (exec a s) = Next (OSet w ks) -> ks = dkeys (cache s) /\ cache (fst (exec a s)) = cache s.
    Proof.
      destruct a; simpl; unfold follows; repeat match goal with |- context [if ?b then _ else _] => destruct b end;
        repeat match goal with |- context [match ?b with _ => _ end] => destruct b end; simpl; try discriminate.
      intros E. injection E as <- <-. auto.
    Qed.
    (* what a step of the thread means for the others and for itself *)
    Lemma RInv_turn c t : RInv c -> RInv (turn (first (V := V)) exec c t).
    Proof.
      intros [L Sn Ad Wr]. pose proof (@LInv_turn programs c t L) as L'. split; auto.
      - revert L'. unfold turn. destruct (current c t) as [[d a]|] eqn:Ct; [|destruct (todo c t) as [|d q]; simpl; auto; intros _ H u d' w ks; unfold put; destruct (Nat.eqb u t); eauto; destruct d; discriminate].
        pose proof (@cache_new a (shared c)) as N. pose proof (@snap_next a (shared c)) as Ns.
        destruct (exec a (shared c)) as [s n] eqn:E. simpl in N, Ns.
        intros _ H u d' w ks Cu.
        assert (H0 : dget eqb (cache s) k <> None) by (destruct n; auto). clear H.
        assert (Cu' : u <> t /\ current c u = Some (d', OSet w ks) \/ n = Next (OSet w ks)).
        { destruct n as [a'|r|e]; simpl in Cu; unfold put in Cu; destruct (Nat.eqb u t) eqn:Eu; try discriminate; try (apply Nat.eqb_neq in Eu; auto). injection Cu as <- <-. auto. }
        destruct Cu' as [[Nu Cu']| ->].
        + destruct (dget eqb (cache (shared c)) k) as [v|] eqn:C; [apply (Sn ltac:(discriminate) u d' w ks Cu')|]. exfalso.
          destruct (N eq_refl H0) as [Lk|Lk]; [rewrite (l_locked L u Cu' I) in Lk; discriminate|]. apply Nu. exact (l_one L u t Cu' Ct I Lk).
        + destruct (Ns _ _ eq_refl) as [-> Ec]. rewrite Ec in H0. destruct (dget eqb (cache (shared c)) k) as [v|] eqn:C; [|congruence].
          destruct (in_dec (fun a b => key_dec a b) k (dkeys (cache (shared c)))) as [i|n]; auto. apply (dget_None ok) in n. congruence.
      - revert L'. unfold turn. destruct (current c t) as [[d a]|] eqn:Ct; [|destruct (todo c t) as [|d q]; simpl; auto; intros _ u d' v; unfold put; destruct (Nat.eqb u t); eauto; destruct d; discriminate].
        pose proof (@cache_stays a (shared c) (drop_other _ L Ct)) as Sy.
        intros _. destruct (exec a (shared c)) as [s n] eqn:E. simpl in Sy. intros u d' v Cu.
        assert (Cu' : current c u = Some (d', PAdd k v) \/ n = Next (PAdd k v)).
        { destruct n as [a'|r|e]; simpl in Cu; unfold put in Cu; destruct (Nat.eqb u t) eqn:Eu; try discriminate; auto. injection Cu as <- <-. auto. }
        destruct Cu' as [Cu'| ->]; [destruct n; apply Sy; eauto|]. simpl.
        destruct a; simpl in E; unfold follows in E;
          repeat match type of E with context [if ?b then _ else _] => destruct b eqn:? end;
          repeat match type of E with context [match ?b with _ => _ end] => destruct b eqn:? end; inversion E; subst.
        simpl. rewrite (dget_dset_eq ok). discriminate.
      - intros W. assert (W' : (exists v, current c t = Some (Put k v, PAdd k v)) \/ written c).
        { revert W. unfold turn. destruct (current c t) as [[d a]|] eqn:Ct.
          - destruct (l_current L _ Ct) as [P F].
            assert (X : forall d0 a' s, d0 = d -> exec a (shared c) = (s, Next a') -> past d0 a' -> (exists v, Some (d, a) = Some (Put k v, PAdd k v)) \/ written c).
            { intros d0 a' s -> E (v & -> & H). destruct a; simpl in F; try contradiction; simpl in E;
                repeat match type of E with context [if ?b then _ else _] => destruct b eqn:? end; try (destruct F; subst); try (inversion E; subst; simpl in H; contradiction);
                try (left; eauto; fail); right; right; exists t; do 2 eexists; (split; [exact Ct|]); exists v; simpl; auto. }
            assert (Y : forall r s, exec a (shared c) = (s, r) -> (forall a', r <> Next a') -> forall v, d = Put k v -> written c).
            { intros r s E H v ->. right. exists t, (Put k v), a. split; auto. exists v. split; auto.
              destruct a; simpl in F; try contradiction; auto; simpl in E; repeat match type of E with context [if ?b then _ else _] => destruct b eqn:? end; injection E as <- <-; eapply H; reflexivity. }
            destruct (exec a (shared c)) as [s [a'|r|e]] eqn:E; intros [(v & x & W)|(u & d' & b & Cu & W)]; simpl in *.
            + right. left. eauto.
            + unfold put in Cu. destruct (Nat.eqb u t); [injection Cu as <- <-; apply (X d a' s); auto|]. right. right. eauto.
            + apply in_app_iff in W as [W|[W|[]]]; [right; left; eauto|]. injection W as -> _. right. apply (Y (Returned r) s eq_refl ltac:(discriminate) v eq_refl).
            + unfold put in Cu. destruct (Nat.eqb u t); [discriminate|]. right. right. eauto.
            + apply in_app_iff in W as [W|[W|[]]]; [right; left; eauto|]. injection W as -> _. right. apply (Y (Raised e) s eq_refl ltac:(discriminate) v eq_refl).
            + unfold put in Cu. destruct (Nat.eqb u t); [discriminate|]. right. right. eauto.
          - destruct (todo c t) as [|d q]; auto. intros [W|(u & d' & b & Cu & W)]; [right; left; auto|]. simpl in Cu. unfold put in Cu.
            destruct (Nat.eqb u t); [injection Cu as <- <-; destruct W as (v & -> & []) |]. right. right. eauto. }
        destruct W' as [(v & Ct)|W'].
        + unfold turn. rewrite Ct. simpl. split; auto. apply (Ad t _ v Ct).
        + destruct (Wr W') as [C I0]. unfold turn. destruct (current c t) as [[d a]|] eqn:Ct; [|destruct (todo c t); auto].
          pose proof (@cache_stays a (shared c) (drop_other _ L Ct) C) as Sy.
          assert (Si : In k (in_cache (fst (exec a (shared c))))) by (apply in_stays; auto; intros w ks ->; apply (Sn C t d w ks Ct)).
          destruct (exec a (shared c)) as [s [a'|r|e]]; auto.
    Qed.
    Lemma RInv_run schedule : dwf store0 -> RInv (wb_run eqb ske deletable (wb_start store0 programs) schedule).
    Proof.
      intros W. unfold wb_run. apply run_inv; [|apply RInv_turn]. split; simpl; try discriminate; [apply LInv_start; auto|].
      intros [(v & r & [])|(t & d & a & H & _)]. discriminate.
    Qed.
    Lemma written_found s1 : dwf store0 -> let c := wb_run eqb ske deletable (wb_start store0 programs) s1 in
      forall v r, In (Put k v, r) (log c) -> (forall t a, current c t <> Some (Get k, a)) ->
      forall s2 r', In (Get k, r') (skipn (length (log c)) (log (wb_run eqb ske deletable c s2))) -> exists v', r' = Ok (Some v').
    Proof.
      intros W c v r Pu No s2.
      set (safe := fun a : code K V => match a with GSubmit _ | GWait _ _ | GAdd _ _ | GStore _ _ | GMiss _ => False | _ => True end).
      set (Q := fun c' : cfg => RInv c' /\ (exists l, log c' = log c ++ l) /\ (forall t a, current c' t = Some (Get k, a) -> safe a) /\
        forall r', In (Get k, r') (skipn (length (log c)) (log c')) -> exists v', r' = Ok (Some v')).
      enough (Hq : Q (wb_run eqb ske deletable c s2)) by apply Hq.
      unfold wb_run. apply run_inv.
      - split; [apply RInv_run; auto|]. split; [exists []; rewrite app_nil_r; auto|]. split; [intros t a C; destruct (No t a C)|]. rewrite skipn_all. intros r' [].
      - clear s2. intros c0 t (R & [l Lg] & Sf & Rs). split; [apply RInv_turn; auto|].
        destruct (r_written R) as [C I0]; [left; exists v, r; rewrite Lg; apply in_app_iff; auto|].
        unfold turn. destruct (current c0 t) as [[d a]|] eqn:Ct; cycle 1.
        { destruct (todo c0 t) as [|d q]; [split; [eauto|]; auto|]. simpl. split; [eauto|]. split; auto.
          intros u a. unfold put. destruct (Nat.eqb u t); [intros X; injection X as -> <-; exact I|apply Sf]. }
        destruct (l_current (r_lock R) _ Ct) as [P F].
        assert (Key : d = Get k -> match snd (exec a (shared c0)) with Next a' => safe a' | Returned x => exists v', x = Some v' | Raised _ => False end).
        { intros ->. pose proof (Sf t a Ct) as Sa. destruct a; simpl in F; try contradiction; simpl in Sa; try contradiction; subst; simpl;
            repeat match goal with |- context [if ?b then _ else _] => destruct b eqn:B end; simpl; auto.
          - apply (memb_false ok) in B. contradiction.
          - apply andb_prop in B as [B _]. unfold dmem in B. destruct (dget eqb (cache (shared c0)) k); [discriminate|congruence].
          - destruct (dget eqb (cache (shared c0)) k); [eauto|congruence]. }
        assert (Oth : forall o u b, (forall b', o = Some (Get k, b') -> safe b') -> put (current c0) t o u = Some (Get k, b) -> safe b).
        { intros o u b Ho. unfold put. destruct (Nat.eqb u t); [intros ->; auto|apply Sf]. }
        assert (Lgs : forall e, (d = Get k -> exists v', e = Ok (Some v')) -> (exists l', log c0 ++ [(d, e)] = log c ++ l') /\
          forall r', In (Get k, r') (skipn (length (log c)) (log c0 ++ [(d, e)])) -> exists v', r' = Ok (Some v')).
        { intros e He. rewrite Lg in *. split; [exists (l ++ [(d, e)]); rewrite app_assoc; auto|]. intros r'. rewrite <- app_assoc, skipn_app, skipn_all, Nat.sub_diag. simpl.
          intros X. apply in_app_iff in X as [X|[X|[]]]; [apply Rs; rewrite skipn_app, skipn_all, Nat.sub_diag; auto|]. injection X as -> ->. auto. }
        destruct (exec a (shared c0)) as [s [a'|x|e]]; simpl in *.
        + split; [eauto|]. split; auto. intros u b. apply Oth. intros b' X. injection X as -> ->. auto.
        + destruct (Lgs (Ok x)) as [G1 G2]; [intros D; destruct (Key D) as [v' ->]; eauto|]. split; auto. split; auto. intros u b. apply Oth. discriminate.
        + destruct (Lgs (Err e)) as [G1 G2]; [intros D; destruct (Key D)|]. split; auto. split; auto. intros u b. apply Oth. discriminate.
    Qed.
  End Any.

  (** ** calls end *)
  Lemma turn_code (c : cfg) t d a : current c t = Some (d, a) -> turn (first (V := V)) exec c t =
    let (s, n) := exec a (shared c) in
    match n with
    | Next a' => {| shared := s; todo := todo c; current := put (current c) t (Some (d, a')); log := log c |}
    | Returned r => {| shared := s; todo := todo c; current := put (current c) t None; log := log c ++ [(d, Ok r)] |}
    | Raised e => {| shared := s; todo := todo c; current := put (current c) t None; log := log c ++ [(d, Err e)] |}
    end.
  Proof. intros H. unfold turn. rewrite H. reflexivity. Qed.
  Lemma turn_begin (c : cfg) t d q : current c t = None -> todo c t = d :: q -> turn (first (V := V)) exec c t =
    {| shared := shared c; todo := put (todo c) t q; current := put (current c) t (Some (d, first d)); log := log c |}.
  Proof. intros H H2. unfold turn. rewrite H, H2. reflexivity. Qed.
  Definition waits (s : cache_state K V) (i : nat) : Prop :=
    (exists x, nth_error (answers s) i = Some (Some x)) \/ (nth_error (answers s) i = Some None /\ exists k, In (JRead k i) (jobs s)).
  Record EInv (c : cfg) : Prop := {
    e_lock : locked (shared c) = true -> exists u d a, current c u = Some (d, a) /\ inlock a;
    e_wait : forall t d k i, current c t = Some (d, GWait k i) -> waits (shared c) i }.
  Lemma lock_after (a : code K V) (s s' : cache_state K V) n : exec a s = (s', n) -> locked s' = true ->
    (exists a', n = Next a' /\ inlock a') \/ (locked s = true /\ ~ inlock a).
  Proof.
    destruct a; simpl; unfold follows; intros E L;
      repeat match type of E with context [if ?b then _ else _] => destruct b eqn:? end;
      repeat match type of E with context [match ?b with _ => _ end] => destruct b eqn:? end; inversion E; subst; simpl in *; auto; try discriminate; left; eexists; (split; [reflexivity|exact I]).
  Qed.
  Lemma waits_exec (a : code K V) s i : waits s i -> waits (fst (exec a s)) i.
  Proof.
    intros H. destruct a; simpl; repeat match goal with |- context [if ?b then _ else _] => destruct b eqn:? end; auto.
    - destruct H as [[x H]|[H [k1 J1]]]; [left; exists x|right; split; [|exists k1; apply in_app_iff; auto]]; simpl; rewrite nth_error_app1; auto; apply nth_error_Some; congruence.
    - destruct H as [H|[H [k1 J1]]]; [left|right; split; auto; exists k1; apply in_app_iff]; auto.
    - destruct H as [H|[H [k1 J1]]]; [left|right; split; auto; exists k1; apply in_app_iff]; auto.
    - destruct (jobs s) as [|[k1 v|k1|k1 j] r] eqn:Js; auto.
      + destruct H as [H|[H [k2 J2]]]; [left; auto|right; split; auto]. rewrite Js in J2. destruct J2 as [J2|J2]; [discriminate|eauto].
      + destruct H as [H|[H [k2 J2]]]; [left; auto|right; split; auto]. rewrite Js in J2. destruct J2 as [J2|J2]; [discriminate|eauto].
      + destruct (Nat.eq_dec i j) as [->|N].
        * left. exists (dget eqb (store s) k1). simpl. apply nth_error_upd_eq. apply nth_error_Some. destruct H as [[x H]|[H _]]; congruence.
        * destruct H as [[x H]|[H [k2 J2]]]; [left; exists x|right; split]; simpl; try (rewrite nth_error_upd_neq by auto; auto).
          rewrite Js in J2. destruct J2 as [J2|J2]; [congruence|eauto].
  Qed.
  Lemma next_wait (a : code K V) s s' k i : exec a s = (s', Next (GWait k i)) -> waits s' i \/ a = GWait k i /\ s' = s.
  Proof.
    destruct a; simpl; unfold follows; intros E;
      repeat match type of E with context [if ?b then _ else _] => destruct b eqn:? end;
      repeat match type of E with context [match ?b with _ => _ end] => destruct b eqn:? end; inversion E; subst; auto.
    left. right. simpl. rewrite nth_error_app2, Nat.sub_diag by lia. split; auto. exists k. apply in_app_iff. simpl. auto.
  Qed.
  Lemma EInv_turn c t : EInv c -> EInv (turn (first (V := V)) exec c t).
  Proof.
    intros [E1 E2]. destruct (current c t) as [[d a]|] eqn:Ct.
    - rewrite (turn_code _ _ Ct). pose proof (@waits_exec a (shared c)) as Wx. destruct (exec a (shared c)) as [s n] eqn:E. simpl in Wx.
      set (o := match n with Next a' => Some (d, a') | _ => None end).
      assert (X1 : locked s = true -> exists u d' b, put (current c) t o u = Some (d', b) /\ inlock b).
      { intros L. destruct (@lock_after _ _ _ _ E L) as [(a' & -> & La)|[L0 Na]]; [exists t, d, a'; unfold o; rewrite put_eq; auto|].
        destruct (E1 L0) as (u & d' & b & Cu & Lb). exists u, d', b. split; auto. rewrite put_neq; auto. intros ->. rewrite Ct in Cu. injection Cu as <- <-. contradiction. }
      assert (X2 : forall u d' k i, put (current c) t o u = Some (d', GWait k i) -> waits s i).
      { intros u d' k i. unfold put. destruct (Nat.eqb u t) eqn:Eu; [|intros H; apply Wx; eauto]. unfold o. destruct n as [a'| |]; try discriminate.
        intros H. injection H as <- ->. destruct (next_wait _ _ E) as [H|[-> ->]]; auto. eauto. }
      destruct n; split; auto.
    - unfold turn. rewrite Ct. destruct (todo c t) as [|d q] eqn:Et; [split; auto|]. split; simpl.
      + intros L. destruct (E1 L) as (u & d' & b & Cu & Lb). exists u, d', b. split; auto. rewrite put_neq; auto. congruence.
      + intros u d' k i. unfold put. destruct (Nat.eqb u t); [|apply E2]. intros H. injection H as <- H. destruct d; discriminate.
  Qed.
  Section Ends.
    Variables (t w : nat).
    Hypothesis tw : t <> w.
    Definition goes (c c' : cfg) (b : nat) : Prop := exists schedule, length schedule <= b /\ c' = wb_run eqb ske deletable c schedule /\
      (forall u, u <> w -> todo c' u = todo c u) /\ (exists l, log c' = log c ++ l).
    Lemma goes_trans c1 c2 c3 b1 b2 : goes c1 c2 b1 -> goes c2 c3 b2 -> goes c1 c3 (b1 + b2).
    Proof.
      intros (l1 & B1 & -> & T1 & m1 & L1) (l2 & B2 & -> & T2 & m2 & L2). exists (l1 ++ l2). split; [rewrite app_length; lia|].
      split; [unfold wb_run, run; rewrite fold_left_app; auto|]. split; [intros u N; rewrite T2, T1; auto|]. exists (m1 ++ m2). rewrite L2, L1, app_assoc. auto.
    Qed.
    Lemma goes_one c u : current c u <> None -> goes c (turn (first (V := V)) exec c u) 1.
    Proof.
      intros H. destruct (current c u) as [[d a]|] eqn:Cu; [|congruence]. exists [u]. split; [auto|]. split; [auto|]. rewrite (turn_code _ _ Cu).
      destruct (exec a (shared c)) as [s [a'|r|e]]; simpl; (split; [auto|]); eauto. exists []. rewrite app_nil_r. auto.
    Qed.
    Lemma goes_EInv c c' b : goes c c' b -> EInv c -> EInv c'.
    Proof. intros (l & _ & -> & _) H. unfold wb_run. apply run_inv; auto using EInv_turn. Qed.
    (* a worker does all the jobs *)
    Lemma drain js : forall c q, jobs (shared c) = js -> current c w = None -> todo c w = repeat Work (length js) ++ q ->
      exists c', goes c c' (2 * length js) /\ jobs (shared c') = [] /\ current c' w = None /\ todo c' w = q /\ locked (shared c') = locked (shared c) /\
        (forall u, u <> w -> current c' u = current c u) /\ forall i, waits (shared c) i -> waits (shared c') i.
    Proof.
      induction js as [|j r IH]; intros c q Js Cw Tw.
      - exists c. simpl in Tw. repeat split; auto. exists []. simpl. repeat split; auto. exists []. rewrite app_nil_r. auto.
      - simpl in Tw. set (c1 := turn (first (V := V)) exec c w). set (c2 := turn (first (V := V)) exec c1 w).
        assert (E1 : c1 = {| shared := shared c; todo := put (todo c) w (repeat Work (length r) ++ q); current := put (current c) w (Some (Work, WTake)); log := log c |}).
        { unfold c1. rewrite (turn_begin _ _ Cw Tw). reflexivity. }
        assert (C1 : current c1 w = Some (Work, WTake)) by (rewrite E1; simpl; rewrite put_eq; auto).
        assert (E2 : exec WTake (shared c) = (fst (exec WTake (shared c)), Returned None)) by (simpl; rewrite Js; destruct j; auto).
        pose proof (turn_code _ _ C1) as T2. fold c2 in T2. rewrite E1 in T2. cbn [shared todo current log] in T2. rewrite E2 in T2.
        assert (Jr : jobs (fst (exec WTake (shared c))) = r) by (simpl; rewrite Js; destruct j; auto).
        assert (Lk : locked (fst (exec WTake (shared c))) = locked (shared c)) by (simpl; rewrite Js; destruct j; auto).
        destruct (IH c2 q) as (c' & G & D1 & D2 & D3 & D4 & D5 & D6); [rewrite T2; exact Jr|rewrite T2; simpl; apply put_eq|rewrite T2; simpl; apply put_eq|].
        exists c'. split; [|split; [auto|split; [auto|split; [auto|split; [|split]]]]].
        + replace (2 * length (j :: r)) with (2 + 2 * length r) by (simpl; lia). apply (goes_trans (c2 := c2)); auto.
          exists [w; w]. split; auto. split; [reflexivity|]. rewrite T2. simpl. split; [intros u N; apply put_neq; auto|eauto].
        + rewrite D4, T2. exact Lk.
        + intros u N. rewrite D5 by auto. rewrite T2. simpl. rewrite !put_neq; auto.
        + intros i W. apply D6. rewrite T2. apply waits_exec. exact W.
    Qed.
    (* whoever holds the lock releases it *)
    Lemma unlock c u d a : current c u = Some (d, a) -> inlock a ->
      exists c', goes c c' 2 /\ locked (shared c') = false /\ jobs (shared c') = jobs (shared c) /\ (forall v, v <> u -> current c' v = current c v) /\ forall v, todo c' v = todo c v.
    Proof.
      intros Cu La.
      assert (One : forall c0 d0 b, current c0 u = Some (d0, b) -> inlock b -> (forall w ks, b <> OSet w ks) ->
        let c' := turn (first (V := V)) exec c0 u in goes c0 c' 1 /\ locked (shared c') = false /\ jobs (shared c') = jobs (shared c0) /\ (forall v, v <> u -> current c' v = current c0 v) /\ forall v, todo c' v = todo c0 v).
      { intros c0 d0 b C0 Lb Nb c'. split; [apply goes_one; congruence|]. unfold c'. rewrite (turn_code _ _ C0).
        destruct b; simpl in Lb; try contradiction; try (exfalso; eapply Nb; reflexivity); simpl; unfold follows; try destruct w0;
          repeat split; auto; intros u1 N1; simpl; rewrite put_neq; auto. }
      destruct a; simpl in La; try contradiction;
        try (destruct (One _ _ _ Cu I ltac:(discriminate)) as (G & R); eexists; split; [|exact R]; destruct G as (l & B & R2); exists l; split; [lia|exact R2]).
      set (c1 := turn (first (V := V)) exec c u). pose proof (turn_code _ _ Cu) as T1. fold c1 in T1. simpl in T1.
      assert (C1 : current c1 u = Some (d, OZero w0)) by (rewrite T1; simpl; apply put_eq).
      destruct (One _ _ _ C1 I ltac:(discriminate)) as (G & R1 & R2 & R3 & R4). eexists. split; [apply (goes_trans (b1 := 1) (b2 := 1) (c2 := c1)); [apply goes_one; congruence|exact G]|].
      split; [auto|]. split; [rewrite R2, T1; auto|]. split; [intros v N; rewrite R3, T1 by auto; simpl; apply put_neq; auto|intros v; rewrite R4, T1; auto].
    Qed.
    Definition more (f : follow (K := K)) (x y : nat) : nat := match f with ThenGet _ => x | Done => y end.
    Definition rank (a : code K V) : nat :=
      match a with
      | ORead f => 6 + more f 5 0 | OWrite f _ => 5 + more f 5 0 | OTest f => 4 + more f 5 0 | OSnap f => 3 + more f 5 0 | OSet f _ => 2 + more f 5 0 | OZero f => 1 + more f 5 0
      | GTest _ => 5 | GSubmit _ => 4 | GWait _ _ => 3 | GAdd _ _ => 2 | GStore _ _ => 1 | GMiss _ => 1 | GLook _ => 2 | GGive _ => 1
      | PStore _ _ => 9 | PAdd _ _ => 8 | PSubmit _ _ => 7 | DType _ => 10 | DAdd _ => 9 | DDrop _ => 8 | DSubmit _ => 7 | WTake => 1
      end.
    Definition need (a : code K V) (s : cache_state K V) : nat :=
      match a with
      | ORead f | OWrite f _ | OTest f | OSnap f | OSet f _ | OZero f => more f (S (length (jobs s))) 0
      | GTest _ | GSubmit _ => S (length (jobs s)) | GWait _ _ => length (jobs s) | _ => 0
      end.
    Definition answered (a : code K V) (s : cache_state K V) : Prop := match a with GWait _ i => exists x, nth_error (answers s) i = Some (Some x) | _ => True end.
    Lemma step_down (a : code K V) s s' n : exec a s = (s', n) -> answered a s -> (locked s = false \/ inlock a) ->
      match n with Next a' => rank a' < rank a /\ need a' s' <= need a s /\ (locked s' = false \/ inlock a') | _ => locked s' = false end.
    Proof.
      intros E An L. destruct a; simpl in E, An, L; unfold follows in E; try match type of An with ex _ => destruct An as [[x|] An]; rewrite An in E end;
        try (destruct L as [L|L]; [rewrite ?L in E|try contradiction]);
        repeat match type of E with context [if ?b then _ else _] => destruct b eqn:? end;
        repeat match type of E with context [match ?b with _ => _ end] => destruct b eqn:? end; inversion E; subst; simpl; unfold more; auto;
        repeat split; auto; try (rewrite ?app_length; simpl; lia); repeat match goal with |- context [match ?b with _ => _ end] => destruct b end; auto; lia.
    Qed.
    Lemma alone_ends m : forall c d a j q, rank a <= m -> EInv c -> current c t = Some (d, a) -> (locked (shared c) = false \/ inlock a) ->
      current c w = None -> todo c w = repeat Work j ++ q -> need a (shared c) <= j ->
      exists c' r l, goes c c' (m + 2 * need a (shared c)) /\ current c' t = None /\ log c' = log c ++ l ++ [(d, r)].
    Proof.
      induction m as [|m IH]; intros c d a j q Rk Ei Ct L Cw Tw Nj; [destruct a; simpl in Rk; lia|].
      assert (Ready : forall c j q, EInv c -> current c t = Some (d, a) -> (locked (shared c) = false \/ inlock a) -> current c w = None -> todo c w = repeat Work j ++ q ->
        need a (shared c) <= j -> answered a (shared c) -> exists c' r l, goes c c' (S m + 2 * need a (shared c)) /\ current c' t = None /\ log c' = log c ++ l ++ [(d, r)]).
      { clear c j q Ei Ct L Cw Tw Nj. intros c j q Ei Ct L Cw Tw Nj An. pose proof (turn_code _ _ Ct) as T1. set (c1 := turn (first (V := V)) exec c t) in *.
        assert (G1 : goes c c1 1) by (apply goes_one; congruence). pose proof (goes_EInv G1 Ei) as Ei1.
        destruct (exec a (shared c)) as [s n] eqn:E. pose proof (@step_down _ _ _ _ E An L) as D. destruct n as [a'|r|e].
        - destruct D as (D1 & D2 & D3). destruct (IH c1 d a' j q) as (c' & r & l & G & R1 & R2); auto; try (rewrite T1; simpl; auto; fail); try lia.
          + rewrite T1. simpl. apply put_eq.
          + rewrite T1. simpl. rewrite put_neq; auto.
          + rewrite T1. simpl. lia.
          + exists c', r, l. split; [|split; auto; rewrite R2, T1; auto]. rewrite T1 in G at 2. simpl in G.
            destruct (goes_trans G1 G) as (sc & B & R). exists sc. split; [lia|exact R].
        - exists c1, (Ok r), []. split; [destruct G1 as (sc & B & R); exists sc; split; [lia|exact R]|]. rewrite T1. simpl. rewrite put_eq. auto.
        - exists c1, (Err e), []. split; [destruct G1 as (sc & B & R); exists sc; split; [lia|exact R]|]. rewrite T1. simpl. rewrite put_eq. auto. }
      assert (Dec : answered a (shared c) \/ exists k i, a = GWait k i /\ waits (shared c) i).
      { destruct a; simpl; auto. right. exists k, ticket. split; auto. exact (e_wait Ei _ Ct). }
      destruct Dec as [An|(k & i & -> & Wi)]; [apply (Ready c j q); auto|]. simpl in Nj.
      assert (Sp : repeat Work j = repeat (@Work K V) (length (jobs (shared c))) ++ repeat Work (j - length (jobs (shared c)))) by (rewrite <- repeat_app; f_equal; lia).
      rewrite Sp, <- app_assoc in Tw. destruct (@drain (jobs (shared c)) c _ eq_refl Cw Tw) as (c1 & G & D1 & D2 & D3 & D4 & D5 & D6).
      destruct (Ready c1 (j - length (jobs (shared c))) q) as (c' & r & l & G2 & R1 & R2); auto.
      - apply (goes_EInv G Ei).
      - rewrite D5; auto.
      - rewrite D4. auto.
      - simpl. rewrite D1. simpl. lia.
      - simpl. destruct (D6 i Wi) as [H|[_ [k' H]]]; auto. rewrite D1 in H. destruct H.
      - pose proof G as (_ & _ & _ & _ & l0 & L0). exists c', r, (l0 ++ l). split; [|split; auto; rewrite R2, L0, !app_assoc; auto].
        simpl in G2. rewrite D1 in G2. simpl in G2. destruct (goes_trans G G2) as (sc & B & R). exists sc. split; [simpl; lia|exact R].
    Qed.
    Lemma call_ends c d a j q : EInv c -> current c t = Some (d, a) -> current c w = None -> todo c w = repeat Work j ++ q -> length (jobs (shared c)) < j ->
      exists c' r l, goes c c' (2 * length (jobs (shared c)) + 15) /\ current c' t = None /\ log c' = log c ++ l ++ [(d, r)].
    Proof.
      intros Ei Ct Cw Tw Nj.
      assert (Rk : rank a <= 11) by (destruct a; simpl; unfold more; try (destruct w0); lia).
      assert (Nd : forall s, need a s <= S (length (jobs s))) by (intros s; destruct a; simpl; unfold more; try (destruct w0); lia).
      destruct (locked (shared c)) eqn:Lk.
      - destruct (e_lock Ei Lk) as (u & e & b & Cu & Lb). destruct (Nat.eq_dec u t) as [->|N].
        + assert (La : inlock a) by congruence. destruct (@alone_ends 11 c d a j q) as (c' & r & l & G & R); auto; [pose proof (Nd (shared c)); lia|].
          exists c', r, l. split; auto. destruct G as (sc & B & R'). exists sc. split; auto. pose proof (Nd (shared c)). lia.
        + destruct (unlock _ _ Cu Lb) as (c1 & G1 & U1 & U2 & U3 & U4). pose proof (Nd (shared c1)) as Nd1. rewrite U2 in Nd1.
          assert (Nw : w <> u) by (intros ->; congruence).
          destruct (@alone_ends 11 c1 d a j q) as (c' & r & l & G & R1 & R2); auto; [apply (goes_EInv G1 Ei)|rewrite U3; auto|rewrite U3; auto|rewrite U4; auto|lia|].
          pose proof G1 as (_ & _ & _ & _ & l0 & L0). exists c', r, (l0 ++ l). split; [|split; auto; rewrite R2, L0, !app_assoc; auto].
          destruct (goes_trans G1 G) as (sc & B & R). exists sc. split; auto. lia.
      - destruct (@alone_ends 11 c d a j q) as (c' & r & l & G & R); auto; [pose proof (Nd (shared c)); lia|].
        exists c', r, l. split; auto. destruct G as (sc & B & R'). exists sc. split; auto. pose proof (Nd (shared c)). lia.
    Qed.
  End Ends.
  Lemma every_call_ends (programs : nat -> list (call K V)) (store0 : dict K V) before : let c := wb_run eqb ske deletable (wb_start store0 programs) before in
    forall t d a w j q, current c t = Some (d, a) -> w <> t -> current c w = None -> todo c w = repeat Work j ++ q -> length (jobs (shared c)) < j ->
    exists schedule r l, let c' := wb_run eqb ske deletable c schedule in
      length schedule <= 2 * length (jobs (shared c)) + 15 /\ current c' t = None /\ log c' = log c ++ l ++ [(d, r)] /\ forall u, u <> w -> todo c' u = todo c u.
  Proof.
    intros c t d a w j q Ct N Cw Tw Nj. assert (Ei : EInv c) by (unfold c, wb_run; apply run_inv; auto using EInv_turn; split; simpl; discriminate).
    destruct (@call_ends t w (fun e => N (eq_sym e)) c d a j q) as (c' & r & l & (sc & B & -> & T & _) & R1 & R2); auto.
    exists sc, r, l. auto.
  Qed.
End WbThrProofs.
