(** Proofs about ClnReg_Model. *)
From Verif Require Import Prelude PreludeFacts MoreFacts MetrThr_Model MetrThr_Spec MetrThr_Proofs ClnReg_Model ClnReg_Spec.
From Coq Require Import Permutation.
Set Implicit Arguments.

Lemma lock_ok : eqb_ok lock_eqb.
Proof.
  intros x y. destruct x, y; simpl; split; intros H; try discriminate; auto.
  - apply Nat.eqb_eq in H. congruence.
  - inversion H. apply Nat.eqb_refl.
Qed.
Lemma lock_dec (x y : lock) : {x = y} + {x <> y}.
Proof. decide equality. apply Nat.eq_dec. Qed.

Section ClnRegProofs.
  Variable breaks : nat -> bool.
  Local Notation cfg := (config registry call code unit).
  Local Notation exec := (ClnReg_Model.exec breaks).
  Local Notation step := (turn first (ClnReg_Model.exec breaks)).

  Lemma step_cases (c : cfg) t : step c t = c \/
    (exists d r, current c t = None /\ todo c t = d :: r /\ shared (step c t) = shared c /\ current (step c t) = put (current c) t (Some (d, first d)) /\
       log (step c t) = log c /\ todo (step c t) = put (todo c) t r) \/
    (exists d a s n, current c t = Some (d, a) /\ exec a (shared c) = (s, n) /\ shared (step c t) = s /\ todo (step c t) = todo c /\
       current (step c t) = put (current c) t (match n with Next a' => Some (d, a') | _ => None end) /\
       log (step c t) = log c ++ match n with Next _ => [] | Returned r => [(d, Ok r)] | Raised e => [(d, Err e)] end).
  Proof.
    unfold turn. destruct (current c t) as [[d a]|] eqn:E.
    - right. right. exists d, a. destruct (exec a (shared c)) as [s n] eqn:X. exists s, n. destruct n; simpl; rewrite ?app_nil_r; repeat (split; auto).
    - destruct (todo c t) as [|d r] eqn:T; auto. right. left. exists d, r. simpl. repeat (split; auto).
  Qed.

  (** ** the shape of code *)
  Fixpoint matched (l : list instr) : Prop :=
    match l with
    | [] => True
    | Take x :: r => In x (inside r) /\ matched r
    | Append _ :: r => In Registry (inside r) /\ matched r
    | Check :: r => (exists r', r = Launch :: r' /\ In Registry (inside r')) /\ matched r
    | Launch :: r => In Registry (inside r) /\ matched r
    | _ :: r => matched r
    end.
  Fixpoint act_ind2 (P : act -> Prop) (H1 : forall d, P (Make d)) (H2 : forall d, P (Use d)) (H3 : forall d, P (Len d))
    (H4 : forall d l, Forall P l -> P (With d l)) (H5 : forall d, P (Drop d)) (a : act) : P a :=
    match a with
    | Make d => H1 d | Use d => H2 d | Len d => H3 d | Drop d => H5 d
    | With d l => H4 d l ((fix go (l : list act) : Forall P l := match l with [] => Forall_nil _ | x :: r => Forall_cons _ (act_ind2 H1 H2 H3 H4 H5 x) (go r) end) l)
    end.
  Lemma lock_refl x : lock_eqb x x = true.
  Proof. apply lock_ok. auto. Qed.
  Lemma inside_act a : forall r, inside (code_of a ++ r) = inside r.
  Proof.
    induction a as [d|d|d|d l IH|d] using act_ind2; intros r; simpl; rewrite ?Nat.eqb_refl; auto.
    rewrite <- app_assoc. assert (E : inside (flat_map code_of l ++ [Free (Dictionary d)] ++ r) = Dictionary d :: inside r).
    { induction IH as [|x l H _ IH]; simpl; auto. rewrite <- app_assoc, H. auto. }
    rewrite E. simpl. rewrite Nat.eqb_refl. auto.
  Qed.
  Lemma inside_body l r : inside (flat_map code_of l ++ r) = inside r.
  Proof. induction l as [|a l IH]; simpl; auto. rewrite <- app_assoc, inside_act. auto. Qed.
  Lemma matched_act a : forall r, matched r -> matched (code_of a ++ r).
  Proof.
    induction a as [d|d|d|d l IH|d] using act_ind2; intros r M; simpl; auto.
    - repeat (split; auto); eauto. exists (Free Registry :: r). simpl. auto.
    - rewrite <- app_assoc. split; [rewrite inside_body; simpl; auto|]. assert (M' : matched ([Free (Dictionary d)] ++ r)) by (simpl; auto). revert M'. generalize ([Free (Dictionary d)] ++ r). clear M r.
      induction IH as [|x l H _ IH]; simpl; intros r M; auto. rewrite <- app_assoc. auto.
  Qed.
  Lemma code_nil a : code_of a = code_of a ++ [].
  Proof. rewrite app_nil_r. auto. Qed.

  Definition holds (a : code) : list lock :=
    match a with
    | Run l => inside l
    | Sleep _ => []
    | Entry _ _ _ | Enter _ _ _ _ => [Registry]
    | Tidy _ _ _ d => [Dictionary d; Registry]
    end.
  Definition shaped (a : code) : Prop := match a with Run l => matched l | _ => True end.
  Lemma first_shaped d : shaped (first d).
  Proof. destruct d as [a|[|n]]; simpl; auto. rewrite code_nil. apply matched_act. simpl. auto. Qed.
  Lemma first_holds d : holds (first d) = [].
  Proof. destruct d as [a|[|n]]; simpl; auto. rewrite code_nil. apply inside_act. Qed.
  Ltac split_exec :=
    repeat match goal with
    | H : context [match ?x with _ => _ end] |- _ => destruct x eqn:?
    | H : (_, _) = (_, _) |- _ => inversion H; clear H; subst
    end.
  Lemma exec_shaped a s s' a' : exec a s = (s', Next a') -> shaped a -> shaped a'.
  Proof.
    destruct a as [[|i r]| | | |]; simpl; intros E M; [discriminate| | | | |].
    - destruct i; simpl in E; split_exec; simpl in *; try tauto. destruct M as ((r' & -> & _) & M). simpl in *. tauto.
    - split_exec; simpl; auto.
    - split_exec; simpl; auto; discriminate.
    - split_exec; simpl; auto.
    - split_exec; simpl; auto; discriminate.
  Qed.

  (** ** the monitors *)
  Definition next_holds (n : next code unit) : list lock := match n with Next a' => holds a' | _ => [] end.
  Lemma fold_free l : forall s, NoDup (locks s) -> NoDup (locks (fold_left free l s)) /\ (forall y, In y (locks (fold_left free l s)) <-> In y (locks s) /\ ~ In y l).
  Proof.
    induction l as [|x l IH]; simpl; intros s N; [tauto|]. destruct (IH (free s x)) as [A B]; [simpl; apply (NoDup_remove_first lock_eqb); auto; apply lock_ok|].
    split; auto. intros y. rewrite B. simpl. rewrite (In_remove_first lock_ok _ _ N). assert (x = y \/ x <> y) by (destruct (lock_dec x y); auto). intuition congruence.
  Qed.
  Lemma has_false s x : has s x = false <-> ~ In x (locks s).
  Proof. apply (memb_false lock_ok). Qed.
  Lemma has_true s x : has s x = true <-> In x (locks s).
  Proof. apply (memb_In lock_ok). Qed.
  Lemma exec_locks a s s' n : exec a s = (s', n) -> shaped a -> NoDup (holds a) -> NoDup (locks s) -> (forall y, In y (holds a) -> In y (locks s)) ->
    NoDup (next_holds n) /\ NoDup (locks s') /\ (forall y, In y (locks s') <-> (In y (locks s) /\ ~ In y (holds a)) \/ In y (next_holds n)) /\
    (forall y, In y (next_holds n) -> In y (holds a) \/ ~ In y (locks s)).
  Proof.
    intros E M N1 N2 S. assert (Y : forall x y : lock, x = y \/ x <> y) by (intros x y; destruct (lock_dec x y); auto).
    destruct a as [[|i r]|m|m j new|m j new d|m j new d]; simpl in E, M, N1, S.
    - split_exec. simpl. split; [constructor|]. split; auto. split; [|tauto]. intros y. tauto.
    - destruct i; simpl in E, N1, S.
      + destruct (has s x) eqn:H; inversion E; subst; clear E; simpl.
        * split; auto. split; auto. split; [|tauto]. intros y. specialize (S y). destruct (in_dec lock_dec y (remove_first lock_eqb x (inside r))); tauto.
        * apply has_false in H. destruct M as [M1 _]. pose proof (remove_first_perm lock_ok _ _ M1) as P.
          assert (Q : forall y, In y (inside r) <-> x = y \/ In y (remove_first lock_eqb x (inside r))).
          { intros y. split; intros I; [apply (Permutation_in _ (Permutation_sym P)) in I; auto|apply (Permutation_in _ P); auto]. }
          split; [apply (Permutation_NoDup P); constructor; auto; intros I; apply H; auto|]. split; [constructor; auto|]. split.
          -- intros y. rewrite Q. specialize (S y). destruct (in_dec lock_dec y (remove_first lock_eqb x (inside r))); tauto.
          -- intros y I. apply Q in I. destruct I as [<-|I]; auto.
      + inversion E; subst; clear E; simpl. inversion N1; subst. split; auto. split; [apply (NoDup_remove_first lock_eqb); auto; apply lock_ok|]. split; [|tauto].
        intros y. rewrite (In_remove_first lock_ok _ _ N2). specialize (S y). destruct (Y x y) as [<-|D]; [tauto|]. destruct (in_dec lock_dec y (inside r)); intuition congruence.
      + inversion E; subst; clear E; simpl. split; auto. split; auto. split; [|tauto]. intros y. specialize (S y). destruct (in_dec lock_dec y (inside r)); tauto.
      + inversion E; subst; clear E; simpl. destruct M as ((r' & -> & _) & _). simpl in *. assert (Q : inside (if started s' then r' else Launch :: r') = inside r') by (destruct (started s'); auto). rewrite Q.
        split; auto. split; auto. split; [|tauto]. intros y. specialize (S y). destruct (in_dec lock_dec y (inside r')); tauto.
      + inversion E; subst; clear E; simpl. split; auto. split; auto. split; [|tauto]. intros y. specialize (S y). destruct (in_dec lock_dec y (inside r)); tauto.
      + destruct (breaks d); inversion E; subst; clear E; simpl.
        * split; [constructor|]. destruct (fold_free (inside r) s N2) as [A B]. split; auto. split; [|tauto]. intros y. unfold unwind. rewrite B. tauto.
        * split; auto. split; auto. split; [|tauto]. intros y. specialize (S y). destruct (in_dec lock_dec y (inside r)); tauto.
      + inversion E; subst; clear E; simpl. split; auto. split; auto. split; [|tauto]. intros y. specialize (S y). destruct (in_dec lock_dec y (inside r)); tauto.
    - destruct (has s Registry) eqn:H; inversion E; subst; clear E; simpl.
      + split; auto. split; auto. split; [|tauto]. intros y. tauto.
      + apply has_false in H. split; [constructor; auto; constructor|]. split; [constructor; auto|]. split; [intros y; tauto|]. intros y [<-|[]]. auto.
    - destruct (nth_error (entries s) j) as [d|] eqn:Q.
      + inversion E; subst; clear E. assert (Q2 : next_holds (Next (if memb Nat.eqb d (gone s') then Entry m (Datatypes.S j) new else Enter m j new d)) = [Registry]) by (destruct (memb Nat.eqb d (gone s')); auto).
        rewrite Q2. split; auto. split; auto. split; [|simpl; tauto]. intros y. specialize (S y). destruct (Y Registry y) as [<-|D]; simpl in *; tauto.
      + assert (Q2 : next_holds n = [] /\ locks s' = remove_first lock_eqb Registry (locks s)) by (destruct m; inversion E; subst; simpl; auto). destruct Q2 as [-> ->].
        split; [constructor|]. split; [apply (NoDup_remove_first lock_eqb); auto; apply lock_ok|]. split; [|simpl; tauto]. intros y. rewrite (In_remove_first lock_ok _ _ N2). simpl. intuition congruence.
    - destruct (has s (Dictionary d)) eqn:H; inversion E; subst; clear E; simpl.
      + split; auto. split; auto. split; [|tauto]. intros y. specialize (S y). destruct (Y Registry y); tauto.
      + apply has_false in H. split; [constructor; auto; simpl; intros [X|[]]; discriminate|]. split; [constructor; auto|]. split; [intros y; specialize (S y); destruct (Y Registry y); tauto|].
        intros y [<-|[<-|[]]]; auto.
    - assert (N3 : NoDup (remove_first lock_eqb (Dictionary d) (locks s))) by (apply (NoDup_remove_first lock_eqb); auto; apply lock_ok). inversion N1; subst.
      destruct (breaks d); inversion E; subst; clear E; simpl.
      + split; [constructor|]. split; [apply (NoDup_remove_first lock_eqb); auto; apply lock_ok|]. split; [|tauto]. intros y. rewrite (In_remove_first lock_ok _ _ N3), (In_remove_first lock_ok _ _ N2).
        simpl. intuition congruence.
      + split; [constructor; auto; constructor|]. split; auto. split; [|tauto]. intros y. rewrite (In_remove_first lock_ok _ _ N2). specialize (S y).
        destruct (Y (Dictionary d) y), (Y Registry y); simpl in *; subst; intuition congruence.
  Qed.
  Record sound (c : cfg) : Prop := {
    s_shape : forall t d a, current c t = Some (d, a) -> shaped a;
    s_nodup : forall t d a, current c t = Some (d, a) -> NoDup (holds a);
    s_one : forall t u d a d' a' x, current c t = Some (d, a) -> current c u = Some (d', a') -> In x (holds a) -> In x (holds a') -> t = u;
    s_locks : NoDup (locks (shared c));
    s_lock : forall x, In x (locks (shared c)) <-> exists t d a, current c t = Some (d, a) /\ In x (holds a) }.
  Lemma sound_step c t : sound c -> sound (step c t).
  Proof.
    intros [H1 H2 H3 H4 H5]. destruct (step_cases c t) as [->|[(d & r & C & T & S' & C' & _)|(d & a & s & n & C & E & S' & T' & C' & _)]]; [constructor; auto| |].
    - constructor; rewrite ?S', ?C'; auto.
      + intros u d' a' X. destruct (Nat.eq_dec u t) as [->|N]; [rewrite put_eq in X; inversion X; subst; apply first_shaped|rewrite put_neq in X by auto; eauto].
      + intros u d' a' X. destruct (Nat.eq_dec u t) as [->|N]; [rewrite put_eq in X; inversion X; subst; rewrite first_holds; constructor|rewrite put_neq in X by auto; eauto].
      + intros u w d1 a1 d2 a2 x X Y A B.
        destruct (Nat.eq_dec u t) as [->|N]; [rewrite put_eq in X; inversion X; subst; rewrite first_holds in A; destruct A|].
        destruct (Nat.eq_dec w t) as [->|N']; [rewrite put_eq in Y; inversion Y; subst; rewrite first_holds in B; destruct B|].
        rewrite put_neq in X, Y by auto. eauto.
      + intros x. rewrite H5. split; intros (u & d' & a' & X & A).
        * exists u, d', a'. split; auto. rewrite put_neq; auto. congruence.
        * destruct (Nat.eq_dec u t) as [->|N]; [rewrite put_eq in X; inversion X; subst; rewrite first_holds in A; destruct A|]. rewrite put_neq in X by auto. eauto.
    - destruct (exec_locks a (shared c) E (H1 _ _ _ C) (H2 _ _ _ C) H4) as (A1 & A2 & A3 & A4). { intros y I. apply H5. eauto. }
      assert (Z : forall w d2 a2 x, w <> t -> current c w = Some (d2, a2) -> In x (holds a2) -> ~ In x (next_holds n)).
      { intros w d2 a2 x Nw Y B I. destruct (A4 _ I) as [I'|I']; [apply Nw; eapply H3; eauto|]. apply I'. apply H5. eauto. }
      assert (K : forall x, In x (next_holds n) -> exists a', n = Next a' /\ In x (holds a')) by (intros x; destruct n; simpl; [eauto|tauto|tauto]).
      constructor; rewrite ?S', ?C'; auto.
      + intros u d' a' X. destruct (Nat.eq_dec u t) as [->|N]; [|rewrite put_neq in X by auto; eauto]. rewrite put_eq in X. destruct n; inversion X; subst. eapply exec_shaped; eauto.
      + intros u d' a' X. destruct (Nat.eq_dec u t) as [->|N]; [|rewrite put_neq in X by auto; eauto]. rewrite put_eq in X. destruct n; inversion X; subst. auto.
      + intros u w d1 a1 d2 a2 x X Y A B. destruct (Nat.eq_dec u t) as [->|N], (Nat.eq_dec w t) as [->|N']; auto.
        * exfalso. rewrite put_neq in Y by auto. rewrite put_eq in X. destruct n; inversion X; subst. eapply Z; eauto.
        * exfalso. rewrite put_neq in X by auto. rewrite put_eq in Y. destruct n; inversion Y; subst. eapply Z; eauto.
        * rewrite put_neq in X, Y by auto. eauto.
      + intros x. rewrite A3. split.
        * intros [[I1 I2]|I].
          -- apply H5 in I1. destruct I1 as (u & d' & a' & X & A). exists u, d', a'. split; auto. rewrite put_neq; auto. intros ->. rewrite C in X. inversion X; subst. tauto.
          -- destruct (K _ I) as (a' & -> & I'). exists t, d, a'. rewrite put_eq. auto.
        * intros (u & d' & a' & X & A). destruct (Nat.eq_dec u t) as [->|N].
          -- right. rewrite put_eq in X. destruct n; inversion X; subst. auto.
          -- left. rewrite put_neq in X by auto. split; [apply H5; eauto|]. intros I. apply N. eapply H3; eauto.
  Qed.
  Lemma sound_on c schedule : sound c -> sound (reg_run breaks c schedule).
  Proof. intros H. unfold reg_run. apply run_inv with (P := sound); [auto|intros; apply sound_step; auto]. Qed.
  Lemma sound_start programs : sound (reg_start programs).
  Proof. constructor; simpl; try discriminate; try constructor; try tauto. intros (t & d & a & X & _). discriminate. Qed.

  (** ** the order of the monitors *)
  Definition lnum (x : lock) : nat := match x with Registry => 0 | Dictionary d => S d end.
  Fixpoint asc (l : list instr) : Prop :=
    match l with
    | [] => True
    | Take x :: r => (forall y, In y (remove_first lock_eqb x (inside r)) -> lnum y < lnum x) /\ asc r
    | _ :: r => asc r
    end.
  Definition below (held : option nat) (y : lock) : Prop := match held with None => False | Some h => lnum y <= S h end.
  Lemma asc_act a : forall held r, in_order held a -> asc r -> (forall y, In y (inside r) -> below held y) -> asc (code_of a ++ r).
  Proof.
    induction a as [d|d|d|d l IH|d] using act_ind2; intros held r O A B; simpl in *; rewrite ?Nat.eqb_refl; auto.
    - subst held. split; auto. intros y I. destruct (B y I).
    - split; auto. intros y I. specialize (B y I). destruct held as [h|]; simpl in *; [lia|tauto].
    - split; auto. intros y I. specialize (B y I). destruct held as [h|]; simpl in *; [lia|tauto].
    - rewrite <- app_assoc. destruct O as [O1 O2]. rewrite inside_body. simpl. rewrite Nat.eqb_refl. split.
      + intros y I. specialize (B y I). destruct held as [h|]; simpl in *; [lia|tauto].
      + assert (A' : asc (Free (Dictionary d) :: r)) by (simpl; auto). assert (B' : forall y, In y (inside (Free (Dictionary d) :: r)) -> below (Some d) y).
        { simpl. intros y [<-|I]; simpl; auto. specialize (B y I). destruct held as [h|]; simpl in *; [lia|tauto]. }
        revert A' B'. generalize (Free (Dictionary d) :: r). clear A B r O1. intros r A B. revert O2. induction IH as [|x l H _ IH]; simpl; intros O2; auto.
        destruct O2 as [O2 O3]. rewrite <- app_assoc. apply (H (Some d)); auto. intros y I. rewrite inside_body in I. auto.
  Qed.
  Definition ordered (a : code) : Prop := match a with Run l => asc l | _ => True end.
  Lemma first_ordered d : orderly d -> ordered (first d).
  Proof. destruct d as [a|[|n]]; simpl; auto. intros O. rewrite code_nil. apply (asc_act a None); auto; simpl; tauto. Qed.
  Lemma exec_ordered a s s' a' : exec a s = (s', Next a') -> ordered a -> ordered a'.
  Proof.
    destruct a as [[|i r]| | | |]; simpl; intros E M; [discriminate| | | | |]; try (split_exec; simpl; auto; discriminate).
    destruct i; simpl in E; split_exec; simpl in *; try tauto. destruct r as [|[] r]; simpl in *; tauto.
  Qed.
  Definition wants (a : code) : option lock :=
    match a with Run (Take x :: _) => Some x | Sleep _ => Some Registry | Enter _ _ _ d => Some (Dictionary d) | _ => None end.
  Lemma wants_after a x y : ordered a -> wants a = Some x -> In y (holds a) -> lnum y < lnum x.
  Proof.
    destruct a as [[|i r]| | | |]; simpl; intros O W I; try discriminate; try tauto.
    - destruct i; inversion W; subst. simpl in *. apply O. auto.
    - inversion W; subst. destruct I as [<-|[]]. simpl. lia.
  Qed.
  Lemma filter_shorter {A : Type} (p q : A -> bool) l y : (forall z, p z = true -> q z = true) -> In y l -> q y = true -> p y = false -> length (filter p l) < length (filter q l).
  Proof.
    intros PQ I Q P. assert (L : forall l, length (filter p l) <= length (filter q l)).
    { induction l0 as [|z l0 IH]; simpl; auto. destruct (p z) eqn:E; [rewrite (PQ _ E); simpl; lia|destruct (q z); simpl; lia]. }
    induction l as [|z l IH]; [destruct I|]. destruct I as [->|I]; simpl.
    - rewrite P, Q. simpl. specialize (L l). lia.
    - specialize (IH I). destruct (p z) eqn:E; [rewrite (PQ _ E); simpl; lia|destruct (q z); simpl; lia].
  Qed.
  Lemma someone (c : cfg) : sound c -> (forall t d a, current c t = Some (d, a) -> ordered a) -> forall k t d a x, length (filter (fun y => lnum x <? lnum y) (locks (shared c))) < k ->
    current c t = Some (d, a) -> wants a = Some x -> In x (locks (shared c)) ->
    exists u d' a', current c u = Some (d', a') /\ forall y, wants a' = Some y -> ~ In y (locks (shared c)).
  Proof.
    intros Hs O. induction k as [|k IH]; intros t d a x L C W I; [lia|]. apply (s_lock Hs) in I. destruct I as (u & d' & a' & C' & I).
    destruct (wants a') as [y|] eqn:W'; [|exists u, d', a'; split; auto; congruence].
    destruct (in_dec lock_dec y (locks (shared c))) as [J|J]; [|exists u, d', a'; split; auto; congruence].
    pose proof (wants_after a' _ (O _ _ _ C') W' I) as Lt. apply (IH u d' a' y); auto.
    assert (S : length (filter (fun z => lnum y <? lnum z) (locks (shared c))) < length (filter (fun z => lnum x <? lnum z) (locks (shared c)))); [|lia].
    apply filter_shorter with (y := y); auto; try (apply Nat.ltb_lt; auto); try (apply Nat.ltb_irrefl). intros z Z. apply Nat.ltb_lt in Z. apply Nat.ltb_lt. lia.
  Qed.

  (** ** the registry *)
  Definition okcode (a : code) (s : registry) : Prop :=
    match a with
    | Run _ | Sleep _ => True
    | Entry _ i new => i <= length (entries s) /\ length new <= i /\ forall d, In d (firstn i (entries s)) -> In d (gone s) \/ In d new
    | Enter _ i new e | Tidy _ i new e => nth_error (entries s) i = Some e /\ length new <= i /\ forall d, In d (firstn i (entries s)) -> In d (gone s) \/ In d new
    end.
  Lemma okcode_other a s s' : okcode a s -> entries s' = entries s -> (forall d, In d (gone s) -> In d (gone s')) -> okcode a s'.
  Proof.
    intros O E G. assert (F : forall new i, (forall d, In d (firstn i (entries s)) -> In d (gone s) \/ In d new) -> forall d, In d (firstn i (entries s')) -> In d (gone s') \/ In d new).
    { intros new i H d I. rewrite E in I. destruct (H d I); auto. }
    destruct a; simpl in *; auto; try rewrite E; destruct O as (O1 & O2 & O3); (split; [exact O1|split; [exact O2|]]); intros e I; destruct (O3 e I); auto.
  Qed.
  Lemma fold_free_same l : forall s, entries (fold_left free l s) = entries s /\ gone (fold_left free l s) = gone s /\ started (fold_left free l s) = started s /\ launched (fold_left free l s) = launched s /\ swept (fold_left free l s) = swept s.
  Proof. induction l as [|x l IH]; simpl; intros s; auto. destruct (IH (free s x)) as (A & B & C & D & E). simpl in *. auto. Qed.
  Lemma exec_entries a s s' n : exec a s = (s', n) -> shaped a -> entries s' = entries s \/ In Registry (holds a).
  Proof.
    destruct a as [[|i r]| | | |]; simpl; intros E M; try (split_exec; simpl; auto; fail). destruct i; simpl in E; split_exec; simpl in *; auto; try tauto.
    left. apply fold_free_same.
  Qed.
  Lemma exec_gone a s s' n d : exec a s = (s', n) -> In d (gone s) -> In d (gone s').
  Proof.
    destruct a as [[|i r]| | | |]; simpl; intros E I; try (split_exec; simpl; auto; fail). destruct i; simpl in E; split_exec; simpl in *; auto.
    unfold unwind. destruct (fold_free_same (inside r) s) as (_ & -> & _). auto.
  Qed.
  Lemma exec_swept a s s' n : exec a s = (s', n) -> exists l, swept s' = swept s ++ l.
  Proof.
    destruct a as [[|i r]| | | |]; simpl; intros E; try (split_exec; simpl; (exists []; rewrite app_nil_r; auto; fail) || (eexists; reflexivity)).
    destruct i; simpl in E; split_exec; simpl in *; try (exists []; rewrite app_nil_r; auto; fail); try (eexists; reflexivity).
    exists []. rewrite app_nil_r. apply fold_free_same.
  Qed.
  Lemma firstn_next {A : Type} (l : list A) : forall i x, nth_error l i = Some x -> firstn (S i) l = firstn i l ++ [x].
  Proof. induction l as [|h l IH]; intros [|i] x E; simpl in *; try discriminate; [inversion E; auto|]. rewrite <- (IH _ _ E). auto. Qed.
  Lemma exec_ok a s s' a' : exec a s = (s', Next a') -> okcode a s -> okcode a' s'.
  Proof.
    destruct a as [[|i r]|m|m j new|m j new d|m j new d]; simpl; intros E O; [discriminate| | | | |].
    - destruct i; simpl in E; split_exec; simpl; auto.
    - split_exec; simpl; auto. repeat split; auto; try lia; tauto.
    - destruct O as (O1 & O2 & O3). destruct (nth_error (entries s) j) as [d|] eqn:Q; [|split_exec; simpl; auto; discriminate].
      assert (Lt : j < length (entries s)) by (apply nth_error_Some; congruence). inversion E; subst; clear E. destruct (memb Nat.eqb d (gone s')) eqn:G; cbn [okcode].
      + split; [lia|]. split; [lia|]. intros e I. rewrite (firstn_next _ _ Q) in I. apply in_app_or in I. destruct I as [I|[<-|[]]]; auto. left. apply (memb_In nateqb_ok). auto.
      + auto.
    - split_exec; simpl; auto.
    - destruct O as (O1 & O2 & O3). destruct (breaks d); inversion E; subst; clear E; cbn [okcode]. assert (Lt : j < length (entries s)) by (apply nth_error_Some; congruence).
      simpl entries. simpl gone. split; [lia|]. split; [rewrite app_length; simpl; lia|]. intros e I. rewrite (firstn_next _ _ O1) in I. apply in_app_or in I. rewrite in_app_iff. destruct I as [I|[<-|[]]]; simpl; auto. destruct (O3 e I); auto.
  Qed.
  Lemma first_okcode d s : okcode (first d) s.
  Proof. destruct d as [a|[|n]]; simpl; auto. Qed.
  Lemma exec_stays a s s' n d : exec a s = (s', n) -> okcode a s -> In d (entries s) -> In d (entries s') \/ In d (gone s').
  Proof.
    destruct a as [[|i r]|m|m j new|m j new e|m j new e]; simpl; intros E O I.
    - split_exec; auto.
    - destruct i; simpl in E; split_exec; simpl in *; auto; [left; apply in_or_app; auto|]. left. unfold unwind. destruct (fold_free_same (inside r) s) as (-> & _). auto.
    - split_exec; auto.
    - destruct (nth_error (entries s) j) as [x|] eqn:Q; [inversion E; subst; auto|]. destruct O as (O1 & O2 & O3). apply nth_error_None in Q. rewrite firstn_all2 in O3 by auto.
      destruct (O3 d I) as [G|G]; [right|left]; split_exec; simpl; auto.
    - split_exec; auto.
    - split_exec; auto.
  Qed.
  Record kept (c : cfg) : Prop := {
    k_sound : sound c;
    k_code : forall t d a, current c t = Some (d, a) -> okcode a (shared c) }.
  Lemma kept_step c t : kept c -> kept (step c t).
  Proof.
    intros [H1 H2]. constructor; [apply sound_step; auto|]. destruct (step_cases c t) as [->|[(d & r & C & T & S' & C' & _)|(d & a & s & n & C & E & S' & T' & C' & _)]]; auto; rewrite S', C'.
    - intros u d' a' X. destruct (Nat.eq_dec u t) as [->|N]; [rewrite put_eq in X; inversion X; subst; apply first_okcode|rewrite put_neq in X by auto; eauto].
    - intros u d' a' X. destruct (Nat.eq_dec u t) as [->|N].
      + rewrite put_eq in X. destruct n; inversion X; subst. eapply exec_ok; eauto.
      + rewrite put_neq in X by auto. destruct (exec_entries a (shared c) E (s_shape H1 _ C)) as [Q|Q].
        * apply okcode_other with (s := shared c); eauto. intros e. eapply exec_gone; eauto.
        * assert (F : ~ In Registry (holds a')) by (intros I; apply N; eapply (s_one H1); eauto). destruct a'; simpl in *; tauto.
  Qed.
  Lemma kept_on c schedule : kept c -> kept (reg_run breaks c schedule).
  Proof. intros H. unfold reg_run. apply run_inv with (P := kept); [auto|intros; apply kept_step; auto]. Qed.
  Lemma kept_start programs : kept (reg_start programs).
  Proof. constructor; [apply sound_start|simpl; discriminate]. Qed.
  Lemma stays_step c t d : kept c -> In d (entries (shared c)) \/ In d (gone (shared c)) -> In d (entries (shared (step c t))) \/ In d (gone (shared (step c t))).
  Proof.
    intros H I. destruct (step_cases c t) as [->|[(e & r & C & T & S' & _)|(e & a & s & n & C & E & S' & _)]]; auto; rewrite S'; auto.
    destruct I as [I|I]; [eapply exec_stays; eauto; apply (k_code H _ C)|right; eapply exec_gone; eauto].
  Qed.
  Lemma stays c d schedule : kept c -> In d (entries (shared c)) \/ In d (gone (shared c)) -> let c' := reg_run breaks c schedule in In d (entries (shared c')) \/ In d (gone (shared c')).
  Proof.
    intros H I. cbv zeta. assert (X : kept (reg_run breaks c schedule) /\ (In d (entries (shared (reg_run breaks c schedule))) \/ In d (gone (shared (reg_run breaks c schedule))))); [|tauto].
    unfold reg_run. apply run_inv with (P := fun c => kept c /\ (In d (entries (shared c)) \/ In d (gone (shared c)))); auto.
    intros c1 t [A B]. split; [apply kept_step; auto|apply stays_step; auto].
  Qed.

  (** ** all calls can end *)
  Fixpoint sum (n : nat) (f : nat -> nat) : nat := match n with 0 => 0 | S m => sum m f + f m end.
  Lemma sum_le n f g : (forall u, f u <= g u) -> sum n f <= sum n g.
  Proof. intros H. induction n as [|n IH]; simpl; auto. specialize (H n). lia. Qed.
  Lemma sum_drop n f g t k : (forall u, f u <= g u) -> t < n -> f t + k <= g t -> sum n f + k <= sum n g.
  Proof.
    intros H L D. induction n as [|n IH]; simpl; [lia|]. destruct (Nat.eq_dec t n) as [->|N].
    - pose proof (sum_le n f g H). lia.
    - specialize (H n). specialize (IH ltac:(lia)). lia.
  Qed.
  Definition apps (l : list instr) : nat := length (filter (fun i => match i with Append _ => true | _ => false end) l).
  Definition code_apps (a : code) : nat := match a with Run l => apps l | _ => 0 end.
  Definition todo_apps (l : list call) : nat := list_sum (map (fun d => code_apps (first d)) l).
  Definition cur_apps (o : option (call * code)) : nat := match o with Some (_, a) => code_apps a | None => 0 end.
  Definition rank (A : nat) (a : code) : nat :=
    match a with
    | Run l => S (length l)
    | Sleep n => S n * (3 * A + 3)
    | Entry n i _ => n * (3 * A + 3) + 3 * (A - i) + 1
    | Enter n i _ _ => n * (3 * A + 3) + 3 * (A - i)
    | Tidy n i _ _ => n * (3 * A + 3) + 3 * (A - i) - 1
    end.
  Definition cur_rank (A : nat) (o : option (call * code)) : nat := match o with Some (_, a) => rank A a | None => 0 end.
  Definition todo_rank (A : nat) (l : list call) : nat := list_sum (map (fun d => S (rank A (first d))) l).
  Lemma rank_mono A B a : A <= B -> rank A a <= rank B a.
  Proof.
    intros L. assert (M : forall n, n * (3 * A + 3) <= n * (3 * B + 3)) by (intros n; apply Nat.mul_le_mono_l; lia). destruct a as [l|n|n i new|n i new d|n i new d]; simpl rank; auto.
    - pose proof (M (S n)). simpl in *. lia.
    - specialize (M n). lia.
    - specialize (M n). lia.
    - specialize (M n). lia.
  Qed.
  Lemma todo_mono A B l : A <= B -> todo_rank A l <= todo_rank B l.
  Proof. intros L. unfold todo_rank. induction l as [|d l IH]; simpl; auto. pose proof (rank_mono (first d) L). lia. Qed.
  Lemma cur_mono A B o : A <= B -> cur_rank A o <= cur_rank B o.
  Proof. intros L. destruct o as [[d a]|]; simpl; auto. apply rank_mono. auto. Qed.
  Section Finish.
    Variable n : nat.
    Definition room (c : cfg) : nat := length (entries (shared c)) + sum n (fun t => cur_apps (current c t) + todo_apps (todo c t)).
    Definition total_rank (c : cfg) : nat := sum n (fun t => cur_rank (room c) (current c t) + todo_rank (room c) (todo c t)).
    Lemma exec_room a s s' nx : exec a s = (s', nx) -> okcode a s ->
      length (entries s') + match nx with Next a' => code_apps a' | _ => 0 end <= length (entries s) + code_apps a.
    Proof.
      destruct a as [[|i r]|m|m j new|m j new e|m j new e]; simpl; intros E O; try (split_exec; simpl; lia).
      - destruct i; simpl in E; split_exec; simpl; unfold apps; simpl; rewrite ?app_length; simpl; try lia.
        + destruct r as [|[] r]; simpl; lia.
        + unfold unwind. destruct (fold_free_same (inside r) s) as (-> & _). lia.
    Qed.
    Lemma exec_rank A a s s' nx : exec a s = (s', nx) -> okcode a s -> length (entries s) <= A -> (forall x, wants a = Some x -> ~ In x (locks s)) ->
      match nx with Next a' => rank A a' < rank A a | _ => 0 < rank A a end.
    Proof.
      destruct a as [[|i r]|m|m j new|m j new e|m j new e]; simpl wants; intros E O L W.
      - simpl in E. split_exec. simpl. lia.
      - simpl in E. destruct i; simpl in E, W; split_exec; simpl; try lia.
        + exfalso. apply (W x); auto. apply has_true. auto.
        + destruct r; simpl; lia.
      - simpl in E. destruct (has s Registry) eqn:H; inversion E; subst; [exfalso; apply (W Registry); auto; apply has_true; auto|]. simpl. lia.
      - simpl in E, O. destruct O as (O1 & O2 & O3). destruct (nth_error (entries s) j) as [d|] eqn:Q.
        + assert (Lt : j < length (entries s)) by (apply nth_error_Some; congruence). inversion E; subst; clear E. destruct (memb Nat.eqb d (gone s')); cbn [rank]; lia.
        + destruct m as [|m]; inversion E; subst; cbn [rank]; [lia|]. lia.
      - simpl in E. destruct (has s (Dictionary e)) eqn:H; inversion E; subst; [exfalso; apply (W (Dictionary e)); auto; apply has_true; auto|]. destruct O as (O1 & _).
        assert (Lt : j < length (entries s)) by (apply nth_error_Some; congruence). cbn [rank]. lia.
      - simpl in E. destruct O as (O1 & _). assert (Lt : j < length (entries s)) by (apply nth_error_Some; congruence). destruct (breaks e); inversion E; subst; cbn [rank]; lia.
    Qed.
    Definition beyond (c : cfg) : Prop := forall t, n <= t -> current c t = None /\ todo c t = [].
    Lemma beyond_step c t : beyond c -> beyond (step c t).
    Proof.
      intros B u L. destruct (step_cases c t) as [->|[(d & r & C & T & S' & C' & L' & T')|(d & a & s & nx & C & E & S' & T' & C' & L')]]; auto; rewrite C', T';
        (destruct (Nat.eq_dec u t) as [->|N]; [destruct (B t L); congruence|rewrite !put_neq by auto; auto]).
    Qed.
    Lemma room_step c t : kept c -> beyond c -> room (step c t) <= room c.
    Proof.
      intros H B. unfold room. destruct (step_cases c t) as [->|[(d & r & C & T & S' & C' & L' & T')|(d & a & s & nx & C & E & S' & T' & C' & L')]]; auto; rewrite S', C', T'.
      - apply Nat.add_le_mono_l. apply sum_le. intros u. destruct (Nat.eq_dec u t) as [->|N]; [rewrite !put_eq, C, T|rewrite !put_neq by auto; auto]. unfold todo_apps. simpl. lia.
      - assert (Lt : t < n) by (destruct (Nat.lt_ge_cases t n) as [|G]; auto; destruct (B t G); congruence). pose proof (exec_room a (shared c) E (k_code H _ C)) as R.
        set (f := fun u => cur_apps (put (current c) t (match nx with Next a' => Some (d, a') | _ => None end) u) + todo_apps (todo c u)). set (g := fun u => cur_apps (current c u) + todo_apps (todo c u)).
        assert (P : forall u, u <> t -> f u = g u) by (intros u N; unfold f, g; rewrite put_neq; auto).
        assert (F : f t = match nx with Next a' => code_apps a' | _ => 0 end + todo_apps (todo c t)) by (unfold f; rewrite put_eq; destruct nx; auto).
        assert (G : g t = code_apps a + todo_apps (todo c t)) by (unfold g; rewrite C; auto).
        assert (X : sum n f + g t = sum n g + f t).
        { clear - P Lt. induction n as [|m IH]; simpl; [lia|]. destruct (Nat.eq_dec t m) as [->|N].
          - assert (sum m f = sum m g); [|lia]. clear IH Lt. assert (Q : forall k, k <= m -> sum k f = sum k g); auto. induction k as [|k IH]; simpl; intros L; auto. rewrite IH by lia. rewrite P by lia. auto.
          - rewrite (P m) by auto. specialize (IH ltac:(lia)). lia. }
        lia.
    Qed.
    Definition good (c : cfg) : Prop := kept c /\ beyond c /\ (forall t d a, current c t = Some (d, a) -> ordered a) /\ (forall t d, In d (todo c t) -> orderly d).
    Lemma good_step c t : good c -> good (step c t).
    Proof.
      intros (H1 & H2 & H3 & H4). split; [apply kept_step; auto|]. split; [apply beyond_step; auto|].
      destruct (step_cases c t) as [->|[(d & r & C & T & S' & C' & L' & T')|(d & a & s & nx & C & E & S' & T' & C' & L')]]; auto; rewrite C', T'.
      - split; intros u.
        + intros d' a' X. destruct (Nat.eq_dec u t) as [->|N]; [rewrite put_eq in X; inversion X; subst; apply first_ordered; apply (H4 t); rewrite T; simpl; auto|rewrite put_neq in X by auto; eauto].
        + intros d' X. destruct (Nat.eq_dec u t) as [->|N]; [rewrite put_eq in X; apply (H4 t); rewrite T; simpl; auto|rewrite put_neq in X by auto; eauto].
      - split; auto. intros u d' a' X. destruct (Nat.eq_dec u t) as [->|N]; [|rewrite put_neq in X by auto; eauto]. rewrite put_eq in X. destruct nx; inversion X; subst. eapply exec_ordered; eauto.
    Qed.
    Lemma goes_on c : good c -> finished c \/ exists t, total_rank (step c t) < total_rank c.
    Proof.
      intros (H1 & H2 & H3 & H4).
      assert (D : finished c \/ exists t, t < n /\ (current c t <> None \/ todo c t <> [])).
      { assert (X : (forall t, t < n -> current c t = None /\ todo c t = []) \/ exists t, t < n /\ (current c t <> None \/ todo c t <> [])).
        { clear. induction n as [|m IH]; [left; intros; lia|]. destruct IH as [IH|(t & L & X)]; [|right; exists t; split; auto].
          destruct (current c m) eqn:C; [right; exists m; split; auto; left; congruence|]. destruct (todo c m) eqn:T; [|right; exists m; split; auto; right; congruence].
          left. intros t L. destruct (Nat.eq_dec t m) as [->|N]; auto. apply IH. lia. }
        destruct X as [X|X]; auto. left. assert (Y : forall t, current c t = None /\ todo c t = []) by (intros t; destruct (Nat.lt_ge_cases t n); auto).
        split; intros t; apply Y. }
      destruct D as [D|(t & L & D)]; auto. right.
      assert (En : (exists u d a, current c u = Some (d, a) /\ forall y, wants a = Some y -> ~ In y (locks (shared c))) \/ current c t = None).
      { destruct (current c t) as [[d a]|] eqn:C; auto. left. destruct (wants a) as [x|] eqn:W; [|exists t, d, a; split; auto; congruence].
        destruct (in_dec lock_dec x (locks (shared c))) as [I|I]; [|exists t, d, a; split; auto; congruence]. eapply someone; eauto. apply (k_sound H1). }
      destruct En as [(u & d & a & C & W)|C].
      - exists u. assert (Lu : u < n) by (destruct (Nat.lt_ge_cases u n) as [|G]; auto; destruct (H2 u G); congruence).
        pose proof (room_step u H1 H2) as R. unfold total_rank at 1. set (A := room c) in *. set (A' := room (step c u)) in *.
        destruct (step_cases c u) as [Q|[(d' & r & C2 & _)|(d' & a' & s & nx & C2 & E & S' & T' & C' & L')]]; [|congruence|].
        + exfalso. unfold turn in Q. rewrite C in Q. destruct (exec a (shared c)) as [s nx] eqn:E. assert (LA : length (entries (shared c)) <= A) by (unfold A, room; lia).
          pose proof (@exec_rank A a (shared c) s nx E (k_code H1 _ C) LA W) as Rk. destruct nx as [a1|r|e].
          * assert (X : current c u = Some (d, a1)) by (rewrite <- Q; simpl; apply put_eq). rewrite C in X. inversion X; subst a1. lia.
          * assert (X : current c u = None) by (rewrite <- Q; simpl; apply put_eq). congruence.
          * assert (X : current c u = None) by (rewrite <- Q; simpl; apply put_eq). congruence.
        + rewrite C in C2. inversion C2; subst d' a'. rewrite C', T'. assert (LA : length (entries (shared c)) <= A) by (unfold A, room; lia).
          pose proof (@exec_rank A a (shared c) s nx E (k_code H1 _ C) LA W) as Rk. unfold total_rank. fold A. apply Nat.lt_le_trans with (m := sum n (fun v => cur_rank A' (put (current c) u (match nx with Next a' => Some (d, a') | _ => None end) v) + todo_rank A' (todo c v)) + 1); [lia|].
          apply sum_drop with (t := u); auto.
          * intros v. pose proof (todo_mono (todo c v) R). destruct (Nat.eq_dec v u) as [->|N]; [rewrite put_eq, C|rewrite put_neq by auto; pose proof (cur_mono (current c v) R); lia].
            destruct nx as [a1|r|e]; simpl; try lia. pose proof (rank_mono a1 R). lia.
          * rewrite put_eq, C. pose proof (todo_mono (todo c u) R). destruct nx as [a1|r|e]; simpl; try lia. pose proof (rank_mono a1 R). lia.
      - destruct D as [D|D]; [congruence|]. destruct (todo c t) as [|d r] eqn:T; [congruence|]. exists t. pose proof (room_step t H1 H2) as R. unfold total_rank at 1. set (A := room c) in *. set (A' := room (step c t)) in *.
        assert (E : step c t = {| shared := shared c; todo := put (todo c) t r; current := put (current c) t (Some (d, first d)); log := log c |}) by (unfold turn; rewrite C, T; auto).
        rewrite E. cbn [current todo]. unfold total_rank. fold A.
        apply Nat.lt_le_trans with (m := sum n (fun v => cur_rank A' (put (current c) t (Some (d, first d)) v) + todo_rank A' (put (todo c) t r v)) + 1); [lia|]. apply sum_drop with (t := t); auto.
        + intros v. destruct (Nat.eq_dec v t) as [->|N]; [rewrite !put_eq, C, T|rewrite !put_neq by auto; pose proof (todo_mono (todo c v) R); pose proof (cur_mono (current c v) R); lia].
          pose proof (todo_mono r R). pose proof (rank_mono (first d) R). unfold todo_rank in *. simpl. lia.
        + rewrite !put_eq, C, T. pose proof (todo_mono r R). pose proof (rank_mono (first d) R). unfold todo_rank in *. simpl. lia.
    Qed.
    Lemma can_finish_from k : forall c, good c -> total_rank c < k -> exists l, finished (reg_run breaks c l).
    Proof.
      induction k as [|k IH]; intros c G L; [lia|]. destruct (goes_on G) as [F|(t & R)]; [exists []; auto|].
      destruct (IH (step c t) (good_step t G)) as (l & F); [lia|]. exists (t :: l). auto.
    Qed.
    Lemma can_finish programs schedule : threads_below n programs -> (forall t d, In d (programs t) -> orderly d) ->
      exists l, finished (reg_run breaks (reg_run breaks (reg_start programs) schedule) l).
    Proof.
      intros B O. eapply can_finish_from; [|apply Nat.lt_succ_diag_r]. unfold reg_run. apply run_inv with (P := good); [|intros; apply good_step; auto].
      split; [apply kept_start|]. split; [intros t L; simpl; auto|]. split; simpl; [discriminate|auto].
    Qed.
  End Finish.

  (** ** the thread is started once *)
  Definition no_launch (l : list instr) : Prop := match l with Launch :: _ => False | _ => True end.
  Fixpoint checked (l : list instr) : Prop :=
    match l with
    | [] => True
    | Check :: r => match r with Launch :: r' => no_launch r' | _ => False end /\ checked r
    | _ :: r => no_launch r /\ checked r
    end.
  Lemma checked_act a : forall r, checked r -> no_launch r -> checked (code_of a ++ r) /\ no_launch (code_of a ++ r).
  Proof.
    induction a as [d|d|d|d l IH|d] using act_ind2; intros r A B; simpl; try tauto.
    rewrite <- app_assoc. assert (A' : checked (Free (Dictionary d) :: r)) by (simpl; auto). assert (B' : no_launch (Free (Dictionary d) :: r)) by (simpl; auto). simpl ([Free (Dictionary d)] ++ r).
    revert A' B'. generalize (Free (Dictionary d) :: r). clear A B r. intros r A B. assert (X : checked (flat_map code_of l ++ r) /\ no_launch (flat_map code_of l ++ r)); [|tauto].
    induction IH as [|x l H _ IH]; simpl; auto. rewrite <- app_assoc. apply H; tauto.
  Qed.
  Definition lcode (a : code) (s : registry) : Prop := match a with Run l => checked l /\ match l with Launch :: _ => started s = false | _ => True end | _ => True end.
  Lemma first_lcode d s : lcode (first d) s.
  Proof.
    destruct d as [a|[|n]]; simpl; auto. destruct (checked_act a []) as [A B]; simpl; auto. rewrite app_nil_r in *. split; auto. destruct (code_of a) as [|[] ?]; simpl in *; auto. tauto.
  Qed.
  Definition once (s : registry) : Prop := launched s = if started s then 1 else 0.
  Lemma exec_once a s s' nx : exec a s = (s', nx) -> lcode a s -> once s -> once s' /\ match nx with Next a' => lcode a' s' | _ => True end.
  Proof.
    destruct a as [[|i r]|m|m j new|m j new e|m j new e]; simpl; intros E L O; try (split_exec; simpl; auto; fail).
    destruct L as [L M]. assert (NL : no_launch r -> forall b, match r with Launch :: _ => b = false | _ => True end) by (intros X b; destruct r as [|[] r]; simpl in *; tauto).
    Local Ltac fin := repeat match goal with H : _ /\ _ |- _ => destruct H end; repeat (split; auto); match goal with NL : _ -> forall b, _ |- _ => apply NL; assumption | _ => idtac end.
    destruct i; simpl in E.
    - destruct (has s x); inversion E; subst; simpl in *; fin.
    - inversion E; subst; simpl in *; fin.
    - inversion E; subst; simpl in *; fin.
    - inversion E; subst; simpl in *. split; auto. destruct r as [|[] r]; simpl in L; try tauto. destruct (started s') eqn:Q; simpl in *; [|tauto]. split; [tauto|]. destruct r as [|[] r]; simpl in *; tauto.
    - inversion E; subst; simpl in *. unfold once in *. simpl. rewrite M in O. rewrite O. fin.
    - destruct (breaks d); inversion E; subst; simpl in *; [|fin]. split; auto. unfold unwind, once. destruct (fold_free_same (inside r) s) as (_ & _ & -> & -> & _). auto.
    - inversion E; subst; simpl in *; fin.
  Qed.
  Lemma exec_started a s s' nx : exec a s = (s', nx) -> started s' = started s \/ (exists r, a = Run (Launch :: r)).
  Proof.
    destruct a as [[|i r]|m|m j new|m j new e|m j new e]; simpl; intros E; try (split_exec; simpl; auto; fail).
    destruct i; simpl in E; split_exec; simpl in *; eauto. left. unfold unwind. destruct (fold_free_same (inside r) s) as (_ & _ & -> & _). auto.
  Qed.
  Lemma exec_started_on a s s' nx : exec a s = (s', nx) -> started s = true -> started s' = true.
  Proof.
    destruct a as [[|i r]|m|m j new|m j new e|m j new e]; simpl; intros E X; try (split_exec; simpl; auto; fail).
    destruct i; simpl in E; split_exec; simpl in *; eauto. unfold unwind. destruct (fold_free_same (inside r) s) as (_ & _ & -> & _). auto.
  Qed.
  Record single (c : cfg) : Prop := {
    g_sound : sound c; g_once : once (shared c);
    g_code : forall t d a, current c t = Some (d, a) -> lcode a (shared c) }.
  Lemma single_step c t : single c -> single (step c t).
  Proof.
    intros [H1 H2 H3]. pose proof (sound_step t H1) as H1'. destruct (step_cases c t) as [->|[(d & r & C & T & S' & C' & _)|(d & a & s & n & C & E & S' & T' & C' & _)]]; [constructor; auto| |].
    - constructor; auto; rewrite ?S', ?C'; auto. intros u d' a' X. destruct (Nat.eq_dec u t) as [->|N]; [rewrite put_eq in X; inversion X; subst; apply first_lcode|rewrite put_neq in X by auto; eauto].
    - destruct (exec_once a E (H3 _ _ _ C) H2) as [A B]. constructor; auto; rewrite ?S', ?C'; auto. intros u d' a' X. destruct (Nat.eq_dec u t) as [->|N].
      + rewrite put_eq in X. destruct n; inversion X; subst; auto.
      + rewrite put_neq in X by auto. specialize (H3 _ _ _ X). destruct (exec_started a (shared c) E) as [Q|(r & ->)].
        * destruct a'; simpl in *; auto. rewrite Q. auto.
        * destruct a' as [l| | | |]; simpl in *; auto. destruct H3 as [P Q]. split; auto. destruct l as [|[] l]; auto. exfalso. apply N.
          pose proof (s_shape H1 _ C) as M1. pose proof (s_shape H1 _ X) as M2. simpl in M1, M2. eapply (s_one H1) with (x := Registry); [exact X|exact C|simpl; tauto|simpl; tauto].
  Qed.
  Lemma single_run programs schedule : single (reg_run breaks (reg_start programs) schedule).
  Proof.
    unfold reg_run. apply run_inv with (P := single); [|intros; apply single_step; auto]. constructor; [apply sound_start|reflexivity|simpl; discriminate].
  Qed.

  (** ** a dictionary that was made is registered *)
  Definition known (d : nat) (s : registry) : Prop := In d (entries s) \/ In d (gone s).
  Definition mcode (d : nat) (a : code) (s : registry) : Prop :=
    exists l, a = Run l /\
    (l = [Take Registry; Append d; Check; Launch; Free Registry] \/ l = [Append d; Check; Launch; Free Registry] \/
     ((l = [Check; Launch; Free Registry] \/ l = [Launch; Free Registry]) /\ known d s) \/ ((l = [Free Registry] \/ l = []) /\ known d s /\ started s = true)).
  Lemma exec_mcode d a s s' nx : exec a s = (s', nx) -> mcode d a s -> (known d s -> known d s') ->
    match nx with Next a' => mcode d a' s' | _ => known d s' /\ started s' = true end.
  Proof.
    intros E (l & -> & M) K. destruct M as [->|[->|[[[->| ->] M]|[[->| ->] [M M']]]]]; simpl in E.
    - destruct (has s Registry); inversion E; subst; eexists; split; eauto 8.
    - inversion E; subst. eexists. split; [reflexivity|]. right. right. left. split; auto. left. simpl. apply in_or_app. simpl. auto.
    - inversion E; subst. destruct (started s') eqn:Q; eexists; (split; [reflexivity|]); [right; right; right|right; right; left]; auto.
    - inversion E; subst. eexists. split; [reflexivity|]. right. right. right. simpl. auto.
    - inversion E; subst. eexists. split; [reflexivity|]. right. right. right. auto.
    - inversion E; subst. auto.
  Qed.
  Lemma mcode_other d a s s' : mcode d a s -> (known d s -> known d s') -> (started s = true -> started s' = true) -> mcode d a s'.
  Proof. intros (l & -> & M) K S. exists l. split; auto. tauto. Qed.
  Record enrolled (c : cfg) : Prop := {
    e_kept : kept c;
    e_code : forall t d a, current c t = Some (User (Make d), a) -> mcode d a (shared c);
    e_log : forall d r, In (User (Make d), r) (log c) -> known d (shared c) /\ started (shared c) = true }.
  Lemma started_step c t : started (shared c) = true -> started (shared (step c t)) = true.
  Proof. intros H. destruct (step_cases c t) as [->|[(e & r & C & T & S' & _)|(e & a & s & n & C & E & S' & _)]]; auto; rewrite S'; auto. eapply exec_started_on; eauto. Qed.
  Lemma enrolled_step c t : enrolled c -> enrolled (step c t).
  Proof.
    intros [H1 H2 H3]. pose proof (kept_step t H1) as H1'. pose proof (fun d => stays_step t d H1) as K. pose proof (started_step c t) as St.
    destruct (step_cases c t) as [->|[(d & r & C & T & S' & C' & L' & T')|(d & a & s & n & C & E & S' & T' & C' & L')]]; [constructor; auto| |].
    - constructor; auto; rewrite ?C', ?L'.
      + intros u e a X. destruct (Nat.eq_dec u t) as [->|N].
        * rewrite put_eq in X. inversion X; subst. eexists. split; [reflexivity|]. auto.
        * rewrite put_neq in X by auto. rewrite S'. eauto.
      + rewrite S'. eauto.
    - rewrite <- S' in E. clear S'. constructor; auto; rewrite ?C', ?L'.
      + intros u e a' X. destruct (Nat.eq_dec u t) as [->|N].
        * rewrite put_eq in X. destruct n; inversion X; subst. apply (exec_mcode E (H2 _ _ _ C)). apply K.
        * rewrite put_neq in X by auto. apply mcode_other with (s := shared c); eauto. apply K.
      + intros e r I. apply in_app_or in I. destruct I as [I|I].
        * destruct (H3 _ _ I). split; auto. apply K. auto.
        * destruct n as [a'|r'|x]; simpl in I; [tauto| |]; destruct I as [I|[]]; inversion I; subst; apply (exec_mcode E (H2 _ _ _ C)); apply K.
  Qed.
  Lemma enrolled_run programs schedule : enrolled (reg_run breaks (reg_start programs) schedule).
  Proof. unfold reg_run. apply run_inv with (P := enrolled); [|intros; apply enrolled_step; auto]. constructor; [apply kept_start|simpl; discriminate|simpl; tauto]. Qed.

  (** ** a round *)
  Definition fresh (b s : registry) (new : list nat) : Prop := exists l, swept s = swept b ++ l /\ forall d, In d new -> ~ In d (gone b) /\ In d l /\ breaks d = false.
  Definition rcode (b : registry) (a : code) (s : registry) : Prop :=
    match a with
    | Run _ => False
    | Sleep _ => True
    | Entry _ _ new => fresh b s new
    | Enter _ _ new d | Tidy _ _ new d => fresh b s new /\ ~ In d (gone b)
    end.
  Lemma fresh_other b s s' new : fresh b s new -> (exists l, swept s' = swept s ++ l) -> fresh b s' new.
  Proof. intros (l & A & B) (m & E). exists (l ++ m). split; [rewrite E, A, app_assoc; auto|]. intros d I. destruct (B d I) as (X & Y & Z). repeat split; auto. apply in_or_app. auto. Qed.
  Lemma rcode_other b a s s' : rcode b a s -> (exists l, swept s' = swept s ++ l) -> rcode b a s'.
  Proof. destruct a; simpl; intros R E; auto; [eapply fresh_other; eauto| |]; destruct R; split; auto; eapply fresh_other; eauto. Qed.
  Lemma exec_rcode b a s s' nx : exec a s = (s', nx) -> rcode b a s -> (forall d, In d (gone b) -> In d (gone s)) -> (exists l, swept s = swept b ++ l) -> match nx with Next a' => rcode b a' s' | _ => True end.
  Proof.
    destruct a as [l|m|m j new|m j new e|m j new e]; simpl; intros E R G W; [tauto| | | |].
    - split_exec; simpl; auto. destruct W as (l & W). exists l. split; auto. simpl. tauto.
    - destruct (nth_error (entries s) j) as [d|]; [|split_exec; simpl; auto]. inversion E; subst; clear E. destruct (memb Nat.eqb d (gone s')) eqn:Q; cbn [rcode]; auto. split; auto.
      intros I. apply G in I. apply (memb_false nateqb_ok) in Q. tauto.
    - split_exec; simpl; auto.
    - destruct (breaks e) eqn:Be; inversion E; subst; clear E; cbn [rcode]; auto. destruct R as ((l & A & B) & N). exists (l ++ [e]). split; [simpl; rewrite A, app_assoc; auto|].
      intros d I. apply in_app_or in I. destruct I as [I|[<-|[]]]; [destruct (B d I) as (X & Y & Z); repeat split; auto; apply in_or_app; auto|]. repeat split; auto. apply in_or_app. simpl. auto.
  Qed.
  Definition stage (b : registry) (t m : nat) (l : list call) (c : cfg) : Prop :=
    kept c /\ (forall d, In d (gone b) -> In d (gone (shared c))) /\ (exists l, swept (shared c) = swept b ++ l) /\
    ((current c t = None /\ todo c t = Background (S m) :: l) \/ (todo c t = l /\ exists a, current c t = Some (Background (S m), a) /\ rcode b a (shared c)) \/ (todo c t = l /\ current c t = None) \/
     length (todo c t) < length l).
  Lemma stage_step b t m l c u : stage b t m l c -> stage b t m l (step c u).
  Proof.
    intros (H & G & W & S). split; [apply kept_step; auto|].
    destruct (step_cases c u) as [->|[(d' & r & C & T & S' & C' & L' & T')|(d' & a & s & n & C & E & S' & T' & C' & L')]]; auto; rewrite C', T', S'.
    - split; auto. split; auto. destruct (Nat.eq_dec t u) as [->|N]; [rewrite !put_eq|rewrite !put_neq by auto; auto].
      destruct S as [[S1 S2]|[[S1 (a & S2 & _)]|[[S1 S2]|S1]]]; try congruence.
      + right. left. rewrite S2 in T. inversion T; subst. split; auto. eexists. split; [reflexivity|]. simpl. auto.
      + right. right. right. rewrite T in S1. subst. simpl. lia.
      + right. right. right. rewrite T in S1. simpl in S1. lia.
    - destruct (exec_swept a (shared c) E) as (l2 & W2). split; [intros d I; eapply exec_gone; eauto|]. split; [destruct W as (l1 & W); exists (l1 ++ l2); rewrite W2, W, app_assoc; auto|].
      destruct (Nat.eq_dec t u) as [->|N]; [rewrite !put_eq|rewrite !put_neq by auto].
      + destruct S as [[S1 S2]|[[S1 (a1 & S2 & S3)]|[[S1 S2]|S1]]]; try congruence; auto.
        rewrite C in S2. inversion S2; subst d' a1. pose proof (exec_rcode b a (shared c) E S3 G W) as R. destruct n as [a'| |]; auto. right. left. split; auto. exists a'. auto.
      + destruct S as [S|[[S1 (a1 & S2 & S3)]|S]]; auto. right. left. split; auto. exists a1. split; auto. eapply rcode_other; eauto.
  Qed.
  Lemma round c0 after t m l : kept c0 -> current c0 t = None -> todo c0 t = Background (S m) :: l -> todo (reg_run breaks c0 after) t = l ->
    let c := reg_run breaks c0 after in let c' := reg_run breaks c [t] in
    log c' = log c ++ [(Background (S m), Ok tt)] ->
    (forall d, In d (entries (shared c')) -> ~ In d (gone (shared c0))) /\
    exists cleaned, swept (shared c') = swept (shared c0) ++ cleaned /\
      forall d, In d (entries (shared c0)) -> ~ In d (gone (shared c')) -> In d (entries (shared c')) /\ In d cleaned /\ breaks d = false.
  Proof.
    intros K C0 T0 T. cbv zeta. intros Lg. assert (S : stage (shared c0) t m l (reg_run breaks c0 after)).
    { unfold reg_run. apply run_inv with (P := stage (shared c0) t m l); [|intros; apply stage_step; auto]. split; auto. split; auto. split; [exists []; rewrite app_nil_r; auto|auto]. }
    assert (St : forall d, In d (entries (shared c0)) -> In d (entries (shared (reg_run breaks c0 after))) \/ In d (gone (shared (reg_run breaks c0 after)))) by (intros d I; apply stays; auto).
    destruct S as (Kc & G & W & S). rewrite T in S. set (c := reg_run breaks c0 after) in *. change (reg_run breaks c [t]) with (step c t) in *.
    destruct (step_cases c t) as [Q|[(d' & r & C & T1 & S' & C' & L' & T')|(d' & a & s & n & C & E & S' & T' & C' & L')]].
    - rewrite Q in Lg. apply (f_equal (@length _)) in Lg. rewrite app_length in Lg. simpl in Lg. lia.
    - rewrite L' in Lg. apply (f_equal (@length _)) in Lg. rewrite app_length in Lg. simpl in Lg. lia.
    - rewrite L' in Lg. apply app_inv_head in Lg. destruct n as [|r|]; try discriminate. inversion Lg; subst d' r.
      destruct S as [[S1 S2]|[[_ (a1 & S2 & S3)]|[[_ S2]|S1]]]; [congruence| |congruence|lia]. rewrite C in S2. inversion S2; subst a1. clear S2. pose proof (k_code Kc _ C) as O. rewrite S'. clear S' C' T' L' Lg.
      destruct a as [l0|m0|m0 j new|m0 j new e|m0 j new e]; simpl in S3; try tauto; simpl in E; try (split_exec; discriminate).
      destruct (nth_error (entries (shared c)) j) as [d|] eqn:Q; [inversion E|]. destruct m0; inversion E; subst. simpl. destruct S3 as (cl & A & B). destruct O as (O1 & O2 & O3). apply nth_error_None in Q. rewrite firstn_all2 in O3 by auto. split.
      + intros d I. apply B. auto.
      + exists cl. split; auto. intros d I N. destruct (St d I) as [J|J]; [|tauto]. destruct (O3 d J) as [X|X]; [tauto|]. destruct (B d X) as (_ & Y & Z). auto.
  Qed.

  (** ** the block that never ends *)
  Definition again (d : nat) (a : act) : Prop := a = Len d \/ a = Use d.
  Record hangs (c : cfg) : Prop := {
    h_sound : sound c;
    h_code : forall t d x b a, current c t = Some (User (With d (x :: b)), a) -> again d x ->
      a = first (User (With d (x :: b))) \/ exists r, a = Run (Take (Dictionary d) :: r) /\ In (Dictionary d) (holds a);
    h_log : forall d x b r, In (User (With d (x :: b)), r) (log c) -> ~ again d x }.
  Lemma hangs_step c t : hangs c -> hangs (step c t).
  Proof.
    intros [H1 H2 H3]. pose proof (sound_step t H1) as H1'. destruct (step_cases c t) as [->|[(d & r & C & T & S' & C' & L' & T')|(d & a & s & n & C & E & S' & T' & C' & L')]]; [constructor; auto| |].
    - constructor; auto; rewrite ?C', ?L'; auto. intros u e x b a X Ag. destruct (Nat.eq_dec u t) as [->|N]; [rewrite put_eq in X; inversion X; subst; auto|rewrite put_neq in X by auto; eauto].
    - assert (Q : forall e x b, d = User (With e (x :: b)) -> again e x -> exists a', n = Next a' /\ (a' = first (User (With e (x :: b))) \/ exists r, a' = Run (Take (Dictionary e) :: r) /\ In (Dictionary e) (holds a'))).
      { intros e x b -> Ag. destruct (H2 _ _ _ _ _ C Ag) as [->|(r & -> & I)].
        - simpl in E. destruct (has (shared c) (Dictionary e)) eqn:Hs; inversion E; subst; clear E; (eexists; split; [reflexivity|]); [left; reflexivity|right].
          destruct Ag as [->| ->]; simpl; eexists; (split; [reflexivity|]); simpl; rewrite Nat.eqb_refl; rewrite inside_body; simpl; auto.
        - assert (I2 : In (Dictionary e) (locks (shared c))) by (apply (s_lock H1); eauto). apply has_true in I2. simpl in E. rewrite I2 in E. inversion E; subst. eexists. split; [reflexivity|]. eauto. }
      constructor; auto; rewrite ?C', ?L'.
      + intros u e x b a' X Ag. destruct (Nat.eq_dec u t) as [->|N]; [|rewrite put_neq in X by auto; eauto]. rewrite put_eq in X. destruct n as [a1| |]; inversion X; subst.
        destruct (Q _ _ _ eq_refl Ag) as (a2 & Y & Z). inversion Y; subst. auto.
      + intros e x b r I Ag. apply in_app_or in I. destruct I as [I|I]; [eapply H3; eauto|]. destruct n as [a1|r1|x1]; simpl in I; [tauto| |]; destruct I as [I|[]]; inversion I; subst; destruct (Q _ _ _ eq_refl Ag) as (a2 & Y & _); discriminate.
  Qed.
  Lemma hangs_run programs schedule : hangs (reg_run breaks (reg_start programs) schedule).
  Proof. unfold reg_run. apply run_inv with (P := hangs); [|intros; apply hangs_step; auto]. constructor; [apply sound_start|simpl; discriminate|simpl; tauto]. Qed.

  (** ** deadlocks *)
  Definition stuck (c : cfg) (t : nat) : Prop :=
    match current c t with None => todo c t = [] | Some (_, a) => match wants a with Some x => has (shared c) x = true | None => False end end.
  Lemma blocked a s x : wants a = Some x -> has s x = true -> exec a s = (s, Next a).
  Proof. destruct a as [[|[] r]| | | |]; simpl; intros W H; inversion W; subst; rewrite H; auto. Qed.
  Lemma frozen (c : cfg) schedule : (forall t, stuck c t) -> log (reg_run breaks c schedule) = log c.
  Proof.
    intros S. assert (X : let c' := reg_run breaks c schedule in shared c' = shared c /\ (forall t, current c' t = current c t) /\ (forall t, todo c' t = todo c t) /\ log c' = log c); [|apply X].
    unfold reg_run. apply run_inv with (P := fun c' : cfg => shared c' = shared c /\ (forall t, current c' t = current c t) /\ (forall t, todo c' t = todo c t) /\ log c' = log c); auto.
    intros c' t (A & B & C & D). specialize (S t). unfold stuck in S. unfold turn. rewrite B. destruct (current c t) as [[d a]|] eqn:E.
    - destruct (wants a) as [x|] eqn:W; [|tauto]. rewrite A, (blocked _ _ W S). simpl. split; auto. split; auto. intros u. destruct (Nat.eq_dec u t) as [->|N]; [rewrite put_eq; auto|rewrite put_neq; auto].
    - rewrite C, S. auto.
  Qed.
End ClnRegProofs.
