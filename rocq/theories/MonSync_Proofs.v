From Verif Require Import Prelude PreludeFacts MonSync_Model MonSync_Spec.
Set Implicit Arguments.

Notation cnt := (count_occ Nat.eq_dec).

Lemma cnt_given_up m l : cnt (given_up m l) m = pred (cnt l m).
Proof.
  unfold given_up. induction l as [|x l IH]; auto. simpl.
  destruct (Nat.eqb_spec x m) as [->|N].
  - destruct (Nat.eq_dec m m); [auto|congruence].
  - simpl. destruct (Nat.eq_dec x m); [congruence|]. auto.
Qed.
Lemma cnt_given_up_other m x l : x <> m -> cnt (given_up m l) x = cnt l x.
Proof.
  unfold given_up. intros N. induction l as [|y l IH]; auto. simpl.
  destruct (Nat.eqb_spec y m) as [->|N2].
  - destruct (Nat.eq_dec m x); [congruence|auto].
  - simpl. rewrite IH. auto.
Qed.
Lemma put_eq {A} (f : nat -> A) i v : put f i v i = v.
Proof. unfold put. rewrite Nat.eqb_refl. auto. Qed.
Lemma put_neq {A} (f : nat -> A) i v x : x <> i -> put f i v x = f x.
Proof. intros N. unfold put. rewrite (proj2 (Nat.eqb_neq x i) N). auto. Qed.

Fixpoint hs (st : list (leave * code)) : list nat :=
  match st with
  | [] => []
  | (Unlock m, _) :: t => m :: hs t
  | (Lock m, _) :: t => given_up m (hs t)
  | (Catch, _) :: t => hs t
  end.

Section Safety.
  Variable re : nat -> bool.

  Fixpoint stack_ok (st : list (leave * code)) : Prop :=
    match st with
    | [] => True
    | (Unlock m, k) :: t => proper re (hs t) k /\ stack_ok t
    | (Lock m, k) :: t => In m (hs t) /\ proper re (hs t) k /\ stack_ok t
    | (Catch, k) :: t => proper re (hs t) k /\ stack_ok t
    end.
  Definition th_ok (th : thread) : Prop := proper re (hs (stack th)) (now th) /\ stack_ok (stack th).

  (** the locks agree with what the threads are inside of *)
  Definition lock_ok (m : nat) (l : lock) (h : nat -> list nat) : Prop :=
    match l with
    | None => forall t, cnt (h t) m = 0
    | Some (u, n) => 1 <= n /\ (re m = false -> n = 1) /\ cnt (h u) m = n /\ forall t, t <> u -> cnt (h t) m = 0
    end.
  Definition hsf (c : config) : nat -> list nat := fun t => hs (stack (threads c t)).
  Definition Inv (c : config) : Prop :=
    (forall t, th_ok (threads c t)) /\ (forall m, lock_ok m (locks c m) (hsf c)) /\
    (forall m, owner re m (log c) = Some (locks c m)).

  Lemma owner_app m l o e : owner_from re m o (l ++ [e]) =
    match owner_from re m o l with Some o' => next_owner re m o' e | None => None end.
  Proof.
    revert o. induction l as [|x l IH]; intros o; simpl.
    - destruct (next_owner re m o e); auto.
    - destruct (next_owner re m o x); auto.
  Qed.

  (** the three kinds of changes *)
  Lemma Inv_same c t th : Inv c -> th_ok th -> hs (stack th) = hs (stack (threads c t)) ->
    Inv (silent c t th).
  Proof.
    intros (I1 & I2 & I3) T E. split; [|split; auto].
    - intros u. simpl. unfold put. destruct (Nat.eqb u t); auto.
    - intros m. specialize (I2 m). unfold lock_ok in *. simpl.
      assert (H : forall u, hsf (silent c t th) u = hsf c u).
      { intros u. unfold hsf. simpl. unfold put. destruct (Nat.eqb_spec u t) as [->|]; auto. }
      destruct (locks c m) as [[u n]|].
      + destruct I2 as (A & B & C & D). repeat split; auto; [rewrite H; auto|]. intros x Hx. rewrite H; auto.
      + intros x. rewrite H. auto.
  Qed.

  Lemma Inv_did c t th a : Inv c -> th_ok th -> hs (stack th) = hs (stack (threads c t)) ->
    Inv (note c t th (Did t a)).
  Proof.
    intros I T E. destruct (Inv_same t I T E) as (A & B & C). split; [|split]; auto.
    intros m. simpl. unfold owner. rewrite owner_app. unfold owner in C. specialize (C m). simpl in C. rewrite C. reflexivity.
  Qed.

  Lemma Inv_take c t th m l e : Inv c -> th_ok th ->
    acquire re m t (locks c m) = Some l ->
    cnt (hs (stack th)) m = S (cnt (hsf c t) m) -> (forall x, x <> m -> cnt (hs (stack th)) x = cnt (hsf c t) x) ->
    e = Entered t m \/ e = TookBack t m ->
    Inv (update c t th m l e).
  Proof.
    intros (I1 & I2 & I3) T A Hm Hx He. split; [|split].
    - intros u. simpl. unfold put. destruct (Nat.eqb u t); auto.
    - intros m'. simpl. destruct (Nat.eq_dec m' m) as [->|N].
      + rewrite put_eq. specialize (I2 m). unfold acquire in A. unfold lock_ok in *.
        destruct (locks c m) as [[u n]|].
        * destruct (re m) eqn:R; simpl in A; [|discriminate].
          destruct (Nat.eqb_spec u t) as [->|]; [|discriminate]. injection A as <-.
          destruct I2 as (J1 & J2 & J3 & J4). split; [lia|]. split; [discriminate|]. split.
          -- unfold hsf. simpl. rewrite put_eq. rewrite Hm. unfold hsf in J3. unfold hsf. lia.
          -- intros x N. unfold hsf. simpl. rewrite put_neq by auto. apply J4; auto.
        * injection A as <-. split; [lia|]. split; auto. split.
          -- unfold hsf. simpl. rewrite put_eq. rewrite Hm, I2. auto.
          -- intros x N. unfold hsf. simpl. rewrite put_neq by auto. apply I2.
      + rewrite put_neq by auto. specialize (I2 m'). unfold lock_ok in *.
        assert (H : forall u, cnt (hsf (update c t th m l e) u) m' = cnt (hsf c u) m').
        { intros u. unfold hsf at 1. simpl. unfold put. destruct (Nat.eqb_spec u t) as [->|]; auto. }
        destruct (locks c m') as [[u n]|].
        * destruct I2 as (J1 & J2 & J3 & J4). repeat split; auto; [rewrite H; auto|]. intros x X. rewrite H; auto.
        * intros x. rewrite H. auto.
    - intros m'. simpl. unfold owner. rewrite owner_app. unfold owner in I3. rewrite (I3 m').
      assert (E : next_owner re m' (locks c m') e =
        if Nat.eqb m m' then match locks c m' with
            | None => Some (Some (t, 1))
            | Some (u, n) => if Nat.eqb u t then (if re m' then Some (Some (t, S n)) else None) else None
            end else Some (locks c m')) by (destruct He as [-> | ->]; reflexivity).
      rewrite E. destruct (Nat.eqb_spec m m') as [E0|N]; [subst m'|].
      + rewrite put_eq. unfold acquire in A. destruct (locks c m) as [[u n]|]; [|congruence].
        destruct (re m); simpl in A; [|discriminate].
        destruct (Nat.eqb_spec u t) as [->|]; [congruence|discriminate].
      + rewrite put_neq by auto. auto.
  Qed.

  Lemma Inv_drop c t th m e : Inv c -> th_ok th -> 1 <= cnt (hsf c t) m ->
    cnt (hs (stack th)) m = pred (cnt (hsf c t) m) -> (forall x, x <> m -> cnt (hs (stack th)) x = cnt (hsf c t) x) ->
    e = Left t m \/ e = GaveUp t m ->
    exists l, release re m t (locks c m) = Some l /\ Inv (update c t th m l e).
  Proof.
    intros (I1 & I2 & I3) T H1 Hm Hx He. pose proof (I2 m) as Lm. unfold lock_ok in Lm.
    destruct (locks c m) as [[u n]|] eqn:El; [|rewrite Lm in H1; lia].
    destruct Lm as (J1 & J2 & J3 & J4).
    assert (u = t) as -> by (destruct (Nat.eq_dec t u); auto; rewrite J4 in H1 by auto; lia).
    set (l := match n with S (S n') => Some (t, S n') | _ => None end : lock).
    exists l. split.
    { unfold release, l. destruct (re m); [rewrite Nat.eqb_refl; auto|]. rewrite J2 by auto. auto. }
    split; [|split].
    - intros u. simpl. unfold put. destruct (Nat.eqb u t); auto.
    - intros m'. simpl. destruct (Nat.eq_dec m' m) as [->|N].
      + rewrite put_eq. unfold lock_ok, l.
        assert (Ht : cnt (hsf (update c t th m l e) t) m = pred n).
        { unfold hsf. simpl. rewrite put_eq. rewrite Hm. lia. }
        assert (Ho : forall x, x <> t -> cnt (hsf (update c t th m l e) x) m = 0).
        { intros x N. unfold hsf. simpl. rewrite put_neq by auto. apply J4; auto. }
        destruct n as [|[|n]]; [lia| |].
        * intros x. destruct (Nat.eq_dec x t) as [->|]; auto.
        * split; [lia|]. split; [intros R; specialize (J2 R); lia|]. auto.
      + rewrite put_neq by auto. specialize (I2 m'). unfold lock_ok in *.
        assert (H : forall u, cnt (hsf (update c t th m l e) u) m' = cnt (hsf c u) m').
        { intros u. unfold hsf at 1. simpl. unfold put. destruct (Nat.eqb_spec u t) as [->|]; auto. }
        destruct (locks c m') as [[u k]|].
        * destruct I2 as (K1 & K2 & K3 & K4). repeat split; auto; [rewrite H; auto|]. intros x X. rewrite H; auto.
        * intros x. rewrite H. auto.
    - intros m'. simpl. unfold owner. rewrite owner_app. unfold owner in I3. rewrite (I3 m').
      assert (E : forall o, next_owner re m' o e =
        if Nat.eqb m m' then match o with
                | Some (u, 1) => if Nat.eqb u t then Some None else None
                | Some (u, S n) => if Nat.eqb u t then Some (Some (u, n)) else None
                | _ => None
                end else Some o) by (intros o; destruct He as [-> | ->]; reflexivity).
      rewrite E. destruct (Nat.eqb_spec m m') as [E0|N]; [subst m'|].
      + rewrite put_eq, El. unfold l. destruct n as [|[|n]]; [lia| |]; rewrite Nat.eqb_refl; auto.
      + rewrite put_neq by auto. auto.
  Qed.

  Lemma In_cnt m l : In m l -> 1 <= cnt l m.
  Proof. intros H. apply (count_occ_In Nat.eq_dec) in H. lia. Qed.

  Lemma turn_Inv c t : Inv c -> Inv (turn re c t).
  Proof.
    intros I. pose proof I as (I1 & I2 & I3). destruct (I1 t) as [P S].
    assert (Leave : Inv (leave_block re c t (threads c t))).
    { unfold leave_block. destruct (stack (threads c t)) as [|[[m|m|] k] st] eqn:Est; auto; simpl in S.
      - destruct (@Inv_drop c t {| now := k; failing := failing (threads c t); stack := st |} m (Left t m) I) as (l & -> & J); auto; try (split; simpl; tauto).
        + unfold hsf. rewrite Est. simpl. destruct (Nat.eq_dec m m); [lia|congruence].
        + unfold hsf. rewrite Est. simpl. destruct (Nat.eq_dec m m); [lia|congruence].
        + intros x N. unfold hsf. rewrite Est. simpl. destruct (Nat.eq_dec m x); congruence.
      - destruct (acquire re m t (locks c m)) as [l|] eqn:Ea; auto.
        apply Inv_take; auto; try (split; simpl; tauto).
        + unfold hsf. rewrite Est. simpl. rewrite cnt_given_up. pose proof (In_cnt _ _ (proj1 S)). lia.
        + intros x N. unfold hsf. rewrite Est. simpl. rewrite cnt_given_up_other; auto.
      - apply Inv_same; [auto|split; simpl; tauto|rewrite Est; auto]. }
    unfold turn. destruct (failing (threads c t)); auto.
    destruct (now (threads c t)) as [|a k| |b k|m b k|m b k]; auto; simpl in P.
    - apply Inv_did; auto. split; simpl; auto.
    - apply Inv_same; auto. split; simpl; auto.
    - apply Inv_same; auto. split; simpl; tauto.
    - destruct (acquire re m t (locks c m)) as [l|] eqn:Ea; auto.
      apply Inv_take; auto.
      + split; simpl; tauto.
      + simpl. destruct (Nat.eq_dec m m); [auto|congruence].
      + intros x N. simpl. destruct (Nat.eq_dec m x); [congruence|auto].
    - destruct (@Inv_drop c t {| now := b; failing := false; stack := (Lock m, k) :: stack (threads c t) |} m (GaveUp t m) I) as (l & -> & J); auto.
      + split; simpl; tauto.
      + unfold hsf. apply In_cnt. tauto.
      + simpl. rewrite cnt_given_up. auto.
      + intros x N. simpl. rewrite cnt_given_up_other; auto.
  Qed.

  Lemma start_Inv programs : (forall t, proper re [] (programs t)) -> Inv (start programs).
  Proof.
    intros P. split; [|split].
    - intros t. split; simpl; auto.
    - intros m t. reflexivity.
    - intros m. reflexivity.
  Qed.
  Lemma run_Inv sched : forall c, Inv c -> Inv (run re c sched).
  Proof. induction sched as [|t s IH]; intros c I; simpl; auto. apply IH. apply turn_Inv; auto. Qed.

  Lemma exclusive programs sched m : (forall t, proper re [] (programs t)) ->
    owner re m (log (run re (start programs) sched)) = Some (locks (run re (start programs) sched) m).
  Proof. intros P. apply run_Inv. apply start_Inv; auto. Qed.

  Lemma finished_frees programs sched t m n : (forall t, proper re [] (programs t)) ->
    finished (threads (run re (start programs) sched) t) ->
    owner re m (log (run re (start programs) sched)) <> Some (Some (t, n)).
  Proof.
    intros P [F _]. rewrite exclusive by auto. intros E.
    destruct (run_Inv sched (start_Inv _ P)) as (_ & I2 & _). specialize (I2 m). injection E as E.
    rewrite E in I2. destruct I2 as (A & _ & B & _). unfold hsf in B. rewrite F in B. simpl in B. lia.
  Qed.

  (** ** the meaning of a program does not depend on the monitors *)
  Fixpoint finish (p : list nat * bool) (st : list (leave * code)) : list nat * bool :=
    match st with
    | [] => p
    | (Catch, k) :: t => let (l', e') := meaning k in finish (fst p ++ l', e') t
    | (_, k) :: t => if snd p then finish p t else let (l', e') := meaning k in finish (fst p ++ l', e') t
    end.
  Definition rem (th : thread) : list nat * bool :=
    finish (if failing th then ([], true) else meaning (now th)) (stack th).

  Lemma finish_app a l e st : finish (a ++ l, e) st = (a ++ fst (finish (l, e) st), snd (finish (l, e) st)).
  Proof.
    revert l e. induction st as [|[[m|m|] k] st IH]; intros l e; simpl; auto.
    - destruct e; [apply IH|]. destruct (meaning k) as [l' e']. rewrite <- app_assoc. apply IH.
    - destruct e; [apply IH|]. destruct (meaning k) as [l' e']. rewrite <- app_assoc. apply IH.
    - destruct (meaning k) as [l' e']. rewrite <- app_assoc. apply IH.
  Qed.
  Lemma finish_nil a e st : finish (a, e) st = (a ++ fst (finish ([], e) st), snd (finish ([], e) st)).
  Proof. rewrite <- (app_nil_r a) at 1. apply finish_app. Qed.

  Definition told (c : config) (t : nat) : list nat * bool :=
    (steps_of t (log c) ++ fst (rem (threads c t)), snd (rem (threads c t))).

  Lemma steps_app t l l' : steps_of t (l ++ l') = steps_of t l ++ steps_of t l'.
  Proof. induction l as [|[u a|u m|u m|u m|u m|u m] l IH]; simpl; auto. destruct (Nat.eqb u t); rewrite IH; auto. Qed.

  Lemma told_other c t u : t <> u -> told (turn re c t) u = told c u.
  Proof.
    intros N. assert (N' : u <> t) by auto. unfold told.
    assert (H : threads (turn re c t) u = threads c u /\ steps_of u (log (turn re c t)) = steps_of u (log c)).
    { assert (L : threads (leave_block re c t (threads c t)) u = threads c u /\
                  steps_of u (log (leave_block re c t (threads c t))) = steps_of u (log c)).
      { unfold leave_block. destruct (stack (threads c t)) as [|[[m|m|] k] st]; auto.
        - destruct (release re m t (locks c m)); simpl; rewrite put_neq, steps_app by auto; simpl; rewrite app_nil_r; auto.
        - destruct (acquire re m t (locks c m)); auto; simpl; rewrite put_neq, steps_app by auto; simpl; rewrite app_nil_r; auto.
        - simpl. rewrite put_neq by auto. auto. }
      unfold turn. destruct (failing (threads c t)); auto.
      destruct (now (threads c t)) as [|a k| |b k|m b k|m b k]; auto; simpl.
      - rewrite put_neq, steps_app by auto. simpl. rewrite (proj2 (Nat.eqb_neq t u) N), app_nil_r. auto.
      - rewrite put_neq by auto. auto.
      - rewrite put_neq by auto. auto.
      - destruct (acquire re m t (locks c m)); auto; simpl; rewrite put_neq, steps_app by auto; simpl; rewrite app_nil_r; auto.
      - destruct (release re m t (locks c m)); simpl; rewrite put_neq, steps_app by auto; simpl; rewrite app_nil_r; auto. }
    destruct H as [-> ->]. auto.
  Qed.

  Lemma release_held c t m : Inv c -> In m (hsf c t) -> exists l, release re m t (locks c m) = Some l.
  Proof.
    intros (I1 & I2 & I3) H. apply In_cnt in H. specialize (I2 m). unfold lock_ok in I2. unfold release.
    destruct (locks c m) as [[u n]|]; [|rewrite I2 in H; lia].
    destruct I2 as (J1 & J2 & J3 & J4).
    assert (u = t) as -> by (destruct (Nat.eq_dec t u); auto; rewrite J4 in H by auto; lia).
    rewrite Nat.eqb_refl. destruct (re m); eauto.
  Qed.

  Lemma told_same c t : Inv c -> told (turn re c t) t = told c t.
  Proof.
    intros I. pose proof I as (I1 & I2 & I3). destruct (I1 t) as [P S].
    assert (L : (failing (threads c t) = true \/ now (threads c t) = Done) ->
                told (leave_block re c t (threads c t)) t = told c t).
    { intros F. unfold leave_block, told.
      assert (R : rem (threads c t) = finish ([], failing (threads c t)) (stack (threads c t))).
      { unfold rem. destruct F as [-> | ->]; auto. destruct (failing (threads c t)); auto. }
      rewrite R. clear R.
      destruct (stack (threads c t)) as [|[[m|m|] k] st] eqn:Est; auto.
      - unfold rem. rewrite Est. destruct F as [-> | ->]; auto. destruct (failing (threads c t)); auto.
      - destruct (@release_held c t m I) as [l ->]; [unfold hsf; rewrite Est; simpl; auto|].
        simpl. rewrite put_eq, steps_app. simpl. rewrite app_nil_r. unfold rem. simpl.
        destruct (failing (threads c t)); auto. destruct (meaning k); auto.
      - destruct (acquire re m t (locks c m)) as [l|].
        + simpl. rewrite put_eq, steps_app. simpl. rewrite app_nil_r. unfold rem. simpl.
          destruct (failing (threads c t)); auto. destruct (meaning k); auto.
        + unfold rem. rewrite Est. destruct F as [-> | ->]; auto. destruct (failing (threads c t)); auto.
      - simpl. rewrite put_eq. unfold rem. simpl. destruct (meaning k); auto. }
    unfold turn. destruct (failing (threads c t)) eqn:Ef; auto.
    destruct (now (threads c t)) as [|a k| |b k|m b k|m b k] eqn:En; auto; unfold told; simpl.
    - rewrite put_eq, steps_app. simpl. rewrite Nat.eqb_refl. unfold rem. simpl. rewrite Ef, En. simpl.
      destruct (meaning k) as [l e].
      change (a :: l) with ([a] ++ l). rewrite (finish_app [a] l e (stack (threads c t))). simpl. rewrite <- app_assoc. auto.
    - rewrite put_eq. unfold rem. simpl. rewrite Ef, En. auto.
    - rewrite put_eq. unfold rem. simpl. rewrite Ef, En. simpl.
      destruct (meaning b) as [l e]. destruct (meaning k) as [l' e']. auto.
    - destruct (acquire re m t (locks c m)) as [l|]; auto. simpl.
      rewrite put_eq, steps_app. simpl. rewrite app_nil_r. unfold rem. simpl. rewrite Ef, En. simpl.
      destruct (meaning b) as [lb e]. destruct e; auto. destruct (meaning k) as [l' e']. auto.
    - destruct (@release_held c t m I) as [l ->].
      { unfold hsf. apply P. }
      simpl. rewrite put_eq, steps_app. simpl. rewrite app_nil_r. unfold rem. simpl. rewrite Ef, En. simpl.
      destruct (meaning b) as [lb e]. destruct e; auto. destruct (meaning k) as [l' e']. auto.
  Qed.

  Lemma told_run sched : forall c t, Inv c -> told (run re c sched) t = told c t.
  Proof.
    induction sched as [|u s IH]; intros c t I; simpl; auto.
    rewrite IH by (apply turn_Inv; auto). destruct (Nat.eq_dec u t) as [->|N].
    - apply told_same; auto.
    - apply told_other; auto.
  Qed.

  Lemma told_start programs t : told (start programs) t = meaning (programs t).
  Proof. unfold told, rem. simpl. destruct (meaning (programs t)); auto. Qed.

  Lemma transparent programs sched t : (forall t, proper re [] (programs t)) ->
    let c := run re (start programs) sched in
    finished (threads c t) ->
    (steps_of t (log c), failing (threads c t)) = meaning (programs t).
  Proof.
    intros P c [F G]. pose proof (told_run sched t (start_Inv _ P)) as H. fold c in H.
    rewrite told_start in H. rewrite <- H. unfold told, rem. rewrite F. simpl.
    destruct G as [-> | ->]; simpl; rewrite ?app_nil_r; auto.
    destruct (failing (threads c t)); simpl; rewrite ?app_nil_r; auto.
  Qed.

  Lemma prefix programs sched t : (forall t, proper re [] (programs t)) ->
    exists rest, fst (meaning (programs t)) = steps_of t (log (run re (start programs) sched)) ++ rest.
  Proof.
    intros P. pose proof (told_run sched t (start_Inv _ P)) as H.
    rewrite told_start in H. rewrite <- H. unfold told. simpl. eauto.
  Qed.
End Safety.

Section Liveness.
  Variable re : nat -> bool.

  Lemma ordered_proper p : forall held, ordered re held p -> proper re held p.
  Proof.
    induction p as [|a k IH| |b IHb k IHk|m b IHb k IHk|m b IHb k IHk]; intros held; simpl; auto.
    - intros [A B]. auto.
    - intros (A & B & C). split; auto. intros R H. destruct A as [A|[A _]]; [|congruence].
      specialize (A _ H). lia.
    - intros (A & B & C & D). auto.
  Qed.

  Fixpoint ostack (st : list (leave * code)) : Prop :=
    match st with
    | [] => True
    | (Unlock m, k) :: t => ordered re (hs t) k /\ ostack t
    | (Lock m, k) :: t => (forall x, In x (given_up m (hs t)) -> x < m) /\ ordered re (hs t) k /\ ostack t
    | (Catch, k) :: t => ordered re (hs t) k /\ ostack t
    end.
  Definition oth (th : thread) : Prop := ordered re (hs (stack th)) (now th) /\ ostack (stack th).

  Lemma turn_oth c t : (forall u, oth (threads c u)) -> forall u, oth (threads (turn re c t) u).
  Proof.
    intros I u. destruct (I t) as [P S].
    assert (P' : forall th f, oth th -> oth (put f t th t)) by (intros; rewrite put_eq; auto).
    destruct (Nat.eq_dec u t) as [->|N].
    2: { assert (H : threads (turn re c t) u = threads c u).
         { unfold turn, leave_block. destruct (failing (threads c t)), (now (threads c t)), (stack (threads c t)) as [|[[m0|m0|] k0] st0]; simpl; auto;
             repeat match goal with |- context [match ?x with Some _ => _ | None => _ end] => destruct x end; simpl; rewrite ?put_neq by auto; auto. }
         rewrite H. auto. }
    assert (L : oth (threads (leave_block re c t (threads c t)) t)).
    { unfold leave_block. destruct (stack (threads c t)) as [|[[m|m|] k] st] eqn:Est; auto; simpl in S.
      - destruct (release re m t (locks c m)); simpl; rewrite put_eq; split; simpl; tauto.
      - destruct (acquire re m t (locks c m)); auto; simpl; rewrite put_eq; split; simpl; tauto.
      - simpl. rewrite put_eq. split; simpl; tauto. }
    unfold turn. destruct (failing (threads c t)); auto.
    destruct (now (threads c t)) as [|a k| |b k|m b k|m b k] eqn:En; auto; simpl in P; simpl.
    - rewrite put_eq. split; simpl; tauto.
    - rewrite put_eq. split; simpl; tauto.
    - rewrite put_eq. split; simpl; tauto.
    - destruct (acquire re m t (locks c m)); auto. simpl. rewrite put_eq. split; simpl; tauto.
    - destruct (release re m t (locks c m)); simpl; rewrite put_eq; split; simpl; tauto.
  Qed.

  Lemma oInv_run sched : forall c, Inv re c -> (forall u, oth (threads c u)) ->
    Inv re (run re c sched) /\ forall u, oth (threads (run re c sched) u).
  Proof.
    induction sched as [|t s IH]; intros c I O; simpl; auto. apply IH; [apply turn_Inv; auto|].
    intros u. apply turn_oth; auto.
  Qed.

  (** the size of what a thread still has to do *)
  Fixpoint csize (p : code) : nat :=
    match p with
    | Done => 0
    | Do _ k => 1 + csize k
    | Throw => 1
    | Try b k | With _ b k | Release _ b k => 2 + csize b + csize k
    end.
  Fixpoint ssize (st : list (leave * code)) : nat :=
    match st with [] => 0 | (_, k) :: t => 1 + csize k + ssize t end.
  Definition tsize (th : thread) : nat := (if failing th then 0 else csize (now th)) + ssize (stack th).

  Lemma turn_size c t :
    turn re c t = c \/
    (tsize (threads (turn re c t) t) < tsize (threads c t) /\ forall u, u <> t -> threads (turn re c t) u = threads c u).
  Proof.
    assert (L : leave_block re c t (threads c t) = c \/
      (tsize (threads (leave_block re c t (threads c t)) t) < tsize (threads c t) /\
       forall u, u <> t -> threads (leave_block re c t (threads c t)) u = threads c u)).
    { unfold leave_block. destruct (stack (threads c t)) as [|[[m|m|] k] st] eqn:Est; auto.
      - right. unfold tsize at 2. rewrite Est.
        destruct (release re m t (locks c m)); simpl; rewrite put_eq; (split; [|intros; apply put_neq; auto]); unfold tsize; simpl;
          destruct (failing (threads c t)); lia.
      - destruct (acquire re m t (locks c m)); auto. right. unfold tsize at 2. rewrite Est.
        simpl; rewrite put_eq; (split; [|intros; apply put_neq; auto]); unfold tsize; simpl; destruct (failing (threads c t)); lia.
      - right. unfold tsize at 2. rewrite Est.
        simpl; rewrite put_eq; (split; [|intros; apply put_neq; auto]); unfold tsize; simpl; destruct (failing (threads c t)); lia. }
    unfold turn. destruct (failing (threads c t)) eqn:Ef; auto.
    destruct (now (threads c t)) as [|a k| |b k|m b k|m b k] eqn:En; auto.
    - right. unfold tsize at 2. rewrite En, Ef. simpl; rewrite put_eq; (split; [|intros; apply put_neq; auto]); unfold tsize; simpl; lia.
    - right. unfold tsize at 2. rewrite En, Ef. simpl; rewrite put_eq; (split; [|intros; apply put_neq; auto]); unfold tsize; simpl; lia.
    - right. unfold tsize at 2. rewrite En, Ef. simpl; rewrite put_eq; (split; [|intros; apply put_neq; auto]); unfold tsize; simpl; lia.
    - destruct (acquire re m t (locks c m)); auto.
      right. unfold tsize at 2. rewrite En, Ef. simpl; rewrite put_eq; (split; [|intros; apply put_neq; auto]); unfold tsize; simpl; lia.
    - right. unfold tsize at 2. rewrite En, Ef.
      destruct (release re m t (locks c m)); simpl; rewrite put_eq; (split; [|intros; apply put_neq; auto]); unfold tsize; simpl; lia.
  Qed.

  (** a thread that cannot move is finished or wants a lock that another one has *)
  Lemma blocked_why c t : Inv re c -> oth (threads c t) -> turn re c t = c ->
    finished (threads c t) \/
    exists m u n, locks c m = Some (u, n) /\ u <> t /\ forall x, In x (hsf c t) -> x < m.
  Proof.
    intros I [P S] E.
    assert (Hsz : forall th, threads c t = th -> tsize th = tsize (threads c t)) by (intros; congruence).
    assert (A : forall m l, acquire re m t (locks c m) = None -> l = hsf c t ->
       (forall x, In x l -> x < m) \/ (re m = true /\ In m l) ->
       exists m' u n, locks c m' = Some (u, n) /\ u <> t /\ forall x, In x (hsf c t) -> x < m').
    { intros m l Ha -> Ho. pose proof (proj1 (proj2 I) m) as Lm. unfold lock_ok in Lm. unfold acquire in Ha.
      destruct (locks c m) as [[u n]|] eqn:El; [|discriminate].
      destruct Lm as (J1 & J2 & J3 & J4). destruct Ho as [Ho|[R Hin]].
      - exists m, u, n. split; auto. split; auto. intros ->. 
        assert (Hin : In m (hsf c t)) by (apply (count_occ_In Nat.eq_dec); lia). specialize (Ho _ Hin). lia.
      - rewrite R in Ha. simpl in Ha. destruct (Nat.eqb_spec u t) as [->|N]; [discriminate|].
        apply In_cnt in Hin. rewrite J4 in Hin by auto. lia. }
    assert (L : (failing (threads c t) = true \/ now (threads c t) = Done) ->
       leave_block re c t (threads c t) = c -> finished (threads c t) \/
       exists m u n, locks c m = Some (u, n) /\ u <> t /\ forall x, In x (hsf c t) -> x < m).
    { intros F EL. unfold leave_block in EL.
      destruct (stack (threads c t)) as [|[[m|m|] k] st] eqn:Est.
      - left. split; auto.
      - exfalso. assert (HT : threads c t = put (threads c) t (threads c t) t) by (rewrite put_eq; auto).
        destruct (release re m t (locks c m)); apply (f_equal (fun c => threads c t)) in EL; simpl in EL; rewrite put_eq in EL;
          apply (f_equal stack) in EL; simpl in EL; rewrite Est in EL; apply (f_equal (@length _)) in EL; simpl in EL; lia.
      - destruct (acquire re m t (locks c m)) as [l|] eqn:Ea.
        + exfalso. apply (f_equal (fun c => threads c t)) in EL; simpl in EL; rewrite put_eq in EL;
          apply (f_equal stack) in EL; simpl in EL; rewrite Est in EL; apply (f_equal (@length _)) in EL; simpl in EL; lia.
        + right. eapply A; eauto. left. unfold hsf. rewrite Est. simpl. apply S.
      - exfalso. apply (f_equal (fun c => threads c t)) in EL; simpl in EL; rewrite put_eq in EL;
          apply (f_equal stack) in EL; simpl in EL; rewrite Est in EL; apply (f_equal (@length _)) in EL; simpl in EL; lia. }
    unfold turn in E. destruct (failing (threads c t)) eqn:Ef; auto.
    destruct (now (threads c t)) as [|a k| |b k|m b k|m b k] eqn:En; auto.
    - exfalso. apply (f_equal (fun c => length (log c))) in E. simpl in E. rewrite app_length in E. simpl in E. lia.
    - exfalso. apply (f_equal (fun c => threads c t)) in E. simpl in E. rewrite put_eq in E. apply (f_equal failing) in E. simpl in E. congruence.
    - exfalso. apply (f_equal (fun c => threads c t)) in E. simpl in E. rewrite put_eq in E. apply (f_equal (fun th => length (stack th))) in E. simpl in E. lia.
    - destruct (acquire re m t (locks c m)) as [l|] eqn:Ea.
      + exfalso. apply (f_equal (fun c => length (log c))) in E. simpl in E. rewrite app_length in E. simpl in E. lia.
      + right. eapply A; eauto. apply P.
    - exfalso. destruct (release re m t (locks c m)); apply (f_equal (fun c => length (log c))) in E; simpl in E; rewrite app_length in E; simpl in E; lia.
  Qed.

  Fixpoint lmax (l : list nat) : nat := match l with [] => 0 | x :: t => Nat.max x (lmax t) end.
  Lemma lmax_In x l : In x l -> x <= lmax l.
  Proof. induction l as [|y l IH]; simpl; [tauto|]. intros [->|H]; [lia|]. specialize (IH H). lia. Qed.

  (** the owner of some lock can move *)
  Lemma some_owner_moves c n : Inv re c -> (forall u, oth (threads c u)) ->
    (forall t, n <= t -> finished (threads c t)) ->
    forall d m u k, lmax (flat_map (hsf c) (seq 0 n)) - m <= d -> locks c m = Some (u, k) -> exists t, turn re c t <> c.
  Proof.
    intros I O F. 
    assert (Own : forall m u k, locks c m = Some (u, k) -> In m (hsf c u) /\ u < n).
    { intros m u k El. pose proof (proj1 (proj2 I) m) as Lm. unfold lock_ok in Lm. rewrite El in Lm.
      destruct Lm as (J1 & J2 & J3 & J4).
      assert (Hin : In m (hsf c u)) by (apply (count_occ_In Nat.eq_dec); lia). split; auto.
      destruct (Nat.lt_ge_cases u n) as [H|H]; auto. destruct (F _ H) as [Es _]. unfold hsf in Hin. rewrite Es in Hin. destruct Hin. }
    induction d as [|d IH]; intros m u k Hd El.
    - destruct (Own _ _ _ El) as [Hin Hu]. exists u. intros E.
      destruct (blocked_why u I (O u) E) as [[Es _]|(m' & u' & k' & El' & N & Hlt)].
      + unfold hsf in Hin. rewrite Es in Hin. destruct Hin.
      + specialize (Hlt _ Hin). destruct (Own _ _ _ El') as [Hin' Hu'].
        assert (m' <= lmax (flat_map (hsf c) (seq 0 n))).
        { apply lmax_In. apply in_flat_map. exists u'. split; auto. apply in_seq. lia. }
        lia.
    - destruct (Own _ _ _ El) as [Hin Hu].
      assert (D : turn re c u = c \/ turn re c u <> c).
      { destruct (turn_size c u) as [->|[H _]]; auto. right. intros E. rewrite E in H. lia. }
      destruct D as [E|E]; [|eauto].
      destruct (blocked_why u I (O u) E) as [[Es _]|(m' & u' & k' & El' & N & Hlt)].
      + unfold hsf in Hin. rewrite Es in Hin. destruct Hin.
      + specialize (Hlt _ Hin). apply (IH m' u' k'); auto. lia.
  Qed.

  Lemma progress_turn c n : Inv re c -> (forall u, oth (threads c u)) ->
    (forall t, n <= t -> finished (threads c t)) ->
    (forall t, turn re c t = c) -> forall t, finished (threads c t).
  Proof.
    intros I O F E t. destruct (blocked_why t I (O t) (E t)) as [H|(m & u & k & El & _)]; auto.
    destruct (some_owner_moves I O F _ (le_n _) El) as [x Hx]. exfalso. auto.
  Qed.

  Lemma finished_stays c t : finished (threads c t) -> turn re c t = c.
  Proof.
    intros [Es G]. unfold turn. destruct (failing (threads c t)) eqn:Ef.
    - unfold leave_block. rewrite Es. auto.
    - destruct G as [G|G]; [congruence|]. rewrite G. unfold leave_block. rewrite Es. auto.
  Qed.

  Lemma finished_run sched : forall c t, finished (threads c t) -> threads (run re c sched) t = threads c t.
  Proof.
    induction sched as [|u s IH]; intros c t F; simpl; auto.
    assert (E : threads (turn re c u) t = threads c t).
    { destruct (turn_size c u) as [->|[H1 H2]]; auto. destruct (Nat.eq_dec t u) as [->|N]; [|apply H2; auto].
      rewrite (finished_stays _ _ F). auto. }
    rewrite IH; [auto|]. rewrite E. auto.
  Qed.

  (** total work left *)
  Definition work (n : nat) (c : config) : nat := list_sum (map (fun t => tsize (threads c t)) (seq 0 n)).

  Lemma sum_change (f g : nat -> nat) t l : NoDup l -> In t l -> g t < f t -> (forall u, u <> t -> g u = f u) ->
    list_sum (map g l) < list_sum (map f l).
  Proof.
    induction l as [|x l IH]; simpl; [tauto|]. intros ND H L E. inversion ND; subst.
    destruct H as [->|H].
    - assert (map g l = map f l) as ->; [|lia]. apply map_ext_in. intros a Ha. apply E. intros ->. contradiction.
    - assert (x <> t) by (intros ->; contradiction). rewrite (E x) by auto. specialize (IH H3 H L E). lia.
  Qed.

  Lemma turn_work n c t : (forall u, n <= u -> finished (threads c u)) ->
    turn re c t = c \/ work n (turn re c t) < work n c.
  Proof.
    intros F. destruct (turn_size c t) as [E|[H1 H2]]; auto.
    destruct (Nat.lt_ge_cases t n) as [L|L].
    - right. unfold work. apply sum_change with (t := t).
      + apply seq_NoDup.
      + apply in_seq. lia.
      + auto.
      + intros u N. rewrite H2; auto.
    - left. apply finished_stays. auto.
  Qed.

  Lemma turn_finished n c t : (forall u, n <= u -> finished (threads c u)) -> forall u, n <= u -> finished (threads (turn re c t) u).
  Proof.
    intros F u Hu. pose proof (finished_run [t] c u (F _ Hu)) as H. simpl in H. rewrite H. auto.
  Qed.

  Lemma run_work n l : forall c, (forall u, n <= u -> finished (threads c u)) ->
    (run re c l = c /\ forall t, In t l -> turn re c t = c) \/ work n (run re c l) < work n c.
  Proof.
    induction l as [|t l IH]; intros c F; simpl; [left; split; [auto|tauto]|].
    destruct (@turn_work n c t F) as [E|H].
    - rewrite E. destruct (IH c F) as [[A B]|H]; auto. left. split; auto. intros u [<-|Hu]; auto.
    - right. destruct (IH (turn re c t) (turn_finished (n := n) c t F)) as [[A B]|H2]; [rewrite A; auto|]. eapply Nat.lt_trans; eauto.
  Qed.

  Lemma run_app c l1 l2 : run re c (l1 ++ l2) = run re (run re c l1) l2.
  Proof. apply fold_left_app. Qed.

  Lemma rr_finishes n : forall w c, work n c <= w -> Inv re c -> (forall u, oth (threads c u)) ->
    (forall t, n <= t -> finished (threads c t)) ->
    forall t, finished (threads (run re c (round_robin n (S w))) t).
  Proof.
    induction w as [|w IH]; intros c Hw I O F t.
    - simpl. rewrite app_nil_r. destruct (run_work (seq 0 n) c F) as [[A B]|H]; [|lia].
      rewrite A. apply (progress_turn I O F). intros u. destruct (Nat.lt_ge_cases u n) as [L|L].
      + apply B. apply in_seq. lia.
      + apply finished_stays. auto.
    - change (round_robin n (S (S w))) with (seq 0 n ++ round_robin n (S w)). rewrite run_app.
      destruct (oInv_run (seq 0 n) I O) as [I' O'].
      destruct (run_work (seq 0 n) c F) as [[A B]|H].
      + assert (All : forall u, finished (threads c u)).
        { apply (progress_turn I O F). intros u. destruct (Nat.lt_ge_cases u n) as [L|L].
          - apply B. apply in_seq. lia.
          - apply finished_stays. auto. }
        rewrite finished_run; rewrite A; auto.
      + apply IH; auto; [lia|]. intros u Hu. rewrite finished_run; auto.
  Qed.

  Lemma start_oth programs : (forall t, ordered re [] (programs t)) -> forall u, oth (threads (start programs) u).
  Proof. intros H u. split; simpl; auto. Qed.

  Lemma round_robin_ok programs n sched : (forall t, ordered re [] (programs t)) -> (forall t, n <= t -> programs t = Done) ->
    exists rounds, forall t, finished (threads (run re (start programs) (sched ++ round_robin n rounds)) t).
  Proof.
    intros H Hn. assert (P : forall t, proper re [] (programs t)) by (intros; apply ordered_proper; auto).
    destruct (oInv_run sched (start_Inv _ _ P) (start_oth _ H)) as [I O].
    exists (S (work n (run re (start programs) sched))). intros t. rewrite run_app. apply rr_finishes; auto.
    intros u Hu. rewrite finished_run; split; simpl; auto.
  Qed.

  Lemma progress programs n sched : (forall t, ordered re [] (programs t)) -> (forall t, n <= t -> programs t = Done) ->
    let c := run re (start programs) sched in
    (forall t, finished (threads c t)) \/ exists t, ~ waits re c t.
  Proof.
    intros H Hn c. assert (P : forall t, proper re [] (programs t)) by (intros; apply ordered_proper; auto).
    destruct (oInv_run sched (start_Inv _ _ P) (start_oth _ H)) as [I O]. fold c in I, O.
    assert (F : forall t, n <= t -> finished (threads c t)).
    { intros u Hu. unfold c. rewrite finished_run; split; simpl; auto. }
    destruct (run_work (seq 0 n) c F) as [[A B]|Hw].
    - left. apply (progress_turn I O F). intros u. destruct (Nat.lt_ge_cases u n) as [L|L].
      + apply B. apply in_seq. lia.
      + apply finished_stays. auto.
    - right. clear -Hw. revert Hw. generalize (seq 0 n) as l.
      assert (G : forall l, (exists t, ~ waits re c t) \/ run re c l = c).
      { induction l as [|t l IH]; simpl; auto. destruct IH as [IH|IH]; auto.
        destruct (turn_size c t) as [->|[H1 H2]]; auto. left. exists t. unfold waits. intros E. rewrite E in H1. lia. }
      intros l Hw. destruct (G l) as [?|E]; auto. rewrite E in Hw. lia.
  Qed.
End Liveness.


(** ** entering a Monitor twice *)
Section Deadlock.
  Variable re : nat -> bool.
  Variable m : nat.
  Hypothesis Plain : re m = false.
  Variable t : nat.
  Variables b k1 k2 : code.

  Fixpoint sav (st : list (leave * code)) : Prop :=
    match st with
    | [] => True
    | (Unlock x, k) :: st' | (Lock x, k) :: st' => x <> m /\ avoids m k /\ sav st'
    | (Catch, k) :: st' => avoids m k /\ sav st'
    end.
  Definition dead (c : config) : Prop :=
    (forall u, u <> t -> avoids m (now (threads c u)) /\ sav (stack (threads c u))) /\
    ((threads c t = start_thread (With m (With m b k1) k2) /\ locks c m = None) \/
     (threads c t = {| now := With m b k1; failing := false; stack := [(Unlock m, k2)] |} /\ locks c m = Some (t, 1))).

  Lemma dead_turn c u : dead c -> dead (turn re c u).
  Proof.
    intros [O T]. destruct (Nat.eq_dec u t) as [->|N].
    - destruct T as [[T L]|[T L]].
      + unfold turn. rewrite T. simpl. rewrite L. simpl. split.
        * intros u N. simpl. rewrite put_neq by auto. auto.
        * right. simpl. rewrite !put_eq. auto.
      + unfold turn. rewrite T. simpl. rewrite L. simpl. rewrite Plain. simpl. split; auto.
    - assert (Ok : forall th x l e, x <> m -> avoids m (now th) -> sav (stack th) -> dead (update c u th x l e)).
      { intros th x l e Nx A B. split.
        - intros v Nv. simpl. unfold put. destruct (Nat.eqb v u); auto.
        - simpl. rewrite !(@put_neq _ _ _ _ m) by auto. rewrite !(@put_neq _ _ _ _ t) by auto. auto. }
      assert (Ok2 : forall th, avoids m (now th) -> sav (stack th) -> dead (silent c u th)).
      { intros th A B. split.
        - intros v Nv. simpl. unfold put. destruct (Nat.eqb v u); auto.
        - simpl. rewrite !(@put_neq _ _ _ _ t) by auto. auto. }
      assert (Ok3 : forall th e, avoids m (now th) -> sav (stack th) -> dead (note c u th e)).
      { intros th e A B. exact (Ok2 th A B). }
      destruct (O u N) as [A B].
      assert (L : dead (leave_block re c u (threads c u))).
      { unfold leave_block. destruct (stack (threads c u)) as [|[[x|x|] k] st]; [split; auto| | |]; simpl in B.
        - destruct (release re x u (locks c x)); [apply Ok|apply Ok3]; simpl; tauto.
        - destruct (acquire re x u (locks c x)); [apply Ok; simpl; tauto|split; auto].
        - apply Ok2; simpl; tauto. }
      unfold turn. destruct (failing (threads c u)); auto.
      destruct (now (threads c u)) as [|a k| |b' k|x b' k|x b' k]; auto; simpl in A.
      + apply Ok2; simpl; tauto.
      + destruct (acquire re x u (locks c x)); [apply Ok; simpl; tauto|split; auto].
      + destruct (release re x u (locks c x)); [apply Ok|apply Ok3]; simpl; tauto.
  Qed.

  Lemma dead_run sched : forall c, dead c -> dead (run re c sched).
  Proof. induction sched as [|u s IH]; intros c D; simpl; auto. apply IH. apply dead_turn. auto. Qed.

  Lemma never_finishes programs sched : programs t = With m (With m b k1) k2 -> (forall u, u <> t -> avoids m (programs u)) ->
    ~ finished (threads (run re (start programs) sched) t).
  Proof.
    intros E A F. assert (D : dead (start programs)).
    { split; simpl; auto. left. rewrite E. auto. }
    apply (dead_run sched) in D. destruct D as [_ [[T _]|[T _]]]; rewrite T in F; destruct F as [F1 [F2|F2]]; discriminate.
  Qed.
End Deadlock.

(** ** giving up a Monitor *)
Lemma plain_count (re : nat -> bool) m l : re m = false -> forall o o', (forall u n, o = Some (u, n) -> n = 1) ->
  owner_from re m o l = Some o' -> forall u n, o' = Some (u, n) -> n = 1.
Proof.
  intros P. induction l as [|e l IH]; intros o o' Ho H u n E; simpl in H.
  - injection H as <-. eauto.
  - destruct (next_owner re m o e) as [o2|] eqn:En; [|discriminate]. revert u n E. apply (IH o2 o'); auto.
    clear IH H. intros u n E. subst o2. unfold next_owner in En.
    destruct e as [x a|x y|x y|x y|x y|x y]; try (injection En as En; eauto; fail);
      (destruct (Nat.eqb y m); [|injection En as En; eauto]); try discriminate;
      destruct o as [[v k]|]; try discriminate; try (injection En as ? ?; auto; fail).
    + rewrite P in En. destruct (Nat.eqb v x); discriminate.
    + rewrite (Ho _ _ eq_refl) in En. destruct (Nat.eqb v x); discriminate.
    + rewrite (Ho _ _ eq_refl) in En. destruct (Nat.eqb v x); discriminate.
    + rewrite P in En. destruct (Nat.eqb v x); discriminate.
Qed.
Lemma owner_prefix re m l1 l2 : forall o o', owner_from re m o (l1 ++ l2) = Some o' -> exists o2, owner_from re m o l1 = Some o2.
Proof.
  induction l1 as [|e l1 IH]; intros o o' H; simpl in *; eauto. destruct (next_owner re m o e); [eauto|discriminate].
Qed.
Lemma release_frees re programs sched m t l1 l2 : (forall t, proper re [] (programs t)) -> re m = false ->
  log (run re (start programs) sched) = l1 ++ GaveUp t m :: l2 -> owner re m (l1 ++ [GaveUp t m]) = Some None.
Proof.
  intros P R E. pose proof (exclusive re programs sched m P) as H. rewrite E in H.
  replace (l1 ++ GaveUp t m :: l2) with ((l1 ++ [GaveUp t m]) ++ l2) in H by (rewrite <- app_assoc; auto).
  destruct (owner_prefix _ _ _ _ _ H) as [o2 H2]. unfold owner. rewrite H2.
  destruct o2 as [[u n]|]; auto. exfalso.
  pose proof (plain_count re m (l1 ++ [GaveUp t m]) R (o := None) (fun u n => ltac:(discriminate)) H2 eq_refl) as N1. subst n.
  rewrite owner_app in H2. destruct (owner_from re m None l1) as [o1|] eqn:E1; [|discriminate].
  simpl in H2. rewrite Nat.eqb_refl in H2. destruct o1 as [[v k]|]; [|discriminate].
  pose proof (plain_count re m l1 R (o := None) (fun u n => ltac:(discriminate)) E1 eq_refl) as N2. subst k.
  destruct (Nat.eqb v t); discriminate.
Qed.

Lemma refused_fails (re : nat -> bool) (programs : nat -> code) (schedule : list nat) (t u m : nat) :
    let c := run re (start programs) schedule in
    let c' := run re (start programs) (schedule ++ [t]) in
    log c' = log c ++ [Refused u m] -> u = t /\ failing (threads c' t) = true /\ forall l, locks c' l = locks c l.
Proof.
  intros c c'. assert (E : c' = turn re c t) by (unfold c', run; rewrite fold_left_app; reflexivity). rewrite E. clear E c'. revert c. generalize (run re (start programs) schedule). intros c. cbv zeta.
  assert (NO : log c <> log c ++ [Refused u m]).
  { intros X. apply (f_equal (@length _)) in X. rewrite app_length in X. simpl in X. lia. }
  assert (D : forall e, log c ++ [e] = log c ++ [Refused u m] -> e = Refused u m).
  { intros e X. apply app_inv_head in X. congruence. }
  assert (LB : log (leave_block re c t (threads c t)) = log c ++ [Refused u m] ->
     u = t /\ failing (threads (leave_block re c t (threads c t)) t) = true /\ forall l, locks (leave_block re c t (threads c t)) l = locks c l).
  { unfold leave_block. destruct (stack (threads c t)) as [|[[n|n|] k] st]; [tauto| | |simpl; tauto].
    - destruct (release re n t (locks c n)); simpl; intros X; apply D in X; [discriminate|]. injection X as -> ->. unfold put. rewrite Nat.eqb_refl. auto.
    - destruct (acquire re n t (locks c n)); simpl; intros X; [apply D in X; discriminate|tauto]. }
  unfold turn. destruct (failing (threads c t)); auto. destruct (now (threads c t)); auto.
  - simpl. intros X. apply D in X. discriminate.
  - simpl. tauto.
  - simpl. tauto.
  - destruct (acquire re m0 t (locks c m0)); simpl; intros X; [apply D in X; discriminate|tauto].
  - destruct (release re m0 t (locks c m0)); simpl; intros X; apply D in X; [discriminate|]. injection X as -> ->. unfold put. rewrite Nat.eqb_refl. auto.
Qed.
