From Coq Require Import Lia.
From Verif Require Import Prelude StartThr_Model.
Set Implicit Arguments.

(** after call [a] set the flag before anybody else looked *)
Record led (a : nat) (s : sstate) : Prop := {
  l_flag : flag s = true;
  l_others : forall i, i <> a -> at_ s i = Before \/ at_ s i = Back Nothing;
  l_a : match at_ s a with
        | SetFlag | SawNotRunning => running s = false /\ launched s = 0
        | Launched => launched s = 1
        | Back Self => running s = true /\ launched s = 1
        | Back (Raised RuntimeError) => running s = false /\ launched s = 0
        | _ => False
        end }.
Lemma led_step a s e : led a s -> led a (sstep s e).
Proof.
  intros [F O A]. destruct e as [i can|]; cbn [sstep].
  - destruct (Nat.eq_dec i a) as [->|H].
    + destruct (at_ s a) as [| | | | |r] eqn:E; try contradiction.
      * destruct A as [A A']. rewrite A. constructor; cbn; auto.
        -- intros k Hk. destruct (Nat.eqb_spec k a); [congruence|auto].
        -- rewrite Nat.eqb_refl. auto.
      * destruct A as [A A']. destruct can; constructor; cbn; auto.
        -- intros k Hk. destruct (Nat.eqb_spec k a); [congruence|auto].
        -- rewrite Nat.eqb_refl. lia.
        -- intros k Hk. destruct (Nat.eqb_spec k a); [congruence|auto].
        -- rewrite Nat.eqb_refl. auto.
      * destruct (running s) eqn:R; [|constructor; auto; rewrite E; auto].
        constructor; cbn; auto.
        -- intros k Hk. destruct (Nat.eqb_spec k a); [congruence|auto].
        -- rewrite Nat.eqb_refl. auto.
      * constructor; auto. rewrite E. auto.
    + destruct (O i H) as [E|E]; rewrite E.
      * rewrite F. constructor; cbn; auto.
        -- intros k Hk. destruct (Nat.eqb_spec k i); auto.
        -- destruct (Nat.eqb_spec a i); [congruence|auto].
      * constructor; auto.
  - destruct (Nat.eqb_spec (launched s) 0) as [L|L]; [constructor; auto|].
    constructor; cbn; auto.
    destruct (at_ s a) as [| | | | |[| |[]]] eqn:E; try contradiction; try (destruct A; lia); auto.
Qed.
Lemma led_run a es : forall s, led a s -> led a (srun s es).
Proof. induction es as [|e es IH]; intros s H; [auto|]. cbn. apply IH, led_step, H. Qed.

(** in general *)
Record sane (s : sstate) : Prop := {
  n_run : running s = true -> 1 <= launched s;
  n_self : forall i, at_ s i = Back Self -> running s = true;
  n_la : forall i, at_ s i = Launched -> 1 <= launched s;
  n_none : forall i, at_ s i = Back Nothing -> flag s = true }.
Lemma sane_step s e : sane s -> sane (sstep s e).
Proof.
  intros [R S L N]. destruct e as [i can|]; cbn [sstep].
  - destruct (at_ s i) as [| | | | |r] eqn:E.
    + destruct (flag s) eqn:F; constructor; cbn; auto; intros k; destruct (Nat.eqb_spec k i); try discriminate; eauto.
    + constructor; cbn; auto; intros k; destruct (Nat.eqb_spec k i); try discriminate; eauto.
    + destruct (running s) eqn:Rn; constructor; cbn; auto; try congruence; intros k; destruct (Nat.eqb_spec k i); try discriminate; eauto.
    + destruct can; constructor; cbn; auto; try lia; intros k; destruct (Nat.eqb_spec k i); try discriminate; eauto; lia.
    + destruct (running s) eqn:Rn; constructor; cbn; auto; try congruence; try (intros k; destruct (Nat.eqb_spec k i); try discriminate; eauto).
    + constructor; auto.
  - destruct (Nat.eqb_spec (launched s) 0); constructor; cbn; auto. lia.
Qed.
Lemma sane_run es : forall s, sane s -> sane (srun s es).
Proof. induction es as [|e es IH]; intros s H; [auto|]. cbn. apply IH, sane_step, H. Qed.
Lemma sane_begin : sane sbegin.
Proof. constructor; cbn; intros; congruence. Qed.

(** ** bogus *)
Lemma waiting_started w polls : forall b, started (fst (waiting w polls b)) = started b.
Proof.
  induction polls as [|[e t] r IH]; intros b; [auto|]. cbn. destruct ((e <? w)%Z && negb (terminated b)); auto.
  rewrite IH. destruct t; auto.
Qed.
Lemma waiting_keeps w polls : forall b, terminated b = true -> terminated (fst (waiting w polls b)) = true.
Proof.
  induction polls as [|[e t] r IH]; intros b H; [auto|]. cbn. rewrite H. cbn. rewrite Bool.andb_false_r. auto.
Qed.
Lemma waiting_ends w polls : forall b b' r, waiting w polls b = (b', Some r) ->
  (r = Ok tt /\ terminated b' = true) \/
  (r = Err WouldWaitMore /\ terminated b' = false /\ exists e t, In (e, t) polls /\ (w <= e)%Z).
Proof.
  induction polls as [|[e t] p IH]; intros b b' r; [discriminate|]. cbn.
  destruct (terminated b) eqn:T.
  - rewrite Bool.andb_false_r. intros [= <- <-]. auto.
  - rewrite Bool.andb_true_r. destruct (Z.ltb_spec e w).
    + intros E. destruct (IH _ _ _ E) as [A|(A & B & e' & t' & I & Q)]; auto.
      right. split; auto. split; auto. exists e', t'. auto.
    + intros [= <- <-]. right. split; auto. split; auto. exists e, t. auto.
Qed.
Lemma waiting_quiet w polls : Forall (fun p => snd p = false) polls -> forall b, fst (waiting w polls b) = b.
Proof.
  induction 1 as [|[e t] r T F IH]; intros b; [auto|]. cbn in *. subst t. destruct ((e <? w)%Z && negb (terminated b)); auto.
Qed.
Lemma join_quiet w polls : Forall (fun p => snd p = false) polls -> forall b, fst (join w polls b) = b.
Proof.
  intros F b. unfold join. destruct (negb (terminated b) && negb (started b)); auto. destruct (terminated b); auto.
  destruct w; auto. apply waiting_quiet; auto.
Qed.
