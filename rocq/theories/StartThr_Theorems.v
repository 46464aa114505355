(** C117: threads that start once, and threads that only pretend *)
From Coq Require Import Lia.
From Verif Require Import Prelude StartThr_Model StartThr_Spec StartThr_Proofs.
Set Implicit Arguments.

(** Once a call of start() has noted that it starts the thread, before any other call looked, then in whatever order the
    steps of it and of any number of other calls follow: at most one thread is made; that call answers with the object, once
    the thread runs, unless no thread could be made; every other call does nothing and does not raise. *)
Theorem C117_partial : forall a can1 can2 es, let s := srun sbegin (Turn a can1 :: Turn a can2 :: es) in
  launched s <= 1 /\
  (forall i r, i <> a -> at_ s i = Back r -> r = Nothing) /\
  (forall r, at_ s a = Back r -> (r = Self /\ running s = true /\ launched s = 1) \/ (r = Raised RuntimeError /\ launched s = 0)) /\
  (Forall (fun e => match e with Turn _ can => can = true | Boot => True end) es -> forall r, at_ s a = Back r -> r = Self).
Proof.
  intros a can1 can2 es s.
  assert (L0 : led a (srun sbegin [Turn a can1; Turn a can2])).
  { cbn. rewrite Nat.eqb_refl. cbn. constructor; cbn; auto.
    - intros i H. destruct (Nat.eqb_spec i a); [congruence|auto].
    - rewrite Nat.eqb_refl. auto. }
  assert (L : led a s). { unfold s. change (Turn a can1 :: Turn a can2 :: es) with ([Turn a can1; Turn a can2] ++ es). unfold srun. rewrite fold_left_app. apply led_run. exact L0. }
  destruct L as [F O A].
  split; [|split; [|split]].
  - destruct (at_ s a) as [| | | | |[| |[]]]; try contradiction; try (destruct A; lia); lia.
  - intros i r H E. destruct (O i H) as [Q|Q]; congruence.
  - intros r E. rewrite E in A. destruct r as [| |[]]; try contradiction; tauto.
  - intros Can r E. assert (K : forall s0, led a s0 -> (forall e, at_ s0 a <> Back (Raised e)) -> forall e, at_ (srun s0 es) a <> Back (Raised e)).
    { clear - Can. induction Can as [|e es C Can IH]; intros s0 L N; [exact N|]. cbn. apply IH; [apply led_step; auto|].
      destruct L as [F O A]. destruct e as [i can|]; cbn [sstep].
      - destruct (Nat.eq_dec i a) as [->|H].
        + destruct (at_ s0 a) as [| | | | |r] eqn:E; try contradiction.
          * destruct A as [A _]. rewrite A. cbn. rewrite Nat.eqb_refl. discriminate.
          * rewrite C. cbn. rewrite Nat.eqb_refl. discriminate.
          * destruct (running s0); cbn; [rewrite Nat.eqb_refl; discriminate|rewrite E; discriminate].
          * rewrite E. exact N.
        + destruct (O i H) as [E|E]; rewrite E; [|exact N]. rewrite F. cbn. destruct (Nat.eqb_spec a i); [congruence|exact N].
      - destruct (Nat.eqb (launched s0) 0); exact N. }
    specialize (K _ L0). change (srun (srun sbegin [Turn a can1; Turn a can2]) es) with s in K.
    rewrite E in A. destruct r as [| |x]; auto; try contradiction.
    exfalso. apply (K) with x; auto. intros e. cbn. rewrite Nat.eqb_refl. cbn. rewrite Nat.eqb_refl. discriminate.
Qed.
Print Assumptions C117_partial.
(** In any order of the steps of any number of calls: a call answers with the object only when the thread runs, and one that
    does nothing comes after another has begun. *)
Theorem C117_runs : forall es, let s := srun sbegin es in
  (forall i, at_ s i = Back Self -> running s = true /\ 1 <= launched s) /\ (forall i, at_ s i = Back Nothing -> flag s = true).
Proof.
  intros es s. destruct (sane_run es sane_begin) as [R S L N]. fold s in R, S, L, N.
  split; [|exact N]. intros i E. specialize (S i E). auto.
Qed.
Print Assumptions C117_runs.

Definition C117_full_statement : Prop :=
  forall es, let s := srun sbegin es in launched s <= 1 /\ (forall i r, at_ s i = Back r -> r = Self).
(** "returns self" (a second call returns None) *)
Theorem C117_full_statement_refuted : ~ C117_full_statement.
Proof.
  intros H. destruct (H [Turn 0 true; Turn 0 true; Turn 1 true]) as [_ Q]. specialize (Q 1 Nothing eq_refl). discriminate.
Qed.
Print Assumptions C117_full_statement_refuted.
(** two calls at the same time may run the thread twice, or one of them raises RuntimeError *)
Theorem C117_race_refuted :
  (exists es, launched (srun sbegin es) = 2 /\ at_ (srun sbegin es) 0 = Back Self /\ at_ (srun sbegin es) 1 = Back Self) /\
  (exists es, at_ (srun sbegin es) 0 = Back Self /\ at_ (srun sbegin es) 1 = Back (Raised RuntimeError)).
Proof.
  split.
  - exists [Turn 0 true; Turn 1 true; Turn 0 true; Turn 1 true; Turn 0 true; Turn 1 true; Turn 0 true; Turn 1 true; Boot; Turn 0 true; Turn 1 true]. repeat split.
  - exists [Turn 0 true; Turn 1 true; Turn 0 true; Turn 0 true; Turn 0 true; Boot; Turn 0 true; Turn 1 true; Turn 1 true]. repeat split.
Qed.
Print Assumptions C117_race_refuted.
(** after a start that failed no call ever starts the thread *)
Theorem C117_failed_refuted : forall i, i <> 0 -> forall es, let s := srun (srun sbegin [Turn 0 true; Turn 0 true; Turn 0 true; Turn 0 false]) es in
  at_ s 0 = Back (Raised RuntimeError) /\ launched s = 0 /\ (forall r, at_ s i = Back r -> r = Nothing).
Proof.
  intros i Hi es s.
  assert (L : led 0 (srun sbegin [Turn 0 true; Turn 0 true; Turn 0 true; Turn 0 false])).
  { constructor; cbn; auto. intros k H. destruct k; [congruence|auto]. }
  assert (E0 : at_ (srun sbegin [Turn 0 true; Turn 0 true; Turn 0 true; Turn 0 false]) 0 = Back (Raised RuntimeError)) by reflexivity.
  assert (K : forall s0, led 0 s0 -> at_ s0 0 = Back (Raised RuntimeError) -> at_ (srun s0 es) 0 = Back (Raised RuntimeError)).
  { clear. induction es as [|e es IH]; intros s0 L E; [auto|]. cbn. apply IH; [apply led_step; auto|].
    destruct L as [F O A]. destruct e as [k can|]; cbn [sstep].
    - destruct (Nat.eq_dec k 0) as [->|H]; [now rewrite E|]. destruct (O k H) as [Q|Q]; rewrite Q; auto. rewrite F. cbn. destruct k; [congruence|auto].
    - destruct (Nat.eqb (launched s0) 0); auto. }
  specialize (K _ L E0). fold s in K. split; auto. pose proof (led_run es L) as [F O A]. fold s in F, O, A. rewrite K in A. destruct A as [_ A].
  split; auto. intros r E. destruct (O i Hi) as [Q|Q]; congruence.
Qed.
Print Assumptions C117_failed_refuted.

(** The bogus thread is alive exactly if it was started, and not terminated; what start() answers. *)
Theorem C117_bogus : forall ops, Forall quiet ops ->
  (is_alive (brun ops) = true <-> was_started ops /\ ~ In Terminate ops) /\
  (snd (start (brun ops)) = Ok tt <-> ~ In Start ops /\ ~ In Terminate ops) /\
  (snd (start (brun ops)) = Ok tt \/ snd (start (brun ops)) = Err RuntimeError).
Proof.
  intros ops Q.
  assert (K : (terminated (brun ops) = true <-> In Terminate ops) /\ (started (brun ops) = true <-> was_started ops)).
  { revert Q. induction ops as [|o ops IH] using rev_ind; intros Q.
    - cbn. split; (split; [discriminate|]); [easy|]. intros (l1 & l2 & E & _). destruct l1; discriminate.
    - apply Forall_app in Q. destruct Q as [Q Qo]. apply Forall_inv in Qo. specialize (IH Q). destruct IH as [IT IS].
      unfold brun in *. rewrite fold_left_app. cbn [fold_left]. set (b := fold_left bstep ops bnew) in *.
      assert (WS : was_started ops -> forall x, was_started (ops ++ [x])).
      { intros (l1 & l2 & -> & N) x. exists l1, (l2 ++ [x]). split; auto. rewrite <- app_assoc. reflexivity. }
      assert (WS' : forall x, was_started (ops ++ [x]) -> was_started ops \/ (x = Start /\ ~ In Terminate ops)).
      { intros x (l1 & l2 & E & N). destruct l2 as [|y l2 _] using rev_ind.
        - apply app_inj_tail in E. destruct E as [-> ->]. auto.
        - left. rewrite app_comm_cons, app_assoc in E. apply app_inj_tail in E. destruct E as [-> ->]. exists l1, l2. auto. }
      destruct o as [| |w p]; cbn [bstep].
      + unfold start. destruct (terminated b) eqn:T; [|destruct (started b) eqn:S]; cbn [fst terminated started];
          rewrite ?T, ?S; rewrite ?T in IT; rewrite ?S in IS.
        * split.
          -- rewrite IT, in_app_iff. cbn. split; [auto|]. intros [I|[I|[]]]; auto; discriminate.
          -- rewrite IS. split; auto. intros W. destruct (WS' _ W) as [|[_ N]]; auto. exfalso. apply N. apply IT. auto.
        * split.
          -- rewrite IT, in_app_iff. cbn. split; [auto|]. intros [I|[I|[]]]; auto; discriminate.
          -- rewrite IS. split; auto. intros _. apply IS. auto.
        * split.
          -- rewrite IT, in_app_iff. cbn. split; [auto|]. intros [I|[I|[]]]; auto; discriminate.
          -- split; auto. intros _. exists ops, []. split; auto. intros I. apply IT in I. congruence.
      + cbn. split.
        * split; auto. intros _. apply in_app_iff. right. left. auto.
        * rewrite IS. split; auto. intros W. destruct (WS' _ W) as [|[X _]]; auto. discriminate.
      + cbn in Qo. rewrite (join_quiet w Qo). split.
        * rewrite IT, in_app_iff. cbn. split; auto. intros [I|[I|[]]]; auto. discriminate.
        * rewrite IS. split; auto. intros W. destruct (WS' _ W) as [|[X _]]; auto. discriminate. }
  destruct K as [KT KS]. split; [|split].
  - unfold is_alive. rewrite Bool.andb_true_iff, Bool.negb_true_iff, KS, <- KT. destruct (terminated (brun ops)); intuition congruence.
  - unfold start. destruct (terminated (brun ops)) eqn:T; [|destruct (started (brun ops)) eqn:S].
    + cbn. split; [discriminate|]. intros [_ N]. exfalso. apply N, KT. auto.
    + cbn. split; [discriminate|]. intros [N _]. exfalso. apply N. destruct (proj1 KS eq_refl) as (l1 & l2 & -> & _). apply in_app_iff. right. left. auto.
    + cbn. split; auto. intros _. split.
      * intros I. apply in_split in I. destruct I as (l1 & l2 & E). 
        enough (false = true) by discriminate. apply KS. exists l1, l2. split; auto. intros J. enough (false = true) by discriminate. apply KT. rewrite E. apply in_app_iff. auto.
      * intros I. enough (false = true) by discriminate. apply KT. auto.
  - unfold start. destruct (terminated (brun ops)); [|destruct (started (brun ops))]; cbn; auto.
Qed.
Print Assumptions C117_bogus.
(** join() with a timeout returns only when it is terminated, and gives up only after that time; it raises RuntimeError exactly
    if it was neither started nor terminated. *)
Theorem C117_join_partial : forall w polls b b' r, join (Some w) polls b = (b', Some r) ->
  (r = Ok tt -> terminated b' = true) /\
  (r = Err WouldWaitMore -> is_alive b' = true /\ exists e t, In (e, t) polls /\ (w <= e)%Z) /\
  (r = Err RuntimeError <-> started b = false /\ terminated b = false) /\
  (r = Ok tt \/ r = Err WouldWaitMore \/ r = Err RuntimeError).
Proof.
  intros w polls b b' r. unfold join. destruct (terminated b) eqn:T; cbn [negb andb].
  - intros [= <- <-]. rewrite T. repeat split; auto; try discriminate. intros [_ X]; discriminate.
  - destruct (started b) eqn:S; cbn [negb andb].
    + intros E. pose proof (waiting_started w polls b) as WS. rewrite E in WS. cbn in WS.
      destruct (waiting_ends _ _ _ E) as [[-> A]|(-> & A & B)].
      * repeat split; auto; try discriminate. intros [X _]; discriminate.
      * unfold is_alive. rewrite A, WS, S. repeat split; auto; try discriminate. intros [X _]; discriminate.
    + intros [= <- <-]. repeat split; auto; try discriminate.
Qed.
Print Assumptions C117_join_partial.
(** "sets running to False if the thread was terminated": [started] stays; and join() without a timeout, the default, of a thread that
    is alive raises TypeError. *)
Theorem C117_join_refuted :
  (forall w polls b, started b = true -> started (fst (join w polls b)) = true) /\
  (forall polls b, is_alive b = true -> join None polls b = (b, Some (Err TypeError))).
Proof.
  split.
  - intros w polls b S. unfold join. rewrite S, Bool.andb_false_r. destruct (terminated b); auto. destruct w; auto. now rewrite waiting_started.
  - intros polls b A. unfold is_alive in A. apply Bool.andb_true_iff in A. destruct A as [T S]. apply Bool.negb_true_iff in T. unfold join. rewrite T, S. reflexivity.
Qed.
Print Assumptions C117_join_refuted.

(** cases *)
Example C117_case_calls : let s := srun sbegin [Turn 3 true; Turn 3 true; Turn 8 true; Turn 3 true; Turn 3 true; Boot; Turn 3 true; Turn 9 true] in
  at_ s 3 = Back Self /\ at_ s 8 = Back Nothing /\ at_ s 9 = Back Nothing /\ launched s = 1.
Proof. repeat split. Qed.
Example C117_case_bogus : Forall quiet [Start; Join (Some 2%Z) [(0%Z, false); (1%Z, false); (2%Z, false)]] /\
  is_alive (brun [Start; Join (Some 2%Z) [(0%Z, false); (1%Z, false); (2%Z, false)]]) = true.
Proof. repeat constructor. Qed.
Example C117_case_join : join (Some 5%Z) [(0%Z, false); (1%Z, true); (2%Z, false)] {| started := true; terminated := false |} = ({| started := true; terminated := true |}, Some (Ok tt)) /\
  join (Some 2%Z) [(0%Z, false); (1%Z, false); (2%Z, false)] {| started := true; terminated := false |} = ({| started := true; terminated := false |}, Some (Err WouldWaitMore)).
Proof. split; reflexivity. Qed.
