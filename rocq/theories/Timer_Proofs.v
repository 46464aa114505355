(** Proofs about Timer. *)
From Coq Require Import Lia.
From Verif Require Import Prelude PreludeFacts MoreFacts Order_Spec Heapq_Model Heapq_Proofs HeapqC_Model HeapqC_Proofs Timer_Model Timer_Spec.
Local Open Scope Z_scope.

Section Timers.
  Variables (interval : nat -> Z) (second : Z).
  Notation exec := (exec interval second).
  Notation step := (step interval second).

  Lemma exec_app : forall s a b, exec s (a ++ b) = exec (exec s a) b.
  Proof. intros. unfold Timer_Model.exec. apply fold_left_app. Qed.
  Lemma exec_snoc : forall s es e, exec s (es ++ [e]) = step (exec s es) e.
  Proof. intros. apply exec_app. Qed.

  (** * Every entry has been started; nothing is run twice *)
  Definition held (s : state) : list entry := match bg s with Holding _ ts t => [(ts, t)] | _ => [] end.
  Definition entry_of (n : note) : list entry :=
    match n with Started a t | StartRaised a t _ => [(a + interval t, t)] | _ => [] end.
  Definition done_of (n : note) : list entry := match n with Ran ts _ t | Skipped ts _ t => [(ts, t)] | _ => [] end.
  Definition all_started (l : list note) : list entry := flat_map entry_of l.
  Definition all_done (l : list note) : list entry := flat_map done_of l.
  Definition accounted (s : state) : Prop := exists lost, Permutation (all_started (log s)) (data s ++ held s ++ all_done (log s) ++ lost).
  Lemma all_started_snoc : forall l n, all_started (l ++ [n]) = all_started l ++ entry_of n.
  Proof. intros. unfold all_started. rewrite flat_map_app. simpl. rewrite app_nil_r. auto. Qed.
  Lemma all_done_snoc : forall l n, all_done (l ++ [n]) = all_done l ++ done_of n.
  Proof. intros. unfold all_done. rewrite flat_map_app. simpl. rewrite app_nil_r. auto. Qed.
  Lemma accounted_step : forall s e, accounted s -> accounted (step s e).
  Proof.
    intros s e (lost & P). destruct e as [d|t|t|]; simpl.
    - exists lost. exact P.
    - exists lost. unfold start. pose proof (cheappush_perm entry_lt (data s) (now s + interval t, t)) as C.
      destruct (cheappush entry_lt (data s) (now s + interval t, t)) as (d & [e|]); simpl in *; unfold held; simpl;
        rewrite all_started_snoc, all_done_snoc, app_nil_r; simpl; rewrite C, P; rewrite <- Permutation_cons_append; reflexivity.
    - exists lost. exact P.
    - unfold turn. destruct (bg s) as [|u|less|less ts t|] eqn:B; unfold accounted, held in *; rewrite B in P; simpl in P.
      + exists lost. exact P.
      + exists lost. destruct (now s <? u); simpl; rewrite ?B; exact P.
      + destruct (data s) as [|(ts & t) r] eqn:D; [exists lost; simpl; rewrite D; exact P|].
        destruct (less <=? ts); [exists lost; simpl; rewrite D; exact P|]. pose proof (cheappop_perm entry_lt (data s)) as C. rewrite D in C.
        destruct (cheappop entry_lt (@cons entry (ts, t) r)) as (d & [(ts' & t')|e]) eqn:E.
        * exists lost. simpl. etransitivity; [exact P|]. etransitivity; [apply Permutation_app_tail; exact C|]. simpl. apply Permutation_middle.
        * destruct C as [(C & _)|(x & _ & C)]; [discriminate|]. exists (x :: lost). simpl.
          rewrite all_started_snoc, all_done_snoc, !app_nil_r. simpl. etransitivity; [exact P|].
          etransitivity; [apply Permutation_app_tail; exact C|]. simpl. rewrite (app_assoc d (all_done (log s)) (x :: lost)), (app_assoc d (all_done (log s)) lost). apply Permutation_middle.
      + exists lost. destruct (memb Nat.eqb t (cancelled s)); simpl; rewrite all_started_snoc, all_done_snoc, app_nil_r; simpl;
          rewrite P; apply Permutation_app_head; rewrite <- !app_assoc; simpl; apply Permutation_middle.
      + exists lost. rewrite B. exact P.
  Qed.
  Lemma accounted_exec : forall clock es, accounted (exec (begin clock) es).
  Proof.
    intros clock es. induction es as [|e es IH] using rev_ind; [exists []; reflexivity|]. rewrite exec_snoc. apply accounted_step; auto.
  Qed.
  Lemma count_started : forall t l, length (filter (fun e => (snd e =? t)%nat) (all_started l)) = count (is_start t) l.
  Proof.
    intros t l. unfold all_started, count. induction l as [|n l IH]; simpl; auto. rewrite filter_app, app_length, IH.
    destruct n as [a t'|a t' e|a b t'|a b t'|e]; simpl; rewrite ?(Nat.eqb_sym t t'); auto; destruct (t' =? t)%nat; simpl; auto.
  Qed.
  Lemma count_done : forall t l, (count (is_run t) l <= length (filter (fun e => (snd e =? t)%nat) (all_done l)))%nat.
  Proof.
    intros t l. unfold all_done, count. induction l as [|n l IH]; simpl; auto. rewrite filter_app, app_length.
    destruct n as [a t'|a t' e|a b t'|a b t'|e]; simpl; rewrite ?(Nat.eqb_sym t t'); auto; destruct (t' =? t)%nat; simpl; lia.
  Qed.
  Lemma filter_perm : forall A (P : A -> bool) l l', Permutation l l' -> Permutation (filter P l) (filter P l').
  Proof. intros A P l l' H. induction H; simpl; auto; try (destruct (P x)); try (destruct (P y)); auto; try constructor; auto. etransitivity; eauto. Qed.
  Lemma once : forall clock es t, (count (is_run t) (log (exec (begin clock) es)) <= count (is_start t) (log (exec (begin clock) es)))%nat.
  Proof.
    intros clock es t. destruct (accounted_exec clock es) as (lost & P). rewrite <- count_started. etransitivity; [apply count_done|].
    apply (filter_perm _ (fun e => (snd e =? t)%nat)) in P. rewrite (Permutation_length P), !filter_app, !app_length. lia.
  Qed.
  Lemma started_In : forall l ts t, In (ts, t) (all_started l) <-> exists a, was_started l a t /\ a + interval t = ts.
  Proof.
    intros l ts t. unfold all_started, was_started. rewrite in_flat_map. split.
    - intros (n & I & E). destruct n; simpl in E; try contradiction; destruct E as [E|[]]; inversion E; subst; eauto 6.
    - intros (a & [I|(e & I)] & <-); [exists (Started a t)|exists (StartRaised a t e)]; simpl; auto.
  Qed.

  (** * Not early *)
  Definition timely (s : state) : Prop :=
    (forall ts a t, In (Ran ts a t) (log s) -> ts < a /\ In (ts, t) (all_started (log s))) /\
    match bg s with Popping less => less <= now s | Holding less ts t => less <= now s /\ ts < less | _ => True end.
  Lemma held_started : forall s, accounted s -> forall less ts t, bg s = Holding less ts t -> In (ts, t) (all_started (log s)).
  Proof. intros s (lost & P) less ts t B. apply (Permutation_in _ (Permutation_sym P)). unfold held. rewrite B. rewrite !in_app_iff. simpl. auto. Qed.
  Lemma keeps_log : forall s s', (exists l, log s' = log s ++ l /\ (forall ts a t, ~ In (Ran ts a t) l)) ->
    (forall ts a t, In (Ran ts a t) (log s) -> ts < a /\ In (ts, t) (all_started (log s))) ->
    (forall ts a t, In (Ran ts a t) (log s') -> ts < a /\ In (ts, t) (all_started (log s'))).
  Proof.
    intros s s' (l & -> & N) H ts a t I. apply in_app_iff in I. destruct I as [I|I]; [|exfalso; eapply N; eauto]. destruct (H _ _ _ I). split; auto.
    unfold all_started in *. rewrite flat_map_app, in_app_iff. auto.
  Qed.
  Lemma pop_head : forall x r, match cheappop entry_lt (x :: r) with (_, Ok y) => y = x | _ => True end.
  Proof.
    intros x r. unfold cheappop. destruct (rev (x :: r)) as [|z q] eqn:R; auto. apply (f_equal (@rev entry)) in R. rewrite rev_involutive in R. simpl in R.
    destruct (rev q) as [|y p] eqn:E; [simpl in R; inversion R; auto|]. simpl in R. inversion R; subst y.
    destruct (csiftup_loop _ _ _ _) as (h & [p0|e]); auto. destruct (csiftdown _ _ _ _ _) as (h' & [e|]); auto.
  Qed.
  Lemma timely_step : forall s e, accounted s -> timely s -> timely (step s e).
  Proof.
    intros s e Ac (R & B). assert (No : exists l, log s = log s ++ l /\ (forall ts a t, ~ In (Ran ts a t) l)) by (exists []; rewrite app_nil_r; auto).
    destruct e as [d|t|t|]; simpl.
    - split; auto. simpl. destruct (bg s); auto; try lia.
    - unfold start. destruct (cheappush _ _ _) as (d & [e|]); (split; [eapply keeps_log; [|exact R]; simpl; eexists; split; [reflexivity|]; intros ts a t0 [I|[]]; discriminate|exact B]).
    - split; auto.
    - unfold turn. destruct (bg s) as [|u|less|less ts t|] eqn:Bg.
      + split; simpl; auto.
      + destruct (now s <? u); split; simpl; rewrite ?Bg; auto; lia.
      + destruct (data s) as [|(ts & t) r] eqn:D; [split; simpl; auto|]. destruct (Z.leb_spec less ts); [split; simpl; auto|].
        pose proof (pop_head (ts, t) r) as H0. destruct (cheappop entry_lt (@cons entry (ts, t) r)) as (d & [(ts' & t')|e]) eqn:E.
        * inversion H0; subst. split; simpl; auto.
        * split; [|simpl; auto]. eapply keeps_log; [|exact R]; simpl; eexists; split; [reflexivity|]; intros ts0 a t0 [I|[]]; discriminate.
      + destruct (memb Nat.eqb t (cancelled s)).
        * split; [|simpl; tauto]. eapply keeps_log; [|exact R]; simpl; eexists; split; [reflexivity|]; intros ts0 a t0 [I|[]]; discriminate.
        * split; simpl; [|tauto]. intros ts0 a t0 I. rewrite all_started_snoc, app_nil_r. apply in_app_iff in I. destruct I as [I|[I|[]]]; auto.
          inversion I; subst. split; [lia|]. eapply held_started; eauto.
      + split; rewrite ?Bg; auto.
  Qed.
  Lemma timely_exec : forall clock es, timely (exec (begin clock) es).
  Proof.
    intros clock es. induction es as [|e es IH] using rev_ind; [split; [intros ts a t []|simpl; auto]|]. rewrite exec_snoc. apply timely_step; auto using accounted_exec.
  Qed.
  Lemma not_early : forall clock es ts a t, In (Ran ts a t) (log (exec (begin clock) es)) ->
    exists b, was_started (log (exec (begin clock) es)) b t /\ b + interval t < a.
  Proof.
    intros clock es ts a t I. destruct (timely_exec clock es) as (R & _). destruct (R _ _ _ I) as (L & S). apply started_In in S. destruct S as (b & S & E).
    exists b. split; auto. lia.
  Qed.

  (** * Cancelled *)
  Lemma cancelled_grows : forall s e t, In t (cancelled s) -> In t (cancelled (step s e)).
  Proof.
    intros s e t I. destruct e as [d|u|u|]; simpl; auto.
    - unfold start. destruct (cheappush _ _ _) as (d & [e|]); auto.
    - unfold turn. destruct (bg s) as [|w|less|less ts t0|]; auto.
      + destruct (now s <? w); auto.
      + destruct (data s) as [|(ts & t0) r]; auto. destruct (less <=? ts); auto. destruct (cheappop _ _) as (d & [(ts' & t')|e]); auto.
      + destruct (memb Nat.eqb t0 (cancelled s)); auto.
  Qed.
  Lemma cancelled_step : forall s e t, In t (cancelled s) -> count (is_run t) (log (step s e)) = count (is_run t) (log s).
  Proof.
    intros s e t I. assert (W : forall s' n, is_run t n = false -> log s' = log s ++ [n] -> count (is_run t) (log s') = count (is_run t) (log s)).
    { intros s' n N ->. unfold count. rewrite filter_app. simpl. rewrite N, app_nil_r. auto. }
    destruct e as [d|u|u|]; simpl; auto.
    - unfold start. destruct (cheappush _ _ _) as (d & [e|]); (eapply W; [|reflexivity]); auto.
    - unfold turn. destruct (bg s) as [|w|less|less ts t0|]; auto.
      + destruct (now s <? w); auto.
      + destruct (data s) as [|(ts & t0) r]; auto. destruct (less <=? ts); auto. destruct (cheappop _ _) as (d & [(ts' & t')|e]); auto. eapply W; [|reflexivity]. auto.
      + destruct (memb Nat.eqb t0 (cancelled s)) eqn:M; [eapply W; [|reflexivity]; auto|]. eapply W; [|reflexivity]. simpl.
        destruct (Nat.eqb_spec t t0); auto. subst. apply (memb_In nateqb_ok) in I. congruence.
  Qed.
  Lemma cancelled_never : forall es s t, In t (cancelled s) -> count (is_run t) (log (exec s es)) = count (is_run t) (log s).
  Proof.
    intros es. induction es as [|e es IH]; intros s t I; auto. change (exec s (e :: es)) with (exec (step s e) es).
    rewrite IH by (apply cancelled_grows; auto). apply cancelled_step; auto.
  Qed.

  (** * Without ties *)
  Definition ltT (a b : entry) : bool := fst a <? fst b.
  Lemma ltT_ord : total_preorder ltT.
  Proof. unfold ltT. split; intros; rewrite ?Z.ltb_lt, ?Z.ltb_ge in *; lia. Qed.
  Definition sound (s : state) : Prop :=
    heapFrom ltT 0 (data s) /\ bg s <> Dead /\ (forall a t e, ~ In (StartRaised a t e) (log s)) /\ forall e, ~ In (Died e) (log s).
  Lemma ties_prefix : forall l l', no_ties interval (l ++ l') -> no_ties interval l.
  Proof.
    intros l l' H a b t u A B. apply H; unfold was_started in *; [destruct A as [A|(e & A)]|destruct B as [B|(e & B)]]; rewrite ?in_app_iff; auto; right; exists e; rewrite in_app_iff; auto.
  Qed.
  Lemma log_grows : forall s e, exists l, log (step s e) = log s ++ l.
  Proof.
    intros s e. assert (N : exists l, log s = log s ++ l) by (exists []; rewrite app_nil_r; auto). destruct e as [d|u|u|]; simpl; auto.
    - unfold start. destruct (cheappush _ _ _) as (d & [e|]); simpl; eauto.
    - unfold turn. destruct (bg s) as [|w|less|less ts t0|]; auto.
      + destruct (now s <? w); auto.
      + destruct (data s) as [|(ts & t0) r]; auto. destruct (less <=? ts); auto. destruct (cheappop _ _) as (d & [(ts' & t')|e]); simpl; eauto.
      + destruct (memb Nat.eqb t0 (cancelled s)); simpl; eauto.
  Qed.
  (** entries started, none of them a tie of another *)
  Definition Qs (l : list note) (e : entry) : Prop := In e (all_started l).
  Lemma entry_agree : forall l, no_ties interval l -> forall a b, Qs l a -> Qs l b -> entry_lt a b = Ok (ltT a b).
  Proof.
    intros l N (x & t) (y & u) A B. apply started_In in A, B. destruct A as (a & A & <-), B as (b & B & <-). unfold entry_lt, ltT. simpl.
    destruct (Z.eqb_spec (a + interval t) (b + interval u)) as [E|E]; auto. pose proof (N _ _ _ _ A B E). subst u.
    rewrite Nat.eqb_refl, E, Z.ltb_irrefl. auto.
  Qed.
  Lemma data_started : forall s, accounted s -> Forall (Qs (log s)) (data s).
  Proof. intros s (lost & P). apply Forall_forall. intros e I. apply (Permutation_in _ (Permutation_sym P)). rewrite in_app_iff. auto. Qed.
  Lemma sound_step : forall s e, accounted s -> no_ties interval (log (step s e)) -> sound s -> sound (step s e).
  Proof.
    intros s e Ac T (H & D & N1 & N2). destruct e as [d|t|t|].
    - repeat split; auto.
    - assert (Q : Forall (Qs (log (step s (Start t)))) ((now s + interval t, t) :: data s)).
      { simpl. unfold start. destruct (cheappush _ _ _) as (d & [e|]); simpl; (constructor; [unfold Qs; rewrite all_started_snoc, in_app_iff; simpl; auto|]);
          eapply Forall_impl; [|apply data_started; auto| |apply data_started; auto]; intros e0 E0; unfold Qs in *; rewrite all_started_snoc, in_app_iff; auto. }
      pose proof (cheappush_agrees entry_lt ltT _ (entry_agree _ T) _ _ Q) as E. simpl. unfold start. rewrite E.
      destruct (heappush_spec ltT_ord (now s + interval t, t) H) as (_ & H'). repeat split; simpl; auto; intros; rewrite in_app_iff; intros [I|[I|[]]]; try discriminate; firstorder.
    - repeat split; auto.
    - simpl. unfold turn. destruct (bg s) as [|w|less|less ts t0|] eqn:B; try (repeat split; simpl; auto; congruence).
      + destruct (now s <? w); repeat split; simpl; auto; congruence.
      + destruct (data s) as [|(ts & t0) r] eqn:Da; [repeat split; simpl; rewrite ?Da; auto; discriminate|].
        destruct (less <=? ts); [repeat split; simpl; rewrite ?Da; auto; discriminate|].
        assert (T' : no_ties interval (log s)) by (destruct (log_grows s Turn) as (l & L); rewrite L in T; eapply ties_prefix; eauto).
        assert (Q := data_started _ Ac). pose proof (cheappop_agrees entry_lt ltT _ (entry_agree _ T') _ Q) as E. rewrite Da in E. rewrite E.
        destruct (heappop ltT (@cons entry (ts, t0) r)) as [((ts' & t') & d)|] eqn:P.
        * destruct (heappop_spec ltT_ord H P) as (_ & H' & _). repeat split; simpl; auto. discriminate.
        * exfalso. unfold heappop in P. destruct (rev (@cons entry (ts, t0) r)) as [|z q] eqn:R; [simpl in R; destruct (rev r); discriminate|]. destruct (rev q); discriminate.
      + destruct (memb Nat.eqb t0 (cancelled s)); repeat split; simpl; auto; try discriminate; intros; rewrite in_app_iff; intros [I|[I|[]]]; try discriminate; firstorder.
  Qed.
  Lemma exec_log : forall es s, exists l, log (exec s es) = log s ++ l.
  Proof.
    induction es as [|e es IH]; intros s; [exists []; rewrite app_nil_r; auto|]. change (exec s (e :: es)) with (exec (step s e) es).
    destruct (IH (step s e)) as (l & ->), (log_grows s e) as (l' & ->). exists (l' ++ l). rewrite app_assoc. auto.
  Qed.
  Lemma sound_exec : forall clock es, no_ties interval (log (exec (begin clock) es)) -> sound (exec (begin clock) es).
  Proof.
    intros clock es. induction es as [|e es IH] using rev_ind; intros T.
    - repeat split; simpl; auto; try discriminate. intros i Hi Hp a b Ha Hb. destruct i; discriminate.
    - rewrite exec_snoc in *. apply sound_step; auto using accounted_exec. apply IH. destruct (log_grows (exec (begin clock) es) e) as (l & L). rewrite L in T. eapply ties_prefix; eauto.
  Qed.
  Lemma alive : forall clock es, no_ties interval (log (exec (begin clock) es)) ->
    let s := exec (begin clock) es in bg s <> Dead /\ (forall a t e, ~ In (StartRaised a t e) (log s)) /\ forall e, ~ In (Died e) (log s).
  Proof. intros clock es T. apply (sound_exec clock es T). Qed.

  (** * A whole round *)
  Lemma round : forall n s less, length (data s) = n -> accounted s -> no_ties interval (log s) -> heapFrom ltT 0 (data s) -> bg s = Popping less ->
    exists k l, let s' := exec s (repeat Turn k) in
      Permutation (data s) (l ++ data s') /\ in_order l /\ (forall e, In e l -> fst e < less) /\ (forall e, In e (data s') -> less <= fst e) /\
      log s' = log s ++ map (handled s) l /\ bg s' = Peeking /\ now s' = now s /\ cancelled s' = cancelled s.
  Proof.
    induction n as [|n IH]; intros s less L Ac T H B.
    - exists 1%nat, []. simpl. unfold turn. rewrite B. destruct (data s) as [|x r] eqn:D; [|discriminate]. simpl. rewrite D. repeat split; auto; try contradiction. rewrite app_nil_r; auto.
    - destruct (data s) as [|(ts & t) r] eqn:D; [discriminate|]. destruct (Z.leb_spec less ts) as [Le|Le].
      + exists 1%nat, []. simpl. unfold turn. rewrite B, D. destruct (Z.leb_spec less ts); [|lia]. simpl. rewrite D. repeat split; auto; try contradiction.
        * intros e I. pose proof (heap_root_min ltT_ord H (m := (ts, t)) eq_refl) as M. specialize (M e I). unfold ltT in M. simpl in M. apply Z.ltb_ge in M. lia.
        * rewrite app_nil_r; auto.
      + assert (Q := data_started _ Ac). pose proof (cheappop_agrees entry_lt ltT _ (entry_agree _ T) _ Q) as E. rewrite D in E.
        destruct (heappop ltT (@cons entry (ts, t) r)) as [((ts' & t') & d)|] eqn:P.
        2:{ exfalso. unfold heappop in P. destruct (rev (@cons entry (ts, t) r)) as [|z q] eqn:R; [simpl in R; destruct (rev r); discriminate|]. destruct (rev q); discriminate. }
        destruct (heappop_spec ltT_ord H P) as (P1 & H' & Mn & P2). simpl in P2. inversion P2; subst ts' t'; clear P2.
        set (s1 := step s Turn). assert (S1 : s1 = set_bg (set_data s d) (Holding less ts t)).
        { unfold s1. simpl. unfold turn. rewrite B, D. destruct (Z.leb_spec less ts); [lia|]. rewrite E. auto. }
        set (s2 := step s1 Turn). assert (S2 : s2 = mk_state (now s) d (cancelled s) (Popping less) (log s ++ [handled s (ts, t)])).
        { unfold s2. rewrite S1. simpl. unfold turn, handled. simpl. destruct (memb Nat.eqb t (cancelled s)); auto. }
        assert (A2 : accounted s2) by (unfold s2, s1; auto using accounted_step).
        destruct (IH s2 less) as (k & l & X); rewrite ?S2; simpl; auto.
        { apply Permutation_length in P1. simpl in P1. simpl in L. lia. }
        { rewrite <- S2. auto. }
        { rewrite S2 in A2. revert T. unfold no_ties, was_started, handled. intros T a b x y Ha Hb. apply T.
          - destruct Ha as [Ha|(e & Ha)]; apply in_app_iff in Ha; destruct Ha as [Ha|[Ha|[]]]; eauto; destruct (memb _ _ _); discriminate.
          - destruct Hb as [Hb|(e & Hb)]; apply in_app_iff in Hb; destruct Hb as [Hb|[Hb|[]]]; eauto; destruct (memb _ _ _); discriminate. }
        exists (S (S k)), ((ts, t) :: l). change (exec s (repeat Turn (S (S k)))) with (exec s2 (repeat Turn k)). cbv zeta in X |- *. rewrite S2 in X |- *.
        simpl in X. destruct X as (X1 & X2 & X3 & X4 & X5 & X6 & X7 & X8). repeat split; auto.
        * rewrite P1. simpl. constructor. auto.
        * intros e I. assert (I' : In e ((ts, t) :: r)). { apply (Permutation_in _ (Permutation_sym P1)). right. apply (Permutation_in _ (Permutation_sym X1)). rewrite in_app_iff. auto. }
          specialize (Mn e I'). unfold ltT in Mn. simpl in Mn. apply Z.ltb_ge in Mn. auto.
        * intros e [<-|I]; auto.
        * rewrite X5, <- app_assoc. auto.
  Qed.
  Lemma whole_round : forall clock es until, let s := exec (begin clock) es in no_ties interval (log s) -> bg s = Sleeping until -> until <= now s ->
    exists k l, let s' := exec s (repeat Turn k) in
      Permutation (data s) (l ++ data s') /\ in_order l /\ (forall e, In e l -> fst e < now s) /\ (forall e, In e (data s') -> now s <= fst e) /\
      log s' = log s ++ map (handled s) l /\ bg s' = Peeking.
  Proof.
    intros clock es until s T B U. destruct (sound_exec clock es T) as (H & _). pose proof (accounted_exec clock es) as Ac.
    set (s1 := step s Turn). assert (S1 : s1 = set_bg s (Popping (now s))). { unfold s1. simpl. unfold turn. rewrite B. destruct (Z.ltb_spec (now s) until); auto. lia. }
    assert (A1 : accounted s1) by (apply accounted_step; auto). rewrite S1 in A1.
    destruct (round (length (data s)) (set_bg s (Popping (now s))) (now s)) as (k & l & X); auto. exists (S k), l. change (exec s (repeat Turn (S k))) with (exec s1 (repeat Turn k)).
    rewrite S1. cbv zeta in X |- *. simpl in X. tauto.
  Qed.
  (** * How long the thread sleeps *)
  Lemma sleeps : forall s, 0 <= second -> bg s = Peeking -> exists until, bg (step s Turn) = Sleeping until /\ now s <= until <= now s + second /\
    forall ts t r, data s = (ts, t) :: r -> until <= Z.max (now s) ts.
  Proof.
    intros s S B. simpl. unfold turn. rewrite B. eexists. split; [reflexivity|]. unfold delay. destruct (data s) as [|(ts & t) r].
    - split; [lia|]. discriminate.
    - cbv zeta. destruct (Z.ltb_spec (Z.min (ts - now s) second) 0); (split; [lia|]); intros ts0 t0 r0 E; inversion E; subst; lia.
  Qed.
  Definition dozing (s : state) : Prop := match bg s with Sleeping u => u <= now s + second | _ => True end.
  Lemma dozing_exec : forall clock es, 0 <= second -> dozing (exec (begin clock) es).
  Proof.
    intros clock es S. induction es as [|e es IH] using rev_ind; [exact I|]. rewrite exec_snoc. set (s := exec (begin clock) es) in *. unfold dozing in *.
    destruct e as [d|t|t|]; simpl.
    - destruct (bg s); auto; lia.
    - unfold start. destruct (cheappush _ _ _) as (d & [e|]); simpl; auto.
    - auto.
    - destruct (bg s) as [|w|less|less ts t0|] eqn:B.
      + destruct (sleeps s S B) as (u & E & L & _). simpl in E. rewrite E. simpl. unfold turn. rewrite B. simpl. lia.
      + unfold turn. rewrite B. destruct (now s <? w); simpl; rewrite ?B; auto.
      + unfold turn. rewrite B. destruct (data s) as [|(ts & t0) r]; simpl; auto. destruct (less <=? ts); simpl; auto. destruct (cheappop _ _) as (d & [(ts' & t')|e]); simpl; auto.
      + unfold turn. rewrite B. destruct (memb _ _ _); simpl; auto.
      + unfold turn. rewrite B. rewrite B. auto.
  Qed.
  Lemma sleep_bound : forall clock es until, 0 <= second -> bg (exec (begin clock) es) = Sleeping until -> until <= now (exec (begin clock) es) + second.
  Proof. intros clock es until S B. pose proof (dozing_exec clock es S) as D. unfold dozing in D. rewrite B in D. auto. Qed.
  Lemma dead_forever : forall es s, bg s = Dead -> forall ts a t, In (Ran ts a t) (log (exec s es)) -> In (Ran ts a t) (log s).
  Proof.
    induction es as [|e es IH]; intros s B ts a t I; auto. change (exec s (e :: es)) with (exec (step s e) es) in I.
    assert (K : bg (step s e) = Dead /\ (In (Ran ts a t) (log (step s e)) -> In (Ran ts a t) (log s))).
    { destruct e as [d|u|u|]; simpl; auto.
      - unfold start. destruct (cheappush _ _ _) as (d & [e|]); simpl; (split; [auto|]); rewrite in_app_iff; intros [X|[X|[]]]; auto; discriminate.
      - unfold turn. rewrite B. auto. }
    destruct K as (K1 & K2). apply K2. eapply IH; eauto.
  Qed.

  (** * Every timer started runs *)
  Definition exactly (s : state) : Prop := Permutation (all_started (log s)) (data s ++ held s ++ all_done (log s)).
  Lemma exactly_step : forall s e, bg (step s e) <> Dead -> exactly s -> exactly (step s e).
  Proof.
    intros s e Al P. unfold exactly in *. destruct e as [d|t|t|]; simpl in *; auto.
    - unfold start in *. pose proof (cheappush_perm entry_lt (data s) (now s + interval t, t)) as C.
      destruct (cheappush entry_lt (data s) (now s + interval t, t)) as (d & [e|]); simpl in *; unfold held; simpl;
        rewrite all_started_snoc, all_done_snoc, app_nil_r; simpl; rewrite C, P; rewrite <- Permutation_cons_append; reflexivity.
    - unfold turn in *. destruct (bg s) as [|u|less|less ts t|] eqn:B; unfold held in *; rewrite B in P; simpl in P; auto.
      + destruct (now s <? u); simpl; rewrite ?B; exact P.
      + destruct (data s) as [|(ts & t) r] eqn:D; [simpl; rewrite D; exact P|].
        destruct (less <=? ts); [simpl; rewrite D; exact P|]. pose proof (cheappop_perm entry_lt (data s)) as C. rewrite D in C.
        destruct (cheappop entry_lt (@cons entry (ts, t) r)) as (d & [(ts' & t')|e]) eqn:E.
        * simpl. etransitivity; [exact P|]. etransitivity; [apply Permutation_app_tail; exact C|]. simpl. apply Permutation_middle.
        * simpl in Al. congruence.
      + destruct (memb Nat.eqb t (cancelled s)); simpl; rewrite all_started_snoc, all_done_snoc, app_nil_r; simpl;
          rewrite P; apply Permutation_app_head; simpl; apply Permutation_cons_append.
      + congruence.
  Qed.
  Lemma exactly_exec : forall clock es, no_ties interval (log (exec (begin clock) es)) -> exactly (exec (begin clock) es).
  Proof.
    intros clock es. induction es as [|e es IH] using rev_ind; intros T; [constructor|]. pose proof (sound_exec clock _ T) as (_ & D & _). rewrite exec_snoc in *. apply exactly_step; auto.
    apply IH. destruct (log_grows (exec (begin clock) es) e) as (l & L). rewrite L in T. eapply ties_prefix; eauto.
  Qed.
  Definition skips_cancelled (s : state) : Prop := forall ts a t, In (Skipped ts a t) (log s) -> In t (cancelled s).
  Lemma skips_step : forall s e, skips_cancelled s -> skips_cancelled (step s e).
  Proof.
    intros s e H ts a t I. pose proof (fun t => cancelled_grows s e t) as G. destruct e as [d|u|u|]; simpl in *; eauto.
    - unfold start in *. destruct (cheappush _ _ _) as (d & [e|]); simpl in *; apply in_app_iff in I; destruct I as [I|[I|[]]]; eauto; discriminate.
    - unfold turn in *. destruct (bg s) as [|w|less|less ts0 t0|]; simpl in *; eauto.
      + destruct (now s <? w); simpl in *; eauto.
      + destruct (data s) as [|(ts0 & t0) r]; simpl in *; eauto. destruct (less <=? ts0); simpl in *; eauto.
        destruct (cheappop _ _) as (d & [(ts' & t')|e]); simpl in *; eauto. apply in_app_iff in I; destruct I as [I|[I|[]]]; eauto; discriminate.
      + destruct (memb Nat.eqb t0 (cancelled s)) eqn:M; simpl in *; apply in_app_iff in I; destruct I as [I|[I|[]]]; eauto; [|discriminate].
        inversion I; subst. apply (memb_In nateqb_ok). auto.
  Qed.
  Lemma skips_exec : forall clock es, skips_cancelled (exec (begin clock) es).
  Proof. intros clock es. induction es as [|e es IH] using rev_ind; [intros ? ? ? []|]. rewrite exec_snoc. apply skips_step; auto. Qed.
  Lemma count_done_eq : forall s t, skips_cancelled s -> ~ In t (cancelled s) -> length (filter (fun e => (snd e =? t)%nat) (all_done (log s))) = count (is_run t) (log s).
  Proof.
    intros s t H N. assert (H' : forall ts a, ~ In (Skipped ts a t) (log s)) by (intros ts a I; apply N; eapply H; eauto). clear H N. revert H'.
    generalize (log s). intros l. unfold all_done, count. induction l as [|n l IH]; intros H; simpl; auto. rewrite filter_app, app_length, IH by (intros ts a I; eapply H; right; eauto).
    destruct n as [a t'|a t' e|a b t'|a b t'|e]; simpl; auto.
    - rewrite (Nat.eqb_sym t t'); destruct (t' =? t)%nat; simpl; auto.
    - destruct (Nat.eqb_spec t' t); simpl; auto. subst. exfalso. eapply H. left. reflexivity.
  Qed.
  (** a whole round from waking on, from any state that is not about to sleep *)
  Definition clean (s : state) : Prop := accounted s /\ no_ties interval (log s) /\ heapFrom ltT 0 (data s).
  Lemma exec_turns : forall s j k, exec s (repeat Turn (j + k)) = exec (exec s (repeat Turn j)) (repeat Turn k).
  Proof. intros. rewrite repeat_app, exec_app. auto. Qed.
  Lemma handled_no_start : forall s l a t, ~ was_started (map (handled s) l) a t.
  Proof.
    intros s l a t [I|(e & I)]; apply in_map_iff in I; destruct I as (x & E & _); unfold handled in E; destruct (memb _ _ _); discriminate.
  Qed.
  Lemma ties_handled : forall l s es, no_ties interval l -> no_ties interval (l ++ map (handled s) es).
  Proof.
    intros l s es T a b x y A B. assert (W : forall a t, was_started (l ++ map (handled s) es) a t -> was_started l a t).
    { intros c t [I|(e & I)]; apply in_app_iff in I; destruct I as [I|I]; [left; auto| |right; eauto|]; exfalso; eapply handled_no_start; [left|right]; eauto. }
    apply T; apply W; auto.
  Qed.
  Lemma heap_perm_round : forall s less, clean s -> bg s = Popping less -> exists k, let s' := exec s (repeat Turn k) in
    clean s' /\ bg s' = Peeking /\ now s' = now s /\ cancelled s' = cancelled s /\ (forall e, In e (data s') -> In e (data s) /\ less <= fst e) /\ all_started (log s') = all_started (log s).
  Proof.
    intros s less (A & T & H) B. destruct (round (length (data s)) s less eq_refl A T H B) as (k & l & X). cbv zeta in X. destruct X as (X1 & X2 & X3 & X4 & X5 & X6 & X7 & X8).
    exists k. cbv zeta. assert (T' : no_ties interval (log (exec s (repeat Turn k)))) by (rewrite X5; apply ties_handled; auto).
    assert (A' : accounted (exec s (repeat Turn k))) by (clear - A; revert s A; induction k as [|k IH]; intros s A; simpl; auto; apply IH; apply (accounted_step s Turn); auto).
    assert (H' : heapFrom ltT 0 (data (exec s (repeat Turn k)))).
    { assert (G : forall k s, accounted s -> no_ties interval (log s) -> heapFrom ltT 0 (data s) -> heapFrom ltT 0 (data (exec s (repeat Turn k)))).
      { clear. induction k as [|k IH]; intros s A T H; auto. change (exec s (repeat Turn (S k))) with (exec (step s Turn) (repeat Turn k)). 
        assert (St : all_started (log (step s Turn)) = all_started (log s) /\ heapFrom ltT 0 (data (step s Turn))).
        { simpl. unfold turn. destruct (bg s) as [|w|less|less ts t0|] eqn:B; auto.
          - destruct (now s <? w); auto.
          - destruct (data s) as [|(ts & t) r] eqn:D; auto; [simpl; rewrite D; auto|]. destruct (less <=? ts); [simpl; rewrite D; auto|].
            assert (Q := data_started _ A). pose proof (cheappop_agrees entry_lt ltT _ (entry_agree _ T) _ Q) as E. rewrite D in E. rewrite E.
            destruct (heappop ltT (@cons entry (ts, t) r)) as [((ts' & t') & d)|] eqn:P.
            + destruct (heappop_spec ltT_ord H P) as (_ & H' & _). simpl. auto.
            + simpl. rewrite all_started_snoc. simpl. rewrite app_nil_r. auto.
          - destruct (memb _ _ _); simpl; rewrite all_started_snoc; simpl; rewrite app_nil_r; auto. }
        destruct St as (St & Hp). apply IH; auto; [apply (accounted_step s Turn); auto|].
        intros a b x y Ha Hb. apply T.
        - assert (I : In (a + interval x, x) (all_started (log s))) by (rewrite <- St; apply started_In; eauto). apply started_In in I. destruct I as (a' & I & E). assert (a' = a) by lia. subst; auto.
        - assert (I : In (b + interval y, y) (all_started (log s))) by (rewrite <- St; apply started_In; eauto). apply started_In in I. destruct I as (b' & I & E). assert (b' = b) by lia. subst; auto. }
      apply G; auto. }
    repeat split; auto.
    - apply (Permutation_in _ (Permutation_sym X1)). rewrite in_app_iff. auto.
    - rewrite X5. unfold all_started. rewrite flat_map_app. replace (flat_map entry_of (map (handled s) l)) with (@nil entry); [apply app_nil_r|].
      clear. induction l; simpl; auto. unfold handled at 1. destruct (memb _ _ _); auto.
  Qed.
  Lemma from_peeking : forall s, clean s -> bg s = Peeking -> (forall e, In e (data s) -> fst e < now s) -> 0 <= second ->
    data s = [] \/ exists k, let s' := exec s (repeat Turn k) in data s' = [] /\ bg s' = Peeking /\ cancelled s' = cancelled s /\ all_started (log s') = all_started (log s).
  Proof.
    intros s (A & T & H) B Due S. destruct (data s) as [|(ts & t) r] eqn:D; auto. right.
    assert (E : exec s [Turn; Turn] = set_bg s (Popping (now s))).
    { simpl. unfold turn at 2. rewrite B. unfold delay. rewrite D. specialize (Due (ts, t) (or_introl eq_refl)). simpl in Due. cbv zeta.
      destruct (Z.ltb_spec (Z.min (ts - now s) second) 0); [|lia]. unfold turn. simpl. destruct (Z.ltb_spec (now s) (now s + 0)); [lia|]. auto. }
    destruct (heap_perm_round (set_bg s (Popping (now s))) (now s)) as (k & X); auto.
    { repeat split; auto; [|simpl; rewrite D; auto]. rewrite <- E. change [Turn; Turn] with (repeat Turn 2). apply (accounted_step (step s Turn) Turn). apply (accounted_step s Turn). auto. }
    cbv zeta in X. destruct X as (_ & X1 & X2 & X3 & X4 & X5). exists (2 + k)%nat. cbv zeta. rewrite exec_turns. change (repeat Turn 2) with [Turn; Turn]. rewrite E.
    repeat split; auto. destruct (data (exec (set_bg s (Popping (now s))) (repeat Turn k))) as [|e q] eqn:Dq; auto.
    destruct (X4 e (or_introl eq_refl)) as (I & L). simpl in I. specialize (Due e). rewrite D in I. specialize (Due I). lia.
  Qed.
  Lemma from_popping : forall s less, clean s -> bg s = Popping less -> (forall e, In e (data s) -> fst e < now s) -> 0 <= second ->
    exists k, let s' := exec s (repeat Turn k) in data s' = [] /\ bg s' = Peeking /\ cancelled s' = cancelled s /\ all_started (log s') = all_started (log s).
  Proof.
    intros s less C B Due S. destruct (heap_perm_round s less C B) as (k & X). cbv zeta in X. destruct X as (C' & X1 & X2 & X3 & X4 & X5).
    destruct (from_peeking (exec s (repeat Turn k)) C' X1) as [D|(j & Y)]; auto.
    - rewrite X2. intros e I. apply Due. apply X4. auto.
    - exists k. auto.
    - cbv zeta in Y. exists (k + j)%nat. cbv zeta. rewrite exec_turns. rewrite <- X3, <- X5. auto.
  Qed.
  Lemma all_run : forall clock es d, 0 <= second -> let s := exec (begin clock) es in no_ties interval (log s) ->
    second <= Z.of_nat d -> (forall a u, was_started (log s) a u -> a + interval u < now s + Z.of_nat d) ->
    exists k, let s' := exec s (Pass d :: repeat Turn k) in forall t, ~ In t (cancelled s) -> count (is_run t) (log s') = count (is_start t) (log s).
  Proof.
    intros clock es d S s T Sd Due. set (s0 := step s (Pass d)).
    assert (A0 : accounted s0) by (apply accounted_step; apply accounted_exec). destruct (sound_exec clock es T) as (H & Dd & _). fold s in H, Dd.
    assert (C0 : clean s0) by (repeat split; auto).
    assert (Due0 : forall e, In e (data s0) -> fst e < now s0).
    { intros (ts & t) I. assert (J : In (ts, t) (all_started (log s))). { destruct (accounted_exec clock es) as (lost & P). apply (Permutation_in _ (Permutation_sym P)). rewrite in_app_iff. auto. }
      apply started_In in J. destruct J as (a & J & E). apply Due in J. simpl. lia. }
    assert (X : exists k, let s' := exec s0 (repeat Turn k) in data s' = [] /\ bg s' = Peeking /\ cancelled s' = cancelled s0 /\ all_started (log s') = all_started (log s0)).
    { destruct (bg s0) as [|w|less|less ts t|] eqn:B; [| | |  |].
      - destruct (from_peeking s0) as [D|X]; auto. exists 0%nat. auto.
      - assert (Lw : w <= now s + second) by (apply sleep_bound; auto).
        assert (E : step s0 Turn = set_bg s0 (Popping (now s0))). { simpl. unfold turn. simpl in B. simpl. rewrite B. destruct (Z.ltb_spec (now s + Z.of_nat d) w); auto. lia. }
        destruct (from_popping (set_bg s0 (Popping (now s0))) (now s0)) as (k & X); auto.
        { destruct C0 as (C1 & C2 & C3). repeat split; auto. rewrite <- E. apply (accounted_step s0 Turn). auto. }
        exists (1 + k)%nat. cbv zeta in X |- *. rewrite exec_turns. change (exec s0 (repeat Turn 1)) with (step s0 Turn). rewrite E. exact X.
      - destruct (from_popping s0 less) as (k & X); auto. exists k. exact X.
      - assert (E : step s0 Turn = mk_state (now s0) (data s0) (cancelled s0) (Popping less) (log s0 ++ map (handled s0) [(ts, t)])).
        { simpl. unfold turn, handled. simpl in B. simpl. rewrite B. destruct (memb _ _ _); auto. }
        destruct (from_popping (step s0 Turn) less) as (k & X); auto.
        { split; [apply (accounted_step s0 Turn); auto|]. rewrite E. split; [apply ties_handled; auto|auto]. }
        { rewrite E. auto. } { rewrite E. auto. }
        exists (1 + k)%nat. cbv zeta in X |- *. rewrite exec_turns. change (exec s0 (repeat Turn 1)) with (step s0 Turn). destruct X as (X1 & X2 & X3 & X4). repeat split; auto.
        + rewrite X3, E. auto.
        + rewrite X4, E. simpl log. unfold all_started. rewrite flat_map_app. unfold handled. simpl. destruct (memb _ _ _); simpl; rewrite app_nil_r; auto.
      - simpl in B. congruence. }
    destruct X as (k & X). cbv zeta in X. destruct X as (X1 & X2 & X3 & X4). exists k. cbv zeta. change (exec s (Pass d :: repeat Turn k)) with (exec s0 (repeat Turn k)).
    intros t N. set (s' := exec s0 (repeat Turn k)) in *. assert (Sx : s' = exec (begin clock) (es ++ Pass d :: repeat Turn k)) by (rewrite exec_app; reflexivity).
    assert (Ex : exactly s').
    { rewrite Sx. apply exactly_exec. rewrite <- Sx. intros a b x y Ha Hb. apply T.
      - assert (I : In (a + interval x, x) (all_started (log s))) by (change (log s) with (log s0); rewrite <- X4; apply started_In; eauto). apply started_In in I. destruct I as (a' & I & E). assert (a' = a) by lia. subst; auto.
      - assert (I : In (b + interval y, y) (all_started (log s))) by (change (log s) with (log s0); rewrite <- X4; apply started_In; eauto). apply started_In in I. destruct I as (b' & I & E). assert (b' = b) by lia. subst; auto. }
    unfold exactly, held in Ex. rewrite X1, X2, X4 in Ex. simpl in Ex. rewrite <- count_started. rewrite (Permutation_length (filter_perm _ (fun e => (snd e =? t)%nat) _ _ Ex)).
    symmetry. apply count_done_eq; [rewrite Sx; apply skips_exec|]. rewrite X3. auto.
  Qed.
End Timers.
