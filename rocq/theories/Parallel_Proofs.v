From Verif Require Import Prelude PreludeFacts MoreFacts Parallel_Model Parallel_Spec.

Definition ev_dec : forall x y : pevent, {x = y} + {x <> y} := fun x y => ltac:(decide equality; apply Nat.eq_dec).

Section C.
  Variable U : Type.
  Variable outs : list (outcome (option U)).
  (** what was given so far; how it goes on *)
  Definition cinv (s : construct_state U) : Prop :=
    match c_end s with
    | Some r => r = one_by_one outs
    | None => one_by_one outs = match one_by_one (skipn (c_next s) outs) with Ok l => Ok (c_result s ++ l) | Err e => Err e end
    end.
  Lemma skipn_nth : forall A n (l : list A) x, nth_error l n = Some x -> skipn n l = x :: skipn (S n) l.
  Proof. induction n as [|n IH]; intros [|y l] x E; simpl in *; try discriminate; [congruence|]. rewrite (IH l x E). reflexivity. Qed.
  Lemma skipn_none : forall A n (l : list A), nth_error l n = None -> skipn n l = [].
  Proof. intros A n l E. apply nth_error_None in E. apply skipn_all2. auto. Qed.
  Lemma cinv_step : forall s ev, cinv s -> cinv (construct_step outs s ev).
  Proof.
    intros s [i|] I; unfold cinv in *; simpl; [exact I|]. destruct (c_end s) as [r|] eqn:E; [rewrite E; auto|].
    destruct (nth_error outs (c_next s)) as [o|] eqn:N.
    - destruct (nth (c_next s) (c_done s) false); [|rewrite E; auto]. rewrite (skipn_nth _ _ _ _ N) in I.
      destruct o as [[v|]|e|e]; cbn [one_by_one c_end c_next c_result] in *; auto.
      destruct (one_by_one (skipn (S (c_next s)) outs)); cbn [res_map] in *; auto. rewrite <- app_assoc. exact I.
    - simpl. rewrite (skipn_none _ _ _ N) in I. simpl in I. rewrite app_nil_r in I. auto.
  Qed.
  Lemma cinv_exec : forall l s, cinv s -> cinv (fold_left (construct_step outs) l s).
  Proof. induction l as [|ev l IH]; intros s I; simpl; auto. apply IH, cinv_step, I. Qed.
  Lemma construct_result : forall l r, c_end (construct outs l) = Some r -> r = one_by_one outs.
  Proof.
    intros l r E. pose proof (cinv_exec l (construct_new U (length outs))) as H. unfold cinv at 1 in H. simpl in H.
    specialize (H ltac:(destruct (one_by_one outs); reflexivity)). unfold cinv, construct in *. rewrite E in H. auto.
  Qed.
  (** progress *)
  Lemma cdone_mono : forall l s i, nth i (c_done s) false = true -> nth i (c_done (fold_left (construct_step outs) l s)) false = true.
  Proof.
    induction l as [|ev l IH]; intros s i D; simpl; auto. apply IH. destruct ev as [j|]; simpl.
    - clear - D. revert i j D. generalize (c_done s). induction l as [|b l IH]; intros [|i] [|j] D; simpl in *; auto; discriminate.
    - destruct (c_end s); auto. destruct (nth_error outs (c_next s)) as [[[v|]|e|e]|]; auto; destruct (nth (c_next s) (c_done s) false); auto.
  Qed.
  Lemma clen : forall l s, length (c_done (fold_left (construct_step outs) l s)) = length (c_done s).
  Proof.
    induction l as [|ev l IH]; intros s; simpl; auto. rewrite IH. destruct ev as [j|]; simpl; [apply upd_length|].
    destruct (c_end s); auto. destruct (nth_error outs (c_next s)) as [[[v|]|e|e]|]; auto; destruct (nth (c_next s) (c_done s) false); auto.
  Qed.
  Lemma upd_true : forall l i, i < length l -> nth i (upd l i true) false = true.
  Proof. induction l as [|b l IH]; intros [|i] L; simpl in *; try lia; auto. apply IH. lia. Qed.
  Lemma cdone_all : forall l s i, i < length (c_done s) -> In (Done i) l -> nth i (c_done (fold_left (construct_step outs) l s)) false = true.
  Proof.
    induction l as [|ev l IH]; intros s i L I; [destruct I|]. destruct I as [->|I]; simpl.
    - apply cdone_mono. simpl. apply upd_true; auto.
    - apply IH; auto. pose proof (clen [ev] s) as Q. simpl in Q. rewrite Q. auto.
  Qed.
  Lemma cprogress : forall l s, length (c_done s) = length outs -> (forall i, i < length outs -> nth i (c_done s) false = true) ->
    length outs < count_occ ev_dec l Go + c_next s -> c_next s <= length outs -> c_end (fold_left (construct_step outs) l s) <> None.
  Proof.
    induction l as [|ev l IH]; intros s L D C N; simpl in *; [lia|].
    destruct (c_end s) as [r|] eqn:E.
    { assert (H : forall l s r, c_end s = Some r -> c_end (fold_left (construct_step outs) l s) = Some r).
      { clear. induction l as [|ev l IH]; intros s r E; simpl; auto. apply IH. destruct ev; simpl; auto. rewrite E. auto. }
      rewrite (H l _ r); [discriminate|]. destruct ev; simpl; auto. rewrite E. auto. }
    destruct ev as [j|]; simpl.
    - destruct (ev_dec (Done j) Go) as [X|_]; [discriminate|]. apply IH; simpl; auto; [rewrite upd_length; auto|].
      intros i Li. specialize (D i Li). clear - D. revert i j D. generalize (c_done s). induction l as [|b l IH]; intros [|i] [|j] D; simpl in *; auto; discriminate.
    - destruct (ev_dec Go Go) as [_|X]; [|congruence]. rewrite E. destruct (nth_error outs (c_next s)) as [o|] eqn:Q.
      + assert (Lt : c_next s < length outs) by (apply nth_error_Some; congruence). rewrite (D _ Lt).
        destruct o as [[v|]|e|e].
        * apply IH; simpl; auto; lia.
        * apply IH; simpl; auto; lia.
        * assert (H : forall l s r, c_end s = Some r -> c_end (fold_left (construct_step outs) l s) = Some r).
          { clear. induction l as [|ev l IH]; intros s r E; simpl; auto. apply IH. destruct ev; simpl; auto. rewrite E. auto. }
          erewrite H; [|reflexivity]. discriminate.
        * assert (H : forall l s r, c_end s = Some r -> c_end (fold_left (construct_step outs) l s) = Some r).
          { clear. induction l as [|ev l IH]; intros s r E; simpl; auto. apply IH. destruct ev; simpl; auto. rewrite E. auto. }
          erewrite H; [|reflexivity]. discriminate.
      + assert (H : forall l s r, c_end s = Some r -> c_end (fold_left (construct_step outs) l s) = Some r).
        { clear. induction l as [|ev l IH]; intros s r E; simpl; auto. apply IH. destruct ev; simpl; auto. rewrite E. auto. }
        erewrite H; [|reflexivity]. discriminate.
  Qed.
End C.

Section E.
  Variable U : Type.
  Variable outs : list (outcome U).
  Definition einv (s : execute_state U) : Prop :=
    match e_end s with
    | Some r => in_order outs = (e_yielded s, r)
    | None => in_order outs = let '(l, r) := in_order (skipn (e_next s) outs) in (e_yielded s ++ l, r)
    end.
  Lemma einv_step : forall s ev, einv s -> einv (execute_step outs s ev).
  Proof.
    intros s [i|] I; unfold einv in *; simpl; [exact I|]. destruct (e_end s) as [r|] eqn:E; [rewrite E; auto|].
    destruct (nth_error outs (e_next s)) as [o|] eqn:N.
    - destruct (nth (e_next s) (e_done s) false); [|rewrite E; auto]. rewrite (skipn_nth _ _ _ _ N) in I.
      destruct o as [v|e|e]; cbn [in_order e_end e_next e_yielded] in *.
      + destruct (in_order (skipn (S (e_next s)) outs)). rewrite <- app_assoc. auto.
      + destruct (in_order (skipn (S (e_next s)) outs)). rewrite <- app_assoc. auto.
      + rewrite app_nil_r in I. auto.
    - simpl. rewrite (skipn_none _ _ _ N) in I. simpl in I. rewrite app_nil_r in I. auto.
  Qed.
  Lemma einv_exec : forall l s, einv s -> einv (fold_left (execute_step outs) l s).
  Proof. induction l as [|ev l IH]; intros s I; simpl; auto. apply IH, einv_step, I. Qed.
  Lemma einv_init : einv (execute_new U (length outs)).
  Proof. unfold einv. simpl. destruct (in_order outs); reflexivity. Qed.
  Lemma execute_prefix : forall l, prefix (e_yielded (execute outs l)) (fst (in_order outs)).
  Proof.
    intros l. pose proof (einv_exec l _ einv_init) as H. unfold einv in H. fold (execute outs l) in H. destruct (e_end (execute outs l)).
    - rewrite H. exists []. rewrite app_nil_r. reflexivity.
    - rewrite H. destruct (in_order (skipn (e_next (execute outs l)) outs)) as [m r]. exists m. reflexivity.
  Qed.
  Lemma execute_result : forall l r, e_end (execute outs l) = Some r -> in_order outs = (e_yielded (execute outs l), r).
  Proof. intros l r E. pose proof (einv_exec l _ einv_init) as H. unfold einv in H. fold (execute outs l) in H. rewrite E in H. auto. Qed.
  Lemma edone_mono : forall l s i, nth i (e_done s) false = true -> nth i (e_done (fold_left (execute_step outs) l s)) false = true.
  Proof.
    induction l as [|ev l IH]; intros s i D; simpl; auto. apply IH. destruct ev as [j|]; simpl.
    - clear - D. revert i j D. generalize (e_done s). induction l as [|b l IH]; intros [|i] [|j] D; simpl in *; auto; discriminate.
    - destruct (e_end s); auto. destruct (nth_error outs (e_next s)) as [[v|e|e]|]; auto; destruct (nth (e_next s) (e_done s) false); auto.
  Qed.
  Lemma elen : forall l s, length (e_done (fold_left (execute_step outs) l s)) = length (e_done s).
  Proof.
    induction l as [|ev l IH]; intros s; simpl; auto. rewrite IH. destruct ev as [j|]; simpl; [apply upd_length|].
    destruct (e_end s); auto. destruct (nth_error outs (e_next s)) as [[v|e|e]|]; auto; destruct (nth (e_next s) (e_done s) false); auto.
  Qed.
  Lemma edone_all : forall l s i, i < length (e_done s) -> In (Done i) l -> nth i (e_done (fold_left (execute_step outs) l s)) false = true.
  Proof.
    induction l as [|ev l IH]; intros s i L I; [destruct I|]. destruct I as [->|I]; simpl.
    - apply edone_mono. simpl. apply upd_true; auto.
    - apply IH; auto. pose proof (elen [ev] s) as Q. simpl in Q. rewrite Q. auto.
  Qed.
  Lemma eend_stays : forall l s r, e_end s = Some r -> e_end (fold_left (execute_step outs) l s) = Some r.
  Proof. induction l as [|ev l IH]; intros s r E; simpl; auto. apply IH. destruct ev; simpl; auto. rewrite E. auto. Qed.
  Lemma eprogress : forall l s, length (e_done s) = length outs -> (forall i, i < length outs -> nth i (e_done s) false = true) ->
    length outs < count_occ ev_dec l Go + e_next s -> e_next s <= length outs -> e_end (fold_left (execute_step outs) l s) <> None.
  Proof.
    induction l as [|ev l IH]; intros s L D C N; simpl in *; [lia|].
    destruct (e_end s) as [r|] eqn:E.
    { rewrite (eend_stays l _ r); [discriminate|]. destruct ev; simpl; auto. rewrite E. auto. }
    destruct ev as [j|]; simpl.
    - destruct (ev_dec (Done j) Go) as [X|_]; [discriminate|]. apply IH; simpl; auto; [rewrite upd_length; auto|].
      intros i Li. specialize (D i Li). clear - D. revert i j D. generalize (e_done s). induction l as [|b l IH]; intros [|i] [|j] D; simpl in *; auto; discriminate.
    - destruct (ev_dec Go Go) as [_|X]; [|congruence]. rewrite E. destruct (nth_error outs (e_next s)) as [o|] eqn:Q.
      + assert (Lt : e_next s < length outs) by (apply nth_error_Some; congruence). rewrite (D _ Lt).
        destruct o as [v|e|e].
        * apply IH; simpl; auto; lia.
        * apply IH; simpl; auto; lia.
        * erewrite eend_stays; [|reflexivity]. discriminate.
      + erewrite eend_stays; [|reflexivity]. discriminate.
  Qed.
End E.

Lemma repeat_length' : forall n, length (repeat false n) = n.
Proof. intros. apply repeat_length. Qed.
Lemma count_same : forall l : list pevent, goes l = count_occ ev_dec l Go.
Proof. intros l. induction l as [|[i|] l IH]; simpl; auto; destruct (ev_dec _ Go); try congruence; auto. Qed.
Lemma construct_ends : forall U (outs : list (outcome (option U))) l, served (length outs) l -> c_end (construct outs l) <> None.
Proof.
  intros U outs l (a & b & -> & A & B). rewrite count_same in B. unfold construct. rewrite fold_left_app.
  set (s := fold_left (construct_step outs) a (construct_new U (length outs))).
  assert (N : c_next s <= length outs).
  { unfold s. assert (H : forall l s, c_next s <= length outs -> c_next (fold_left (construct_step outs) l s) <= length outs).
    { clear. induction l as [|ev l IH]; intros s N; simpl; auto. apply IH. destruct ev as [j|]; simpl; auto. destruct (c_end s); auto.
      destruct (nth_error outs (c_next s)) as [o|] eqn:Q; auto. assert (c_next s < length outs) by (apply nth_error_Some; congruence).
      destruct o as [[v|]|e|e]; destruct (nth (c_next s) (c_done s) false); simpl; lia. }
    apply H. simpl. lia. }
  apply cprogress; auto; [|intros i L|lia].
  - unfold s. rewrite clen. apply repeat_length'.
  - unfold s. apply cdone_all; [simpl; rewrite repeat_length'; auto|auto].
Qed.
Lemma execute_ends : forall U (outs : list (outcome U)) l, served (length outs) l -> e_end (execute outs l) <> None.
Proof.
  intros U outs l (a & b & -> & A & B). rewrite count_same in B. unfold execute. rewrite fold_left_app.
  set (s := fold_left (execute_step outs) a (execute_new U (length outs))).
  assert (N : e_next s <= length outs).
  { unfold s. assert (H : forall l s, e_next s <= length outs -> e_next (fold_left (execute_step outs) l s) <= length outs).
    { clear. induction l as [|ev l IH]; intros s N; simpl; auto. apply IH. destruct ev as [j|]; simpl; auto. destruct (e_end s); auto.
      destruct (nth_error outs (e_next s)) as [o|] eqn:Q; auto. assert (e_next s < length outs) by (apply nth_error_Some; congruence).
      destruct o as [v|e|e]; destruct (nth (e_next s) (e_done s) false); simpl; lia. }
    apply H. simpl. lia. }
  apply eprogress; auto; [|intros i L|lia].
  - unfold s. rewrite elen. apply repeat_length'.
  - unfold s. apply edone_all; [simpl; rewrite repeat_length'; auto|auto].
Qed.

Section L.
  Variables (A K F : Type) (call : A -> K -> res F).
  Lemma launch_all : forall args kwargs made fs, launch call args kwargs = (made, Ok fs) ->
    made = combine args kwargs /\ Forall2 (fun p f => call (fst p) (snd p) = Ok f) made fs.
  Proof.
    induction args as [|a args IH]; intros kwargs made fs E; [injection E as <- <-; split; constructor|]. simpl in E.
    destruct kwargs as [|k kwargs]; [injection E as <- <-; split; constructor|]. destruct (call a k) as [f|e] eqn:C; [|discriminate].
    destruct (launch call args kwargs) as [m [fs'|e]] eqn:L; simpl in E; [|discriminate]. injection E as <- <-.
    destruct (IH _ _ _ L) as [-> H]. split; auto.
  Qed.
End L.

Local Open Scope Z_scope.
Lemma alive_mono : forall t a b, a <= b -> alive a t = false -> alive b t = false.
Proof. intros [|x|] a b L; simpl; auto. rewrite !Z.ltb_ge. lia. Qed.
Lemma join_later : forall timeout threads now r fin, join timeout now threads = (r, fin) -> now <= fin.
Proof.
  intros timeout. induction threads as [|t rest IH]; intros now r fin E; simpl in E; [injection E as <- <-; lia|].
  destruct (thread_join timeout now t) as [now'|e] eqn:J; [|injection E as <- <-; lia].
  assert (now <= now'). { destruct t, timeout; simpl in J; try discriminate; injection J as <-; lia. }
  destruct (alive now' t); [injection E as <- <-; lia|]. apply IH in E. lia.
Qed.
Lemma join_ok : forall timeout threads now fin, join timeout now threads = (Ok tt, fin) -> any_alive fin threads = false /\ ~ In NotStarted threads.
Proof.
  intros timeout. induction threads as [|t rest IH]; intros now fin E; simpl in *; [split; auto|].
  destruct (thread_join timeout now t) as [now'|e] eqn:J; [|discriminate]. destruct (alive now' t) eqn:A; [discriminate|].
  pose proof (join_later _ _ _ _ _ E) as L. destruct (IH _ _ E) as [B C]. split.
  - rewrite (alive_mono t now' fin L A). exact B.
  - intros [->|I]; auto. discriminate.
Qed.
Lemma join_bound : forall w threads now r fin, 0 <= w -> join (Some w) now threads = (r, fin) -> fin <= now + w * Z.of_nat (length threads).
Proof.
  intros w. induction threads as [|t rest IH]; intros now r fin W E; cbn [join] in E; [injection E as <- <-; simpl; lia|].
  assert (P : 0 <= w * Z.of_nat (length rest)) by nia. replace (w * Z.of_nat (length (t :: rest))) with (w + w * Z.of_nat (length rest)) by (cbn [length]; lia).
  destruct (thread_join (Some w) now t) as [now'|e] eqn:J; [|injection E as <- <-; lia].
  assert (now' <= now + w). { destruct t; simpl in J; try discriminate; injection J as <-; lia. }
  destruct (alive now' t); [injection E as <- <-; lia|]. apply IH in E; auto. lia.
Qed.
Lemma join_fails : forall timeout threads now e fin, join timeout now threads = (Err e, fin) -> e <> WouldWaitMore -> In NotStarted threads \/ timeout = None /\ In Never threads.
Proof.
  intros timeout. induction threads as [|t rest IH]; intros now e fin E N; simpl in E; [discriminate|].
  destruct (thread_join timeout now t) as [now'|e'] eqn:J.
  - destruct (alive now' t) eqn:A; [congruence|]. destruct (IH _ _ _ E N) as [I|[T I]]; simpl; auto.
  - destruct t; simpl in J; try discriminate; [simpl; auto|]. destruct timeout; [discriminate|]. right. simpl; auto.
Qed.
Lemma join_would_wait : forall timeout threads now fin, join timeout now threads = (Err WouldWaitMore, fin) ->
  exists w, timeout = Some w /\ any_alive fin threads = true /\ exists t, In t threads /\ alive fin t = true /\ alive (now + w) t = true.
Proof.
  intros timeout. induction threads as [|t rest IH]; intros now fin E; simpl in E; [discriminate|].
  destruct (thread_join timeout now t) as [now'|e'] eqn:J; [|injection E as -> <-; destruct t, timeout; discriminate].
  destruct (alive now' t) eqn:A.
  - injection E as <-. destruct timeout as [w|].
    + exists w. split; auto. split; [simpl; rewrite A; auto|]. exists t. split; [simpl; auto|]. split; auto.
      destruct t as [|a|]; simpl in *; auto. injection J as <-. apply Z.ltb_lt in A. apply Z.ltb_lt. lia.
    + exfalso. destruct t as [|a|]; simpl in J; try discriminate. injection J as <-. simpl in A. apply Z.ltb_lt in A. lia.
  - destruct (IH _ _ E) as (w & -> & B & u & I & A1 & A2). exists w. split; auto. split; [simpl; rewrite B; apply Bool.orb_true_r|].
    exists u. split; [simpl; auto|]. split; auto. destruct (alive (now + w) u) eqn:Q; auto.
    assert (now <= now'). { destruct t; simpl in J; try discriminate; injection J as <-; lia. }
    rewrite (alive_mono u (now + w) (now' + w)) in A2 by (auto; lia). discriminate.
Qed.
Lemma join_complete : forall w threads now, 0 <= w -> ~ In NotStarted threads -> any_alive (now + w) threads = false -> exists fin, join (Some w) now threads = (Ok tt, fin).
Proof.
  intros w threads now W NS A. destruct (join (Some w) now threads) as [[[]|e] fin] eqn:E; [eauto|]. exfalso.
  assert (D : e = WouldWaitMore \/ e <> WouldWaitMore) by (destruct e; first [left; reflexivity | right; discriminate]). destruct D as [-> | N].
  - destruct (join_would_wait _ _ _ _ E) as (w' & [= <-] & _ & t & I & _ & A2). unfold any_alive in A.
    assert (existsb (alive (now + w)) threads = true) by (apply existsb_exists; eauto). congruence.
  - destruct (join_fails _ _ _ _ _ E N) as [I|[T _]]; [auto|discriminate].
Qed.

Local Open Scope nat_scope.
Lemma start_all : forall threads started, NoDup threads -> (forall t, In t threads -> ~ In t started) -> start started threads = (started ++ threads, Ok tt).
Proof.
  induction threads as [|t rest IH]; intros started ND D; simpl; [rewrite app_nil_r; auto|]. inversion ND; subst.
  destruct (memb Nat.eqb t started) eqn:M; [apply (memb_In Nat.eqb_eq) in M; exfalso; apply (D t); simpl; auto|].
  rewrite IH; auto; [rewrite <- app_assoc; reflexivity|]. intros u I J. apply in_app_or in J as [J|[->|[]]]; [apply (D u); simpl; auto|auto].
Qed.
Lemma terminate_all : forall call threads, (forall t, In t threads -> call t = Ok tt \/ call t = Err AttributeError) -> terminate call threads = (threads, Ok tt).
Proof.
  induction threads as [|t rest IH]; intros H; simpl; auto. rewrite IH by (intros; apply H; simpl; auto). destruct (H t (or_introl eq_refl)) as [-> | -> ]; reflexivity.
Qed.
Lemma cstep_other : forall heap o i, i < length heap -> (match o with CAdd j _ | CIadd j _ => j <> i | _ => True end) -> nth_error (cstep heap o) i = nth_error heap i.
Proof.
  intros heap o i L H. destruct o as [l|j t|j x|j x]; simpl; try (apply nth_error_app1; auto); apply nth_error_upd_neq; auto.
Qed.
Lemma nth_of_error : forall (heap : list (list nat)) i l, nth_error heap i = Some l -> nth i heap [] = l.
Proof. intros heap i l E. apply nth_error_nth. auto. Qed.
Lemma cstep_added : forall heap i l t l2 j, nth_error heap i = Some l -> nth_error heap j = Some l2 ->
  nth_error (cstep heap (CAdd i t)) i = Some (l ++ [t]) /\ nth_error (cstep heap (CIadd i (ACollection j))) i = Some (l ++ l2) /\
  nth_error (cstep heap (CPlus i (ACollection j))) (length heap) = Some (l ++ l2).
Proof.
  intros heap i l t l2 j E F. assert (L : i < length heap) by (apply nth_error_Some; congruence). simpl. rewrite (nth_of_error _ _ _ E), (nth_of_error _ _ _ F).
  split; [|split]; try (apply nth_error_upd_eq; auto). rewrite nth_error_app2, Nat.sub_diag by auto. reflexivity.
Qed.
Lemma future_set : forall (U : Type) (v : U) e, run_as_future (Value v) = Some (Ok v) /\ run_as_future (Raised e : outcome U) = Some (Err e).
Proof. split; reflexivity. Qed.
Lemma in_order_all : forall (U : Type) (outs : list (outcome U)), (forall e, ~ In (RaisedBase e) outs) -> length (fst (in_order outs)) = length outs /\ snd (in_order outs) = Ok tt.
Proof.
  induction outs as [|o outs IH]; intros H; simpl; auto. destruct IH as [A B]; [intros e I; apply (H e); simpl; auto|].
  destruct (in_order outs) as [l r]. simpl in *. destruct o as [v|e|e]; simpl; auto. exfalso. apply (H e). simpl. auto.
Qed.
Lemma execute_all : forall (U : Type) (outs : list (outcome U)) l r, (forall e, ~ In (RaisedBase e) outs) ->
  e_end (execute outs l) = Some r -> r = Ok tt /\ length (e_yielded (execute outs l)) = length outs.
Proof. intros U outs l r H E. destruct (in_order_all U outs H) as [A B]. rewrite (execute_result U outs l r E) in A, B. auto. Qed.
Lemma join_times : forall w threads now r fin, (0 <= w)%Z -> join (Some w) now threads = (r, fin) -> (now <= fin <= now + w * Z.of_nat (length threads))%Z.
Proof. intros w threads now r fin W E. split; [exact (join_later _ _ _ _ _ E)|exact (join_bound _ _ _ _ _ W E)]. Qed.

(** nothing is given before its call ended *)
Lemma upd_true_only : forall l j i, nth i (upd l j true) false = true -> i = j \/ nth i l false = true.
Proof. induction l as [|b l IH]; intros [|j] [|i] H; simpl in *; auto. destruct (IH _ _ H); auto. Qed.
Definition cwait (U : Type) (l : list pevent) (n : nat) (s : construct_state U) : Prop :=
  (forall i, nth i (c_done s) false = true -> In (Done i) l) /\ (forall i, i < c_next s -> In (Done i) l) /\ (forall r, c_end s = Some (Ok r) -> n <= c_next s).
Lemma cwait_exec : forall U (outs : list (outcome (option U))) l, cwait U l (length outs) (construct outs l).
Proof.
  intros U outs l. induction l as [|ev l IH] using rev_ind.
  - unfold construct, construct_new. simpl. split; [|split]; simpl; intros; try lia; try discriminate. exfalso.
    revert i H. induction (length outs); intros [|i] H; simpl in H; try discriminate; eauto.
  - unfold construct in *. rewrite fold_left_app. cbn [fold_left]. set (s := fold_left (construct_step outs) l (construct_new U (length outs))) in *. clearbody s.
    destruct IH as (A & B & C). assert (A' : forall i, nth i (c_done s) false = true -> In (Done i) (l ++ [ev])) by (intros; apply in_or_app; auto).
    assert (B' : forall i, i < c_next s -> In (Done i) (l ++ [ev])) by (intros; apply in_or_app; auto).
    destruct ev as [j|]; cbn [construct_step].
    + split; [|split]; cbn [c_done c_next c_end]; auto. intros i H. destruct (upd_true_only _ _ _ H) as [-> |H']; auto. apply in_or_app; simpl; auto.
    + destruct (c_end s) as [r0|] eqn:E; [split; [|split]; auto; rewrite E; auto|].
      destruct (nth_error outs (c_next s)) as [o|] eqn:N.
      * destruct (nth (c_next s) (c_done s) false) eqn:D; [|split; [|split]; auto; rewrite E; discriminate].
        assert (B2 : forall i, i < S (c_next s) -> In (Done i) (l ++ [Go])) by (intros i L; destruct (Nat.eq_dec i (c_next s)) as [-> |]; [auto|apply B'; lia]).
        destruct o as [[v|]|e|e]; split; try split; cbn [c_done c_next c_end]; auto; discriminate.
      * split; [|split]; cbn [c_done c_next c_end]; auto. intros r _. apply nth_error_None. auto.
Qed.
Lemma construct_waits : forall U (outs : list (outcome (option U))) l r, c_end (construct outs l) = Some (Ok r) -> forall i, i < length outs -> In (Done i) l.
Proof. intros U outs l r E i L. destruct (cwait_exec U outs l) as (A & B & C). apply B. specialize (C _ E). lia. Qed.
Definition ewait (U : Type) (l : list pevent) (s : execute_state U) : Prop :=
  (forall i, nth i (e_done s) false = true -> In (Done i) l) /\ (forall i, i < e_next s -> In (Done i) l) /\ length (e_yielded s) = e_next s.
Lemma ewait_exec : forall U (outs : list (outcome U)) l, ewait U l (execute outs l).
Proof.
  intros U outs l. induction l as [|ev l IH] using rev_ind.
  - unfold execute, execute_new. simpl. split; [|split]; simpl; intros; try lia. exfalso.
    revert i H. induction (length outs); intros [|i] H; simpl in H; try discriminate; eauto.
  - unfold execute in *. rewrite fold_left_app. cbn [fold_left]. set (s := fold_left (execute_step outs) l (execute_new U (length outs))) in *. clearbody s.
    destruct IH as (A & B & C). assert (A' : forall i, nth i (e_done s) false = true -> In (Done i) (l ++ [ev])) by (intros; apply in_or_app; auto).
    assert (B' : forall i, i < e_next s -> In (Done i) (l ++ [ev])) by (intros; apply in_or_app; auto).
    destruct ev as [j|]; cbn [execute_step].
    + split; [|split]; cbn [e_done e_next e_yielded]; auto. intros i H. destruct (upd_true_only _ _ _ H) as [-> |H']; auto. apply in_or_app; simpl; auto.
    + destruct (e_end s) as [r0|] eqn:E; [split; [|split]; auto|].
      destruct (nth_error outs (e_next s)) as [o|] eqn:N.
      * destruct (nth (e_next s) (e_done s) false) eqn:D; [|split; [|split]; auto].
        assert (B2 : forall i, i < S (e_next s) -> In (Done i) (l ++ [Go])) by (intros i L; destruct (Nat.eq_dec i (e_next s)) as [-> |]; [auto|apply B'; lia]).
        destruct o as [v|e|e]; split; try split; cbn [e_done e_next e_yielded]; auto; rewrite app_length; simpl; lia.
      * split; [|split]; cbn [e_done e_next e_yielded]; auto.
Qed.
Lemma execute_waits : forall U (outs : list (outcome U)) l i, i < length (e_yielded (execute outs l)) -> In (Done i) l.
Proof. intros U outs l i L. destruct (ewait_exec U outs l) as (A & B & C). apply B. lia. Qed.

Lemma join_no_longer : forall timeout threads now r fin m, join timeout now threads = (r, fin) -> (now <= m)%Z -> (forall t, In t threads -> exists a, t = Ends a /\ (a <= m)%Z) -> (fin <= m)%Z.
Proof.
  intros timeout. induction threads as [|t rest IH]; intros now r fin m E L H; simpl in E; [injection E as <- <-; auto|].
  destruct (H t (or_introl eq_refl)) as (a & -> & A). simpl in E.
  set (now' := match timeout with Some w => Z.max now (Z.min a (now + w)) | None => Z.max now a end) in *.
  assert (now' <= m)%Z by (unfold now'; destruct timeout; lia).
  destruct (now' <? a)%Z; [injection E as <- <-; auto|]. apply (IH _ _ _ _ E); auto. intros t I. apply H. simpl; auto.
Qed.
