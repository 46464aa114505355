From Coq Require Import List Arith Lia.
From Verif Require Import Prelude PreludeFacts MoreFacts Flow_Model Flow_Spec.
Import ListNotations.

Section QG.
  Variable outcome : nat -> res nat.
  Lemma run_cons : forall w o ops, shop_run outcome w (o :: ops) =
    (snd (shop_step outcome w o) :: fst (shop_run outcome (fst (shop_step outcome w o)) ops), snd (shop_run outcome (fst (shop_step outcome w o)) ops)).
  Proof. intros w o ops. cbn [shop_run]. destruct (shop_step outcome w o) as [w1 r]. cbn [fst snd]. destruct (shop_run outcome w1 ops). reflexivity. Qed.

  Lemma step_queue : forall w o, handled (fst (shop_step outcome w o)) ++ waiting (fst (shop_step outcome w o)) = (handled w ++ waiting w) ++ all_put [o].
  Proof.
    intros w [x|]; cbn [shop_step all_put flat_map app]; [cbn; now rewrite ?app_nil_r, app_assoc|].
    unfold queue_get, shop_get. destruct (waiting w) as [|x t] eqn:Q; cbn; rewrite ?Q, ?app_nil_r; auto.
    destruct (outcome x) as [r|e]; cbn; [|destruct (shop_empty e); cbn]; rewrite <- ?app_assoc; reflexivity.
  Qed.
  Lemma run_queue : forall ops w, handled (snd (shop_run outcome w ops)) ++ waiting (snd (shop_run outcome w ops)) = (handled w ++ waiting w) ++ all_put ops.
  Proof.
    induction ops as [|o ops IH]; intros w; [cbn; now rewrite app_nil_r|]. rewrite run_cons. cbn [snd]. rewrite IH, step_queue, <- app_assoc.
    f_equal. unfold all_put. cbn [flat_map]. rewrite app_nil_r. reflexivity.
  Qed.

  Hypothesis quiet : forall x, outcome x <> Err EmptyExn.
  Lemma step_call : forall w, shop_step outcome w SCall = match waiting w with
    | [] => ({| waiting := []; handled := handled w; noticed := S (noticed w) |}, Some (Ok None))
    | x :: t => ({| waiting := t; handled := handled w ++ [x]; noticed := noticed w |}, Some (match outcome x with Ok r => Ok (Some r) | Err e => Err e end))
    end.
  Proof.
    intros w. cbn [shop_step]. unfold queue_get, shop_get. destruct (waiting w) as [|x t] eqn:Q; cbn; rewrite ?Q; auto.
    specialize (quiet x). destruct (outcome x) as [r|e]; cbn; auto. replace (shop_empty e) with false; auto. destruct e; cbn; congruence.
  Qed.
  Lemma run_results : forall ops w, fst (shop_run outcome w ops) = wanted_results outcome (waiting w) ops /\
    noticed (snd (shop_run outcome w ops)) = noticed w + wanted_notices (length (waiting w)) ops.
  Proof.
    induction ops as [|o ops IH]; intros w; [cbn; auto|]. rewrite run_cons. cbn [fst snd]. destruct o as [x|].
    - destruct (IH (fst (shop_step outcome w (SPut x)))) as [R N]. rewrite R, N. cbn. rewrite app_length. cbn. rewrite Nat.add_1_r. auto.
    - rewrite step_call. destruct (waiting w) as [|x t] eqn:Q; cbn [fst snd wanted_results wanted_notices length].
      + destruct (IH {| waiting := []; handled := handled w; noticed := S (noticed w) |}) as [R N]. rewrite R, N. cbn. split; auto; lia.
      + destruct (IH {| waiting := t; handled := handled w ++ [x]; noticed := noticed w |}) as [R N]. rewrite R, N. cbn. auto.
  Qed.
End QG.

Lemma queue_get_refuted : ~ (forall outcome ops, let w0 := {| waiting := []; handled := []; noticed := 0 |} in fst (shop_run outcome w0 ops) = wanted_results outcome [] ops).
Proof. intros H. specialize (H (fun _ => Err EmptyExn) [SPut 3; SCall]). cbn in H. discriminate. Qed.

Section Loop.
  Context {W A R : Type}.
  Variables (accepts : nat -> bool) (pred : option A -> code W bool) (f : list A -> code W R) (args : list A).
  Notation p := (call_pred accepts pred args).
  Lemma loop_turns : forall w n r w', turns p (f args) w n r w' -> forall fuel, n < fuel -> loop_while fuel accepts pred f args w = (r, w').
  Proof.
    intros w n r w' T. induction T as [w w' P|w e w' P|w w1 e w' P F|w w1 a w2 n r w' P F T IH]; intros fuel L; (destruct fuel as [|fuel]; [lia|]); cbn [loop_while]; rewrite P; auto.
    - now rewrite F.
    - rewrite F. apply IH. lia.
  Qed.
  Lemma loop_inv : forall fuel w r w', loop_while fuel accepts pred f args w = (r, w') ->
    (exists n, n < fuel /\ turns p (f args) w n r w') \/ (r = Err Diverges /\ going p (f args) w fuel w').
  Proof.
    induction fuel as [|fuel IH]; intros w r w' E; cbn [loop_while] in E.
    - injection E as <- <-. right. split; auto. constructor.
    - destruct (call_pred accepts pred args w) as [[[]|e] w1] eqn:P.
      + destruct (f args w1) as [[a|e] w2] eqn:F.
        * destruct (IH _ _ _ E) as [(n & L & T)|[D G]].
          -- left. exists (S n). split; [lia|]. eapply t_turn; eauto.
          -- right. split; auto. eapply g_turn; eauto.
        * injection E as <- <-. left. exists 0. split; [lia|]. eapply t_body; eauto.
      + injection E as <- <-. left. exists 0. split; [lia|]. now apply t_stop.
      + injection E as <- <-. left. exists 0. split; [lia|]. now apply t_pred.
  Qed.
End Loop.

Lemma forever_inv : forall {W R} (f : code W R) fuel w r w', repeat_forever fuel f w = (r, w') ->
  (exists e n, r = Err e /\ n < fuel /\ turns (fun w => (Ok true, w)) f w n (Err e) w') \/ (r = Err Diverges /\ going (fun w => (Ok true, w)) f w fuel w').
Proof.
  intros W R f. induction fuel as [|fuel IH]; intros w r w' E; cbn [repeat_forever] in E.
  - injection E as <- <-. right. split; auto. constructor.
  - destruct (f w) as [[a|e] w1] eqn:F.
    + destruct (IH _ _ _ E) as [(e & n & -> & L & T)|[D G]].
      * left. exists e, (S n). split; auto. split; [lia|]. eapply t_turn; eauto.
      * right. split; auto. eapply g_turn; eauto.
    + injection E as <- <-. left. exists e, 0. split; auto. split; [lia|]. eapply t_body; eauto.
Qed.

Lemma loop_refuted : ~ (forall W A R (accepts : nat -> bool) (pred : option A -> code W bool) (f : list A -> code W R) args w n r w', accepts 0 = true ->
  accepts 1 = false -> turns (pred None) (f args) w n r w' -> exists fuel, loop_while fuel accepts pred f args w = (r, w')).
Proof.
  intros H. destruct (H nat nat unit (fun n => n =? 0) (fun _ w => (Ok false, w)) (fun _ w => (Ok tt, w)) [5] 0 0 (Ok tt) 0) as [fuel E]; auto.
  - now apply t_stop.
  - destruct fuel; cbn in E; discriminate.
Qed.

(** chaining *)
Lemma chain_ok : forall ret, (forall a k, ret = VTuple [a; k] -> exists l d, a = VTuple l /\ k = VDict d) -> chain_arguments ret = Ok (documented_arguments ret).
Proof.
  intros [d|l|n] H; auto. destruct l as [|a [|k [|x l]]]; auto.
  - cbn. destruct a; reflexivity.
  - destruct (H a k eq_refl) as (l & d & -> & ->). reflexivity.
  - cbn. destruct a; auto. destruct k; auto.
Qed.
Lemma chain_refuted : ~ (forall ret, chain_arguments ret = Ok (documented_arguments ret)).
Proof. intros H. specialize (H (VTuple [VOther 1; VOther 2])). discriminate. Qed.

Lemma callables_one : forall W A R (c1 : code W A) (c2 : option A -> W -> second R * W) w a w1 s w2, takes_one c2 -> c1 w = (Ok a, w1) -> c2 (Some a) w1 = (s, w2) -> s <> SecBareType ->
  chain_callables c1 c2 w = (second_res s, w2).
Proof. intros W A R c1 c2 w a w1 s w2 T E1 E2 N. unfold chain_callables. rewrite E1, E2. destruct s; auto; [|contradiction]. now rewrite T. Qed.
Lemma callables_refuted : ~ (forall W A R (c1 : code W A) (c2 : option A -> W -> second R * W) w a w1 s w2, takes_one c2 -> c1 w = (Ok a, w1) -> c2 (Some a) w1 = (s, w2) ->
  chain_callables c1 c2 w = (second_res s, w2)).
Proof.
  intros H. specialize (H nat nat nat (fun w => (Ok 1, w)) (fun o w => match o with Some _ => (SecBareType, w) | None => (SecType, w) end) 0 1 0 SecBareType 0).
  assert (E : (Err IndexError : res nat, 0) = (Err TypeError, 0)); [|discriminate]. apply H; auto. intros w. reflexivity.
Qed.
Lemma callables_none : forall W A R (c1 : code W A) (c2 : option A -> W -> second R * W) w a w1 s w2, takes_none c2 -> c1 w = (Ok a, w1) -> c2 None w1 = (s, w2) ->
  chain_callables c1 c2 w = (second_res s, w2).
Proof. intros W A R c1 c2 w a w1 s w2 T E1 E2. unfold chain_callables. now rewrite E1, T, E2. Qed.

(** managers *)
Lemma expect_ok : forall W A x else_raise (body : code W A) w, (forall cs, x <> AList cs) -> expect_exception (isinstance_of x) else_raise body w =
  match body w with
  | (Ok _, w1) => (Err else_raise, w1)
  | (Err e, w1) => (if is_expected x e then Ok None else Err e, w1)
  end.
Proof.
  intros W A x er body w N. unfold expect_exception. destruct (body w) as [[a|e] w1]; auto. destruct x as [c|cs|cs]; cbn.
  - destruct (c e); reflexivity.
  - destruct (existsb _ cs); reflexivity.
  - exfalso. eapply N; eauto.
Qed.

Lemma with_counts : forall W A (m : manager W) (body : code W A) w a b r w' a' b', with_ (counted m) (on_first body) (w, (a, b)) = (r, (w', (a', b'))) ->
  (r, w') = with_ m body w /\ a' = S a /\ (is_ok (fst (enter m w)) = true -> b' = S b) /\ (is_ok (fst (enter m w)) = false -> b' = b).
Proof.
  intros W A m body w a b r w' a' b' E. unfold with_, counted, on_first in *. cbn [enter exit fst snd] in *.
  destruct (enter m w) as [[u|e] w1]; cbn [fst snd is_ok] in *; [|injection E as <- <- <- <-; repeat split; auto; discriminate].
  destruct (body w1) as [[x|e] w2]; cbn [fst snd] in *.
  - destruct (exit m None w2) as [[v|e] w3]; cbn [fst snd] in *; injection E as <- <- <- <-; repeat split; auto; discriminate.
  - destruct (exit m (Some e) w2) as [[[]|e2] w3]; cbn [fst snd] in *; injection E as <- <- <- <-; repeat split; auto; discriminate.
Qed.

(** the iterator *)
Lemma q_inv : forall items l, let s := q_exec (q_init items) l in log s ++ q s = items ++ puts l /\ merge (yielded s) (others s) (log s) /\ (ended s = true -> past_check s = false).
Proof.
  intros items l. cbv zeta. induction l as [|e l IH] using rev_ind.
  - cbn. rewrite app_nil_r. repeat split; auto; constructor.
  - unfold q_exec in *. rewrite fold_left_app. cbn [fold_left]. set (s := fold_left q_step l (q_init items)) in *. destruct IH as (C & M & E).
    assert (P : puts (l ++ [e]) = puts l ++ puts [e]) by (unfold puts; now rewrite flat_map_app). rewrite P, app_assoc, <- C. clear P.
    destruct e as [x| | |]; cbn [q_step puts flat_map app].
    + cbn. rewrite app_assoc. auto.
    + destruct (q s) as [|x t] eqn:Q; cbn [q yielded others log past_check ended]; rewrite ?Q, ?app_nil_r; auto.
      rewrite <- app_assoc. cbn. repeat split; auto; constructor; auto.
    + rewrite app_nil_r. destruct (ended s || past_check s); auto. destruct (0 <? length (q s)); cbn; repeat split; auto; discriminate.
    + rewrite app_nil_r. destruct (past_check s) eqn:PC; [|rewrite PC; auto]. destruct (q s) as [|x t] eqn:Q; cbn.
      * repeat split; auto.
      * rewrite <- app_assoc. cbn. split; [reflexivity|split; [constructor; auto|auto]].
Qed.
Lemma q_alone : forall items l, (forall e, In e l -> e = QCheck \/ e = QGet) -> let s := q_exec (q_init items) l in yielded s ++ q s = items /\ (ended s = true -> yielded s = items).
Proof.
  intros items l. cbv zeta. 
  assert (G : (forall e, In e l -> e = QCheck \/ e = QGet) -> let s := q_exec (q_init items) l in yielded s ++ q s = items /\ (ended s = true -> q s = []) /\ (past_check s = true -> q s <> [] /\ ended s = false)).
  { cbv zeta. induction l as [|e l IH] using rev_ind; intros H.
    - cbn. repeat split; auto; discriminate.
    - unfold q_exec in *. rewrite fold_left_app. cbn [fold_left]. set (s := fold_left q_step l (q_init items)) in *.
      destruct IH as (C & E & P); [intros e' I; apply H; apply in_or_app; auto|].
      destruct (H e) as [-> | ->]; [apply in_or_app; right; now left| |]; cbn [q_step].
      + destruct (ended s || past_check s); auto. destruct (q s) as [|x t] eqn:Q; cbn [length Nat.ltb Nat.leb q yielded ended past_check].
        * repeat split; auto; discriminate.
        * rewrite ?Q. repeat split; auto; discriminate.
      + destruct (past_check s) eqn:PC; [|rewrite ?PC in *; auto]. destruct (q s) as [|x t] eqn:Q; cbn.
        * repeat split; auto; discriminate.
        * rewrite <- app_assoc. cbn. repeat split; auto; discriminate. }
  intros H. destruct (G H) as (C & E & _). split; auto. intros F. rewrite (E F), app_nil_r in C. exact C.
Qed.

Section Upd.
  Context {K V : Type} (eqb : K -> K -> bool) (ok : eqb_ok eqb).
  Lemma keys_ok : forall (items : dict K (option V)) d k, NoDup (dkeys items) ->
    dget eqb (update_keys_if_not_none eqb d items) k = match dget eqb items k with Some (Some v) => Some v | _ => dget eqb d k end.
  Proof.
    unfold update_keys_if_not_none. induction items as [|[k0 o] items IH]; intros d k ND; [reflexivity|].
    cbn [fold_left fst snd]. unfold dkeys in ND. cbn [map fst] in ND. inversion ND as [|? ? NI ND']; subst. rewrite IH by auto.
    change ((k0, o) :: items) with ([(k0, o)] ++ items). cbn [app dget].
    destruct (eqb_dec ok k k0) as [->|N].
    - assert (X : dget eqb items k0 = None) by (apply (dget_None ok); exact NI). rewrite X.
      assert (Y : eqb k0 k0 = true) by now apply ok. cbn [dget]. rewrite Y. destruct o as [v|]; cbn; [apply (dget_dset_eq ok)|reflexivity].
    - assert (Y : eqb k k0 = false) by (destruct (eqb k k0) eqn:Z; auto; apply ok in Z; contradiction).
      assert (Y' : eqb k0 k = false) by (destruct (eqb k0 k) eqn:Z; auto; apply ok in Z; congruence).
      cbn [dget]. rewrite ?Y, ?Y'. destruct (dget eqb items k) as [[v|]|]; auto; destruct o as [v'|]; cbn; auto; now rewrite (dget_dset_neq ok).
  Qed.
  Lemma contains_ok : forall {A} (eq : A -> bool) l, contains eq l = true <-> exists x, In x l /\ eq x = true.
  Proof. intros A eq l. induction l as [|x l IH]; cbn; [split; [discriminate|intros (x & [] & _)]|]. destruct (eq x) eqn:E.
    - split; auto. intros _. exists x. auto.
    - rewrite IH. split; intros (y & I & Y); exists y; auto. destruct I as [<-|I]; [congruence|auto].
  Qed.
  Lemma length_ok : forall {A} (l : list A), length_of None l = length l.
  Proof. intros A l. cbn. assert (G : forall n, fold_left (fun i (_ : A) => S i) l n = n + length l) by (induction l; intros n; cbn; [lia|rewrite IHl; lia]). rewrite G. reflexivity. Qed.
End Upd.
