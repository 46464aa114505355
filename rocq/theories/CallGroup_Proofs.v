From Verif Require Import Prelude PreludeFacts MoreFacts CallGroup_Model CallGroup_Spec.

Definition erase (l : list (nat * (nat * bool))) : list (nat * bool) := map (fun e => (fst e, snd (snd e))) l.
Definition keep (l : list (nat * (nat * bool))) : list (nat * (nat * bool)) := filter (fun e => negb (snd (snd e))) l.

Lemma erase_app : forall a b, erase (a ++ b) = erase a ++ erase b.
Proof. intros. unfold erase. apply map_app. Qed.
Lemma erase_fst : forall l, map fst (erase l) = map fst l.
Proof. intros. unfold erase. rewrite map_map. reflexivity. Qed.

Section P.
  Variables R A : Type.

  Record rel (g : group) (s : registry) : Prop := {
    rel_callables : callables g = erase (registered s);
    rel_gone : forall c, is_cancelled g c = gone s c;
    rel_funs : funs g = functions s;
    rel_fun : forall c fn os, In (c, (fn, os)) (registered s) -> fn = nth c (functions s) 0 /\ c < length (functions s);
    rel_nodup : NoDup (map fst (registered s)) }.

  Lemma dmem_erase : forall l c, dmem Nat.eqb (erase l) c = dmem Nat.eqb l c.
  Proof.
    induction l as [|[k [f o]] l IH]; intros c; [reflexivity|].
    unfold dmem in *. simpl. destruct (Nat.eqb k c); [reflexivity|apply IH].
  Qed.
  Lemma not_dmem : forall (l : list (nat * bool)) c, ~ In c (map fst l) -> dmem Nat.eqb l c = false.
  Proof.
    intros l c H. destruct (dmem Nat.eqb l c) eqn:E; [|reflexivity].
    apply (dmem_In nateqb_ok) in E. contradiction.
  Qed.

  Lemma fold_cancel : forall effects g, (forall e, In e effects -> exists c, e = ECancel c) ->
    let g' := fold_left apply_effect effects g in
    callables g' = callables g /\ funs g' = funs g /\
    forall x, is_cancelled g' x = memb Nat.eqb x (flat_map (fun e => match e with ECancel c => [c] | EAdd _ _ => [] end) effects)
                                  || is_cancelled g x.
  Proof.
    induction effects as [|e t IH]; intros g H; simpl.
    - repeat split; intros; reflexivity.
    - destruct (H e (or_introl eq_refl)) as [c Hc]. subst e. simpl.
      destruct (IH (cancel g c)) as [H1 [H2 H3]]; [intros; apply H; right; assumption|].
      repeat split; try assumption. intros x. rewrite H3.
      unfold is_cancelled at 1. simpl. unfold is_cancelled.
      destruct (Nat.eqb c x); simpl; rewrite ?orb_true_r; reflexivity.
  Qed.

  Lemma loop_ok : forall (w : world R) (swallow : bool) (args : A),
    (forall c e, In e (fst (w c)) -> exists c', e = ECancel c') ->
    (swallow = true \/ forall c, exists r, snd (w c) = Ok r) ->
    forall todo g gone acc res0 calls0,
    callables g = erase acc -> (forall x, is_cancelled g x = gone x) ->
    NoDup (map fst (acc ++ todo)) ->
    (forall c fn os, In (c, (fn, os)) todo -> fn = nth c (funs g) 0) ->
    exists g', call_loop swallow args w (erase todo) g res0 calls0 =
               (g', Ok (res0 ++ results (turns w gone todo)), calls0 ++ functions_called args (turns w gone todo)) /\
      callables g' = erase (acc ++ keep todo) /\ funs g' = funs g /\
      forall x, is_cancelled g' x = gone_after w gone todo x.
  Proof.
    intros w swallow args He Hs. induction todo as [|[c [fn os]] t IH]; intros g go acc res0 calls0 Hc Hg Hn Hf.
    - exists g. simpl. rewrite !app_nil_r. auto.
    - assert (Hread : forall g1, callables g1 = callables g ->
         callables (readd g1 c os) = erase (acc ++ keep [(c, (fn, os))]) /\ funs (readd g1 c os) = funs g1 /\
         forall x, is_cancelled (readd g1 c os) x = is_cancelled g1 x).
      { intros g1 H1. unfold readd, keep. destruct os; simpl.
        - rewrite app_nil_r. rewrite H1. auto.
        - unfold add_callback. rewrite H1, Hc. rewrite not_dmem.
          + simpl. rewrite erase_app. auto.
          + rewrite erase_fst. rewrite map_app in Hn. simpl in Hn. apply NoDup_remove_2 in Hn.
            intro Hi. apply Hn. apply in_or_app. left. assumption. }
      assert (Hn' : NoDup (map fst ((acc ++ keep [(c, (fn, os))]) ++ t))).
      { rewrite <- app_assoc. unfold keep. destruct os; simpl; [|assumption].
        rewrite map_app in *. simpl in Hn. apply NoDup_remove_1 in Hn. assumption. }
      assert (Hk : forall l, (acc ++ keep [(c, (fn, os))]) ++ keep l = acc ++ keep ((c, (fn, os)) :: l)).
      { intros l. unfold keep. simpl. rewrite <- app_assoc. destruct os; reflexivity. }
      simpl. rewrite Hg. destruct (go c) eqn:Ec.
      + destruct (Hread g eq_refl) as [R1 [R2 R3]].
        destruct (IH (readd g c os) go (acc ++ keep [(c, (fn, os))]) (res0 ++ [QNone]) calls0 R1) as [g' [G1 [G2 [G3 G4]]]].
        * intros x. rewrite R3. apply Hg.
        * assumption.
        * intros c1 fn1 os1 Hi. rewrite R2. apply (Hf c1 fn1 os1). right. assumption.
        * exists g'. rewrite G1. simpl. rewrite <- app_assoc. simpl.
          split; [reflexivity|]. split; [rewrite G2, Hk; reflexivity|]. split; [rewrite G3; assumption|assumption].
      + destruct (w c) as [effects r] eqn:Ew.
        pose proof (fold_cancel effects g) as Hfc.
        destruct Hfc as [F1 [F2 F3]]. { intros e Hi. apply (He c). rewrite Ew. assumption. }
        set (g1 := fold_left apply_effect effects g) in *.
        assert (Hfun : fun_of g c = fn). { unfold fun_of. symmetry. apply (Hf c fn os). left. reflexivity. }
        rewrite Hfun.
        destruct (Hread g1 F1) as [R1 [R2 R3]].
        assert (Hgo : forall x, is_cancelled (readd g1 c os) x = memb Nat.eqb x (cancels w c) || go x).
        { intros x. rewrite R3, F3, Hg. unfold cancels. rewrite Ew. reflexivity. }
        assert (Hf' : forall c1 fn1 os1, In (c1, (fn1, os1)) t -> fn1 = nth c1 (funs (readd g1 c os)) 0).
        { intros c1 fn1 os1 Hi. rewrite R2, F2. apply (Hf c1 fn1 os1). right. assumption. }
        destruct r as [x|e]; simpl.
        * destruct (IH (readd g1 c os) (fun x => memb Nat.eqb x (cancels w c) || go x) (acc ++ keep [(c, (fn, os))])
                       (res0 ++ [QValue x]) (calls0 ++ [(fn, args)]) R1 Hgo Hn' Hf') as [g' [G1 [G2 [G3 G4]]]].
          exists g'. rewrite G1. simpl. rewrite <- !app_assoc. simpl.
          split; [reflexivity|]. split; [rewrite G2, Hk; reflexivity|]. split; [rewrite G3, R2, F2; reflexivity|assumption].
        * assert (Hsw : swallow = true).
          { destruct Hs as [Hs|Hs]; [assumption|]. destruct (Hs c) as [r Hr]. rewrite Ew in Hr. discriminate. }
          rewrite Hsw in *.
          destruct (IH (readd g1 c os) (fun x => memb Nat.eqb x (cancels w c) || go x) (acc ++ keep [(c, (fn, os))])
                       (res0 ++ [QExn e]) (calls0 ++ [(fn, args)]) R1 Hgo Hn' Hf') as [g' [G1 [G2 [G3 G4]]]].
          exists g'. rewrite G1. simpl. rewrite <- !app_assoc. simpl.
          split; [reflexivity|]. split; [rewrite G2, Hk; reflexivity|]. split; [rewrite G3, R2, F2; reflexivity|assumption].
  Qed.

  Lemma filter_erase : forall (P : nat -> bool) l,
    filter (fun c => P (fst c)) (erase l) = erase (filter (fun e => P (fst e)) l).
  Proof.
    induction l as [|[c [f o]] l IH]; [reflexivity|]. simpl. rewrite IH. destruct (P c); reflexivity.
  Qed.
  Lemma existsb_erase : forall (P : nat -> bool) l,
    existsb (fun c => P (fst c)) (erase l) = existsb (fun e => P (fst e)) l.
  Proof. induction l as [|[c [f o]] l IH]; [reflexivity|]. simpl. rewrite IH. reflexivity. Qed.
  Lemma filter_eq : forall (T : Type) (P Q : T -> bool) l, (forall x, P x = Q x) -> filter P l = filter Q l.
  Proof. intros. induction l as [|x l IH]; [reflexivity|]. simpl. rewrite H, IH. reflexivity. Qed.
  Lemma NoDup_filter_fst : forall (P : nat * (nat * bool) -> bool) l, NoDup (map fst l) -> NoDup (map fst (filter P l)).
  Proof.
    induction l as [|x l IH]; intros H; [constructor|]. simpl in *. inversion H as [|? ? H1 H2]; subst.
    destruct (P x); simpl; [|auto]. constructor; [|auto].
    intro Hi. apply H1. apply in_map_iff in Hi. destruct Hi as [y [Hy Hi]]. apply filter_In in Hi. apply in_map_iff. exists y. tauto.
  Qed.

  Lemma remove_ok : forall g s, rel g s -> rel (remove_cancelled g) (mk_registry (live s) (gone s) (functions s)).
  Proof.
    intros g s [H1 H2 H3 H4 H5]. constructor; simpl; try assumption.
    - rewrite H1. rewrite (filter_erase (fun c => negb (is_cancelled g c))). unfold live. f_equal.
      apply filter_eq. intros x. rewrite H2. reflexivity.
    - intros c fn os Hi. apply filter_In in Hi. apply (H4 c fn os). tauto.
    - apply NoDup_filter_fst. assumption.
  Qed.
  Lemma has_ok : forall g s, rel g s -> has_cancelled_callbacks g = match live s with [] => false | _ => true end.
  Proof.
    intros g s [H1 H2 H3 H4 H5]. unfold has_cancelled_callbacks. rewrite H1.
    rewrite (existsb_erase (fun c => negb (is_cancelled g c))). unfold live. clear H1 H4 H5.
    induction (registered s) as [|x l IH]; [reflexivity|]. simpl. rewrite H2. destruct (gone s (fst x)); simpl; [assumption|reflexivity].
  Qed.

  Lemma call_ok : forall gather swallow (args : A) (w : world R) g s,
    rel g s -> proper_op swallow s (GCall args w) ->
    exists g', call gather swallow args w g =
      (g', Ok (if gather then Some (results (turns w (gone s) (live s))) else None),
       functions_called args (turns w (gone s) (live s))) /\
      rel g' (fst (spec_step gather s (GCall args w))).
  Proof.
    intros gather swallow args w g s Hr [Hl [He Hs]].
    unfold call. rewrite (has_ok _ _ Hr).
    set (g1 := if match live s with [] => false | _ => true end then remove_cancelled g else g).
    assert (Hr1 : rel g1 (mk_registry (live s) (gone s) (functions s))).
    { unfold g1. destruct (live s) as [|x l] eqn:El.
      - destruct Hl as [Hl|Hl]; [contradiction|]. destruct Hr as [H1 H2 H3 H4 H5]. rewrite Hl in *.
        constructor; simpl; assumption.
      - rewrite <- El. apply remove_ok. assumption. }
    clearbody g1. destruct Hr1 as [H1 H2 H3 H4 H5]. simpl in *.
    destruct (loop_ok w swallow args He Hs (live s) (set_callables g1 []) (gone s) [] [] [] eq_refl) as [g' [G1 [G2 [G3 G4]]]].
    - exact H2.
    - assumption.
    - intros c fn os Hi. simpl. rewrite H3. apply (H4 c fn os Hi).
    - rewrite H1, G1. exists g'. split; [reflexivity|].
      constructor; simpl.
      + assumption.
      + assumption.
      + rewrite G3. simpl. assumption.
      + intros c fn os Hi. apply filter_In in Hi. apply (H4 c fn os). tauto.
      + apply NoDup_filter_fst. assumption.
  Qed.

  Lemma snoc_rel : forall (l : list (nat * (nat * bool))) c fn (os : bool) n, (forall c' fn' os', In (c', (fn', os')) l -> fn' = nth c' n 0 /\ c' < length n) ->
    fn = nth c n 0 -> c < length n -> forall c' fn' os', In (c', (fn', os')) (l ++ [(c, (fn, os))]) -> fn' = nth c' n 0 /\ c' < length n.
  Proof.
    intros l c fn os n H E Hl c' fn' os' Hi. apply in_app_or in Hi. destruct Hi as [Hi|[Hi|[]]]; [apply (H _ _ _ Hi)|].
    inversion Hi. subst. auto.
  Qed.

  Lemma step_ok : forall gather swallow g s (o : group_op R A), rel g s -> proper_op swallow s o ->
    snd (group_step gather swallow g o) = snd (spec_step gather s o) /\
    rel (fst (group_step gather swallow g o)) (fst (spec_step gather s o)).
  Proof.
    intros gather swallow g s o Hr Hp. destruct o as [fn os|c os|c|args w| |]; simpl in Hp.
    - destruct Hr as [H1 H2 H3 H4 H5]. simpl. rewrite H3. split; [reflexivity|].
      assert (Hni : ~ In (length (functions s)) (map fst (registered s))).
      { intro Hi. apply in_map_iff in Hi. destruct Hi as [[c [f o]] [Hc Hi]]. apply H4 in Hi. simpl in Hc. lia. }
      unfold add_callback. cbn [callables]. rewrite not_dmem by (rewrite H1, erase_fst; assumption).
      constructor; simpl.
      + rewrite H1, erase_app. reflexivity.
      + assumption.
      + reflexivity.
      + apply snoc_rel.
        * intros c' fn' os' Hi. destruct (H4 _ _ _ Hi). rewrite app_length. split; [rewrite app_nth1; assumption|lia].
        * rewrite nth_middle. reflexivity.
        * rewrite app_length. simpl. lia.
      + rewrite map_app. simpl. apply NoDup_app_intro; [assumption|constructor; [intros []|constructor]|].
        intros x Hx [Hy|[]]. subst. contradiction.
    - simpl. split; [reflexivity|]. destruct Hr as [H1 H2 H3 H4 H5]. unfold add_callback. rewrite H1, dmem_erase.
      destruct (dmem Nat.eqb (registered s) c) eqn:E.
      + constructor; assumption.
      + constructor; simpl; try assumption.
        * rewrite erase_app. reflexivity.
        * apply snoc_rel; try assumption; reflexivity.
        * rewrite map_app. simpl. apply NoDup_app_intro; [assumption|constructor; [intros []|constructor]|].
          intros x Hx [Hy|[]]. subst. apply (dmem_In nateqb_ok) in Hx. congruence.
    - simpl. split; [reflexivity|]. destruct Hr as [H1 H2 H3 H4 H5]. constructor; simpl; try assumption.
      intros x. unfold is_cancelled. simpl. rewrite Nat.eqb_sym. fold (is_cancelled g x). rewrite H2.
      destruct (Nat.eqb c x); reflexivity.
    - destruct (call_ok gather swallow args w g s Hr Hp) as [g' [E Hr']].
      unfold group_step. rewrite E. split; [reflexivity|exact Hr'].
    - destruct Hp.
    - simpl. split; [reflexivity|]. apply remove_ok. assumption.
  Qed.

  Lemma run_ok : forall gather swallow (ops : list (group_op R A)) g s, rel g s -> proper gather swallow s ops ->
    fst (group_run gather swallow g ops) = spec_run gather s ops.
  Proof.
    intros gather swallow. induction ops as [|o t IH]; intros g s Hr Hp; [reflexivity|].
    simpl in Hp. destruct Hp as [Hp Ht]. destruct (step_ok gather swallow g s o Hr Hp) as [E Hr'].
    cbn [group_run spec_run].
    destruct (group_step gather swallow g o) as [g' out]. destruct (spec_step gather s o) as [s' out'].
    simpl in *. subst out'. specialize (IH g' s' Hr' Ht). destruct (group_run gather swallow g' t). simpl in *. rewrite IH. reflexivity.
  Qed.

  Lemma new_rel : rel new_group (new_registry).
  Proof. constructor; simpl; try reflexivity; [intros ? ? ? []|constructor]. Qed.

  (** An exception that is not swallowed: what precedes is as usual, what follows is lost. *)
  Lemma loop_raises : forall (w : world R) (args : A) e pre c os post g acc res0 calls0,
    (forall c, fst (w c) = []) ->
    (forall x b, In (x, b) pre -> exists r, snd (w x) = Ok r) -> snd (w c) = Err e ->
    (forall x b, In (x, b) (pre ++ [(c, os)]) -> is_cancelled g x = false) ->
    NoDup (map fst (acc ++ pre ++ (c, os) :: post)) ->
    callables g = acc ->
    exists g', call_loop false args w (pre ++ (c, os) :: post) g res0 calls0 =
                 (g', Err e, calls0 ++ map (fun x => (fun_of g (fst x), args)) (pre ++ [(c, os)])) /\
      callables g' = acc ++ filter (fun x => negb (snd x)) pre /\ cancelled g' = cancelled g /\ funs g' = funs g.
  Proof.
    intros w args e. induction pre as [|[x b] pre IH]; intros c os post g acc res0 calls0 He Ho Hr Hl Hn Hc.
    - exists g. simpl. rewrite (Hl c os) by (left; reflexivity).
      destruct (w c) as [effects r] eqn:Ew. simpl in Hr. subst r. pose proof (He c) as Hec. rewrite Ew in Hec. simpl in Hec. subst effects.
      simpl. rewrite app_nil_r. auto.
    - simpl. rewrite (Hl x b) by (left; reflexivity).
      destruct (w x) as [effects r] eqn:Ew. pose proof (He x) as Hex. rewrite Ew in Hex. simpl in Hex. subst effects.
      destruct (Ho x b) as [r' Hr']; [left; reflexivity|]. rewrite Ew in Hr'. simpl in Hr'. subst r. simpl.
      assert (Hread : callables (readd g x b) = acc ++ filter (fun x => negb (snd x)) [(x, b)] /\
                      cancelled (readd g x b) = cancelled g /\ funs (readd g x b) = funs g).
      { unfold readd. destruct b; simpl; [rewrite app_nil_r; auto|]. unfold add_callback. rewrite Hc, not_dmem; [simpl; auto|].
        rewrite map_app in Hn. simpl in Hn. apply NoDup_remove_2 in Hn. intro Hi. apply Hn. apply in_or_app. left. assumption. }
      destruct Hread as [R1 [R2 R3]].
      destruct (IH c os post (readd g x b) (acc ++ filter (fun x => negb (snd x)) [(x, b)]) (res0 ++ [QValue r']) (calls0 ++ [(fun_of g x, args)]))
        as [g' [G1 [G2 [G3 G4]]]]; try assumption.
      + intros y b' Hi. apply (Ho y b'). right. assumption.
      + intros y b' Hi. unfold is_cancelled. rewrite R2. apply (Hl y b'). right. assumption.
      + rewrite <- app_assoc. destruct b; simpl in *; [|assumption]. rewrite map_app in *. simpl in Hn. apply NoDup_remove_1 in Hn. assumption.
      + exists g'. rewrite G1. unfold fun_of. rewrite R3, <- app_assoc. split; [reflexivity|].
        split; [|split; congruence]. rewrite G2, <- app_assoc. simpl. destruct b; reflexivity.
  Qed.
End P.

(** CallNoOftenThan *)
Lemma no_often_apart : forall calls n,
  let l := times_called calls (no_often_run n calls) in
  apart (interval n) l /\ match l with c :: _ => (last_called n + interval n <= fst c)%Z | [] => True end.
Proof.
  induction calls as [|[b a] t IH]; intros n; [simpl; auto|].
  cbn [no_often_run]. unfold no_often_call. destruct (interval n <=? b - last_called n)%Z eqn:E.
  - apply Z.leb_le in E. specialize (IH (mk_no_often (interval n) a)). cbn zeta in IH.
    cbn [times_called]. cbn [interval last_called] in IH. destruct IH as [I1 I2].
    destruct (times_called t (no_often_run (mk_no_often (interval n) a) t)) as [|c l] eqn:El.
    + split; [exact I|]. simpl. lia.
    + split; [split; [exact I2|exact I1]|]. simpl. lia.
  - apply (IH n).
Qed.
Lemma no_often_due : forall calls n b a t, calls = (b, a) :: t -> (last_called n + interval n <= b)%Z ->
  exists r, no_often_run n calls = true :: r.
Proof.
  intros. subst. cbn [no_often_run]. unfold no_often_call.
  assert (E : (interval n <=? b - last_called n)%Z = true) by (apply Z.leb_le; lia). rewrite E. eexists. reflexivity.
Qed.

Lemma turns_quiet : forall R (w : world R) gone todo, (forall c, fst (w c) = []) ->
  (forall c x, In (c, x) todo -> gone c = false) ->
  turns w gone todo = map (fun e => (fst (snd e), Some (snd (w (fst e))))) todo.
Proof.
  intros R w go todo Hq. revert go. induction todo as [|[c [fn os]] t IH]; intros go H; [reflexivity|].
  simpl. rewrite (H c (fn, os)) by (left; reflexivity). f_equal. apply IH.
  intros c' x Hi. unfold cancels. rewrite Hq. simpl. apply (H c' x). right. assumption.
Qed.
Lemma quiet_call : forall R A gather swallow (ops : list (group_op R A)) (args : A) (w : world R),
  proper gather swallow new_registry (ops ++ [GCall args w]) -> (forall c, fst (w c) = []) ->
  let s := fold_left (fun s o => fst (spec_step gather s o)) ops new_registry in
  snd (group_step gather swallow (snd (group_run gather swallow new_group ops)) (GCall args w)) =
  OCalled (Ok (if gather then Some (map (fun e => match snd (w (fst e)) with Ok r => QValue r | Err x => QExn x end) (live s)) else None))
          (map (fun e => (fst (snd e), args)) (live s)).
Proof.
  intros R A gather swallow ops args w Hp Hq.
  assert (H : forall g s, rel g s -> proper gather swallow s (ops ++ [GCall args w]) ->
     let s' := fold_left (fun s o => fst (spec_step gather s o)) ops s in
     rel (snd (group_run gather swallow g ops)) s' /\ proper_op swallow s' (GCall args w)).
  { clear Hp. induction ops as [|o t IH]; intros g s Hr Hp.
    - simpl in *. tauto.
    - cbn [app proper] in Hp. destruct Hp as [Ho Ht]. destruct (step_ok R A gather swallow g s o Hr Ho) as [_ Hr'].
      specialize (IH _ _ Hr' Ht). cbn [group_run fold_left].
      destruct (group_step gather swallow g o) as [g' out]. cbn [fst] in IH.
      destruct (group_run gather swallow g' t). exact IH. }
  destruct (H _ _ new_rel Hp) as [Hr Ho]. cbn zeta. clear H Hp.
  set (s := fold_left _ ops _) in *. clearbody s.
  destruct (step_ok R A gather swallow _ s _ Hr Ho) as [E _]. rewrite E. cbn [spec_step snd].
  rewrite turns_quiet; [|assumption|].
  - unfold results, functions_called. rewrite map_map. f_equal.
    rewrite flat_map_concat_map, map_map. simpl. clear. induction (live s) as [|x l IH]; [reflexivity|]. simpl. rewrite IH. reflexivity.
  - intros c x Hi. apply filter_In in Hi. destruct Hi as [_ Hi]. simpl in Hi. destruct (gone s c); [discriminate|reflexivity].
Qed.
Lemma group_raises : forall R A gather (args : A) (w : world R) g e pre c os post,
  NoDup (map fst (callables g)) -> (forall c, fst (w c) = []) ->
  filter (fun x => negb (is_cancelled g (fst x))) (callables g) = pre ++ (c, os) :: post ->
  (forall x b, In (x, b) pre -> exists r, snd (w x) = Ok r) -> snd (w c) = Err e ->
  exists g', call gather false args w g = (g', Err e, map (fun x => (fun_of g (fst x), args)) (pre ++ [(c, os)])) /\
    callables g' = filter (fun x => negb (snd x)) pre.
Proof.
  intros R A gather args w g e pre c os post Hn Hq Hl Ho Hr.
  assert (Hh : has_cancelled_callbacks g = true).
  { unfold has_cancelled_callbacks. apply existsb_exists.
    assert (Hi : In (c, os) (filter (fun x => negb (is_cancelled g (fst x))) (callables g)))
      by (rewrite Hl; apply in_or_app; right; left; reflexivity).
    apply filter_In in Hi. exists (c, os). exact Hi. }
  unfold call. rewrite Hh. unfold remove_cancelled. cbn [callables set_callables]. rewrite Hl.
  assert (Hn' : NoDup (map fst (pre ++ (c, os) :: post))).
  { rewrite <- Hl. clear - Hn. induction (callables g) as [|x l IH]; [constructor|]. simpl in *. inversion Hn as [|? ? H1 H2]; subst.
    destruct (negb (is_cancelled g (fst x))); simpl; [|auto]. constructor; [|auto].
    intro Hi. apply H1. apply in_map_iff in Hi. destruct Hi as [y [Hy Hi]]. apply filter_In in Hi. apply in_map_iff. exists y. tauto. }
  destruct (loop_raises R A w args e pre c os post (set_callables (set_callables g (pre ++ (c, os) :: post)) []) [] [] [] Hq Ho Hr) as [g' [G1 [G2 [G3 G4]]]].
  - intros x b Hi. assert (Hi' : In (x, b) (filter (fun x => negb (is_cancelled g (fst x))) (callables g))).
    { rewrite Hl. apply in_app_or in Hi. apply in_or_app. destruct Hi as [Hi|[Hi|[]]]; [left; assumption|right; left; assumption]. }
    apply filter_In in Hi'. destruct Hi' as [_ Hi']. simpl in Hi'. unfold is_cancelled in *. simpl. destruct (memb Nat.eqb x (cancelled g)); [discriminate|reflexivity].
  - exact Hn'.
  - reflexivity.
  - rewrite G1. exists g'. split; [reflexivity|assumption].
Qed.
