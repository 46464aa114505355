From Verif Require Import Prelude PreludeFacts MetrWrap_Model MetrWrap_Spec.
From Coq Require Import Lia.
Set Implicit Arguments.

Section Simple.
  Variables Lab Raw V : Type.
  Variable leqb : Lab -> Lab -> bool.
  Hypothesis ok : eqb_ok leqb.
  Variable constructor : Raw -> res V.
  Variable default : V.
  Notation run := (simple_run leqb constructor default).
  Lemma run_snoc h o : run (h ++ [o]) = fst (simple_handle leqb constructor default (run h) o).
  Proof. unfold simple_run. rewrite fold_left_app. reflexivity. Qed.
  Definition labelled (h : list (Raw * option Lab)) (l : Lab) : Prop := exists r, In (r, Some l) h.
  Record sinv (h : list (Raw * option Lab)) (s : simple Lab V) : Prop := {
    i_on : s_enabled s = true <-> exists l, labelled h l;
    i_data : s_enabled s = false -> last_value constructor default None h (s_data s);
    i_nodup : NoDup (dkeys (s_kids s));
    i_keys : forall l, In l (dkeys (s_kids s)) <-> labelled h l;
    i_kids : forall l v, dget leqb (s_kids s) l = Some v -> last_value constructor default (Some l) h v }.
  Lemma unlabelled_last h l : ~ labelled h l -> last_value constructor default (Some l) h default.
  Proof.
    induction h as [|[r l'] t IH] using rev_ind; intros H; [constructor|].
    apply lv_other.
    - intros ->. apply H. exists r. apply in_app_iff. right. left. reflexivity.
    - apply IH. intros [r' H']. apply H. exists r'. apply in_app_iff. auto.
  Qed.
  Lemma labelled_snoc h r o l : labelled (h ++ [(r, o)]) l <-> labelled h l \/ o = Some l.
  Proof.
    unfold labelled. split.
    - intros [r' H]. apply in_app_iff in H as [H|[H|[]]]; [eauto|]. injection H as <- ->. auto.
    - intros [[r' H]| ->]; [exists r'|exists r]; apply in_app_iff; [auto|right; left; reflexivity].
  Qed.
  Lemma kid_value h s l : sinv h s -> last_value constructor default (Some l) h (match dget leqb (s_kids s) l with Some d => d | None => default end).
  Proof.
    intros I. destruct (dget leqb (s_kids s) l) eqn:E; [exact (i_kids I _ E)|]. apply unlabelled_last. intros H. apply (i_keys I) in H.
    apply (dget_None ok) in E. contradiction.
  Qed.
  Lemma sinv_run h : sinv h (run h).
  Proof.
    induction h as [|[r [l|]] t I] using rev_ind.
    - constructor; simpl; try (intros; discriminate); try constructor; try discriminate; try (intros [? [? []]]).
      + intros []. + intros [? []].
    - rewrite run_snoc.
      assert (G : forall v, last_value constructor default (Some l) (t ++ [(r, Some l)]) v ->
        sinv (t ++ [(r, Some l)]) {| s_data := s_data (run t); s_enabled := true; s_kids := dset leqb (s_kids (run t)) l v |}).
      { intros v Hv. constructor; simpl.
        - split; [intros _; exists l; apply labelled_snoc; auto|auto].
        - discriminate.
        - apply (dset_wf ok). exact (i_nodup I).
        - intros l'. rewrite (dset_In_keys ok), labelled_snoc, (i_keys I). split; intros [H|H]; auto; [right; congruence|left; congruence].
        - intros l' v'. destruct (leqb l l') eqn:E.
          + apply ok in E. subst l'. rewrite (dget_dset_eq ok). intros [= <-]. exact Hv.
          + assert (Hn : l <> l') by (intros ->; rewrite (proj2 (ok l' l') eq_refl) in E; discriminate).
            rewrite (dget_dset_neq ok) by auto. intros H. apply lv_other; [congruence|]. exact (i_kids I _ H). }
      simpl. destruct (constructor r) as [v|e] eqn:Ec; simpl; apply G; [apply lv_here; exact Ec|]. eapply lv_bad; [exact Ec|]. apply kid_value. exact I.
    - rewrite run_snoc. simpl. destruct (s_enabled (run t)) eqn:Ee; simpl.
      + constructor.
        * rewrite Ee. split; [intros _|auto]. destruct (proj1 (i_on I) Ee) as [l Hl]. exists l. apply labelled_snoc. auto.
        * congruence.
        * exact (i_nodup I).
        * intros l. rewrite labelled_snoc, (i_keys I). split; [auto|intros [H|H]; [auto|discriminate]].
        * intros l v H. apply lv_other; [discriminate|exact (i_kids I _ H)].
      + assert (G : forall d, last_value constructor default None (t ++ [(r, None)]) d -> sinv (t ++ [(r, None)]) {| s_data := d; s_enabled := false; s_kids := s_kids (run t) |}).
        { intros d Hd. constructor; simpl.
          - split; [discriminate|]. intros [l Hl]. apply labelled_snoc in Hl as [Hl|Hl]; [|discriminate]. rewrite <- Ee. apply (i_on I). eauto.
          - auto.
          - exact (i_nodup I).
          - intros l. rewrite labelled_snoc, (i_keys I). split; [auto|intros [H|H]; [auto|discriminate]].
          - intros l v H. apply lv_other; [discriminate|exact (i_kids I _ H)]. }
        destruct (constructor r) as [v|e] eqn:Ec; simpl.
        * apply G. apply lv_here. exact Ec.
        * specialize (G (s_data (run t))). rewrite <- Ee in G. destruct (run t). apply G. eapply lv_bad; [exact Ec|]. exact (i_data I Ee).
  Qed.
End Simple.

Section Callable.
  Variables K W V : Type.
  Variable keqb : K -> K -> bool.
  Variable weqb : W -> W -> bool.
  Hypothesis kok : eqb_ok keqb.
  Hypothesis wok : eqb_ok weqb.
  Lemma sub_spec (a b : dict K W) : NoDup (dkeys a) ->
    forallb (fun e => match dget keqb b (fst e) with Some w => weqb w (snd e) | None => false end) a = true <->
    forall k w, dget keqb a k = Some w -> dget keqb b k = Some w.
  Proof.
    intros Hn. rewrite forallb_forall. split.
    - intros H k w Hk. apply (dget_In kok) in Hk. specialize (H _ Hk). simpl in H. destruct (dget keqb b k) as [w'|]; [|discriminate]. apply wok in H. congruence.
    - intros H [k w] Hi. simpl. rewrite (H k w); [apply wok; reflexivity|]. apply (In_dget kok); assumption.
  Qed.
  Lemma same_spec (a b : dict K W) : NoDup (dkeys a) -> NoDup (dkeys b) ->
    same_labels keqb weqb a b = true <-> forall k, dget keqb a k = dget keqb b k.
  Proof.
    intros Ha Hb. unfold same_labels. rewrite andb_true_iff, !sub_spec by assumption. split.
    - intros [H1 H2] k. destruct (dget keqb a k) as [w|] eqn:E; [symmetry; apply H1; exact E|].
      destruct (dget keqb b k) as [w|] eqn:E'; [|reflexivity]. apply H2 in E'. congruence.
    - intros H. split; intros k w; rewrite H; auto.
  Qed.
  Lemma update_NoDup b : forall a : dict K W, NoDup (dkeys a) -> NoDup (dkeys (update keqb a b)).
  Proof. induction b as [|[k w] t IH]; intros a H; simpl; [exact H|]. apply IH. apply (dset_wf kok). exact H. Qed.
  Lemma update_get b : forall (a : dict K W) k, NoDup (dkeys b) ->
    dget keqb (update keqb a b) k = match dget keqb b k with Some w => Some w | None => dget keqb a k end.
  Proof.
    induction b as [|[k0 w0] t IH]; intros a k H; simpl; [reflexivity|]. inversion H; subst. fold (update keqb (dset keqb a k0 w0) t). rewrite IH by assumption.
    destruct (keqb k0 k) eqn:E.
    - apply kok in E. subst k. destruct (dget keqb t k0) eqn:E'; [|apply (dget_dset_eq kok)].
      exfalso. apply (dget_In kok) in E'. apply (in_map fst) in E'. contradiction.
    - destruct (dget keqb t k); [reflexivity|]. apply (dget_dset_neq kok). intros ->. rewrite (proj2 (kok _ _) eq_refl) in E. discriminate.
  Qed.
  Definition adds (l : list (dict K W * V)) : list (dict K W * V) := fold_left (fun c e => add_datum keqb weqb c (fst e) (snd e)) l [].
  Lemma adds_In l : forall e, In e (adds l) <-> exists l1 l2, l = l1 ++ e :: l2 /\ Forall (fun e' => same_labels keqb weqb (fst e) (fst e') = false) l2.
  Proof.
    induction l as [|x t IH] using rev_ind; intros e.
    - split; [intros []|]. intros (l1 & l2 & E & _). destruct l1; discriminate.
    - unfold adds. rewrite fold_left_app. simpl. unfold add_datum. rewrite in_app_iff, filter_In, IH. split.
      + intros [[(l1 & l2 & -> & F) H]|[H|[]]].
        * exists l1, (l2 ++ [x]). rewrite <- app_assoc. split; [reflexivity|]. apply Forall_app. split; [exact F|]. constructor; [|constructor].
          destruct (same_labels keqb weqb (fst e) (fst x)); [discriminate|reflexivity].
        * exists t, []. destruct x. simpl in H. subst e. split; [reflexivity|constructor].
      + intros (l1 & l2 & E & F). destruct l2 as [|y l2 _] using rev_ind.
        * apply app_inj_tail in E as [-> ->]. right. left. destruct e. reflexivity.
        * rewrite app_comm_cons, app_assoc in E. apply app_inj_tail in E as [-> ->]. apply Forall_app in F as [F Fy]. left. split; [eauto|].
          inversion Fy as [|? ? Hy _]. rewrite Hy. reflexivity.
  Qed.
  Lemma adds_apart l : ForallOrdPairs (fun a b => same_labels keqb weqb (fst a) (fst b) = false) (adds l).
  Proof.
    induction l as [|x t IH] using rev_ind; [constructor|]. unfold adds. rewrite fold_left_app. simpl. unfold add_datum. fold (adds t).
    assert (G : forall c, ForallOrdPairs (fun a b : dict K W * V => same_labels keqb weqb (fst a) (fst b) = false) c ->
      ForallOrdPairs (fun a b => same_labels keqb weqb (fst a) (fst b) = false) (filter (fun e => negb (same_labels keqb weqb (fst e) (fst x))) c ++ [(fst x, snd x)])).
    { induction c as [|y c IHc]; intros H; simpl; [constructor; constructor|]. inversion H as [|? ? Hy Hc]; subst.
      destruct (same_labels keqb weqb (fst y) (fst x)) eqn:E; simpl; [apply IHc; exact Hc|]. constructor; [|apply IHc; exact Hc].
      apply Forall_app. split; [|constructor; [exact E|constructor]]. rewrite Forall_forall in *. intros z Hz. apply filter_In in Hz as [Hz _]. auto. }
    apply G. exact IH.
  Qed.
End Callable.

Section Wrap.
  Variables K W A S : Type.
  Variable keqb : K -> K -> bool.
  Hypothesis kok : eqb_ok keqb.
  Section Ind.
    Variable P : metric K W -> Prop.
    Hypothesis P1 : forall i, P (Proper _ _ i).
    Hypothesis P2 : forall m l, P m -> P (Labeled m l).
    Hypothesis P3 : forall ms, Forall P ms -> P (Aggregate ms).
    Fixpoint metric_ind' (m : metric K W) : P m :=
      match m with
      | Proper _ _ i => P1 i
      | Labeled m l => P2 l (metric_ind' m)
      | Aggregate ms => P3 ((fix go ms : Forall P ms := match ms with [] => Forall_nil _ | m :: t => Forall_cons m (metric_ind' m) (go t) end) ms)
      end.
  End Ind.
  Variable proper : S -> nat -> A -> dict K W -> S * option exn.
  Lemma turn_app args kwargs l1 l2 s s' r : in_turn keqb proper args kwargs l1 s (s', None) -> in_turn keqb proper args kwargs l2 s' r -> in_turn keqb proper args kwargs (l1 ++ l2) s r.
  Proof.
    remember (s', None) as x eqn:E. intros H. revert s' E. induction H as [s|i sets t s labels s1 e L Hp|i sets t s labels s1 r1 L Hp Ht IH]; intros s' E H2; simpl.
    - injection E as ->. exact H2.
    - discriminate.
    - eapply it_next; eauto.
  Qed.
  Lemma turn_fail args kwargs l1 l2 s s' e : in_turn keqb proper args kwargs l1 s (s', Some e) -> in_turn keqb proper args kwargs (l1 ++ l2) s (s', Some e).
  Proof.
    remember (s', Some e) as x eqn:E. intros H. revert E. induction H as [s|i sets t s labels s1 e1 L Hp|i sets t s labels s1 r1 L Hp Ht IH]; intros E; simpl.
    - discriminate.
    - injection E as -> ->. eapply it_fail; eauto.
    - eapply it_next; eauto.
  Qed.
  Lemma handle_turn m : forall outer kw args kwargs s, proper_labels m -> (forall k, dget keqb kw k = label_of keqb outer kwargs k) ->
    in_turn keqb proper args kwargs (targets m outer) s (handle keqb proper m s args kw).
  Proof.
    induction m as [i|m l IH|ms IH] using metric_ind'; intros outer kw args kwargs s Hp Hk.
    - simpl. destruct (proper s i args kw) as [s' [e|]] eqn:E; [eapply it_fail; eauto|eapply it_next; eauto; constructor].
    - simpl. destruct Hp as [Hn Hp]. apply IH; [exact Hp|]. intros k. simpl. rewrite (update_get kok) by exact Hn. destruct (dget keqb l k); auto.
    - simpl. revert s. induction ms as [|m t IHt]; intros s; simpl; [constructor|]. destruct Hp as [Hm Ht].
      pose proof (Forall_inv IH outer kw args kwargs s Hm Hk) as H. destruct (handle keqb proper m s args kw) as [s' [e|]].
      + apply turn_fail. exact H.
      + eapply turn_app; [exact H|]. apply IHt; [exact (Forall_inv_tail IH)|exact Ht].
  Qed.
End Wrap.

Lemma each_loop S (op : nat -> S -> S * option exn) has l : (forall x, In x l -> has x = true) -> forall s acc, exists s' r,
  loop op l s s' r /\ each op has l s acc = (s', match r with None => Ok (acc ++ l) | Some e => Err e end).
Proof.
  induction l as [|x t IH]; intros H s acc; simpl.
  - exists s, None. rewrite app_nil_r. split; [constructor|reflexivity].
  - rewrite (H x) by (left; reflexivity). simpl. destruct (op x s) as [s1 [e|]] eqn:E.
    + exists s1, (Some e). split; [apply loop_fail; exact E|reflexivity].
    + destruct (IH (fun y Hy => H y (or_intror Hy)) s1 (acc ++ [x])) as (s' & r & L & Er). exists s', r. split; [eapply loop_next; eauto|].
      rewrite Er, <- app_assoc. reflexivity.
Qed.
