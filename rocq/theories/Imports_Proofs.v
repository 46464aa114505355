From Coq Require Import String.
From Verif Require Import Prelude PreludeFacts MoreFacts Schema_Proofs Imports_Model Imports_Spec.
Set Implicit Arguments.
Open Scope list_scope.

Section TreeInd.
  Variable P : tree -> Prop.
  Hypothesis Pmod : forall a d, P (Mod a d).
  Hypothesis Ppkg : forall a d inside, Forall (fun c => P (snd c)) inside -> P (Pkg a d inside).
  Fixpoint tree_ind' (t : tree) : P t :=
    match t with
    | Mod a d => Pmod a d
    | Pkg a d inside => Ppkg a d ((fix go (l : list (string * tree)) : Forall (fun c => P (snd c)) l :=
        match l with [] => Forall_nil _ | c :: r => Forall_cons c (tree_ind' (snd c)) (go r) end) inside)
    end.
End TreeInd.

Lemma dget_snoc (l : list (string * value)) k v x :
  dget String.eqb (l ++ [(k, v)]) x = match dget String.eqb l x with Some w => Some w | None => if String.eqb k x then Some v else None end.
Proof. induction l as [|[k' v'] t IH]; simpl; [reflexivity|]. destruct (String.eqb k' x); [reflexivity|exact IH]. Qed.
Lemma merged_nil s : merged s [] s.
Proof. split; [reflexivity|]. exists []. rewrite app_nil_r. split; [reflexivity|]. split; [constructor|]. simpl. tauto. Qed.
Lemma merged_one s x v : merged s [(x, v)] (dset String.eqb (fst s) x v, note x (snd s)).
Proof.
  split.
  - intros y. simpl. destruct (String.eqb_spec x y) as [->|n]; [apply (dget_dset_eq streqb_ok)|]. apply (dget_dset_neq streqb_ok). auto.
  - simpl. unfold note. destruct (memb String.eqb x (snd s)) eqn:E.
    + exists []. rewrite app_nil_r. split; [reflexivity|]. split; [constructor|]. intros y. simpl. apply (memb_In streqb_ok) in E.
      split; [tauto|]. intros [[<-|[]] H]. contradiction.
    + exists [x]. split; [reflexivity|]. split; [repeat constructor; auto|]. intros y. simpl. apply (memb_false streqb_ok) in E.
      split; [intros [<-|[]]; auto|tauto].
Qed.
Lemma dget_app (l1 l2 : list (string * value)) x :
  dget String.eqb (l1 ++ l2) x = match dget String.eqb l1 x with Some w => Some w | None => dget String.eqb l2 x end.
Proof. induction l1 as [|[k' v'] t IH]; simpl; [reflexivity|]. destruct (String.eqb k' x); [reflexivity|exact IH]. Qed.
Lemma merged_app s l1 s1 l2 s2 : merged s l1 s1 -> merged s1 l2 s2 -> merged s (l1 ++ l2) s2.
Proof.
  intros [D1 (n1 & E1 & N1 & I1)] [D2 (n2 & E2 & N2 & I2)]. split.
  - intros x. rewrite D2, D1, rev_app_distr, dget_app. destruct (dget String.eqb (rev l2) x); reflexivity.
  - exists (n1 ++ n2). rewrite E2, E1, app_assoc. split; [reflexivity|]. split.
    + apply NoDup_app_intro; auto. intros x H1 H2. apply I2 in H2. rewrite E1 in H2. destruct H2 as [_ H2]. apply H2, in_app_iff. auto.
    + intros x. rewrite in_app_iff, I1, I2, E1, map_app, !in_app_iff.
      destruct (in_dec string_dec x n1) as [H|H]; [apply I1 in H as H'; tauto|]. rewrite I1 in H.
      destruct (in_dec string_dec x (snd s)); destruct (in_dec string_dec x (map fst l1)); rewrite ?I1; tauto.
Qed.

Lemma private_prefix x : private x = String.prefix "_" x.
Proof. destruct x as [|[[] [] [] [] [] [] [] []] x]; try reflexivity; destruct x; reflexivity. Qed.
Lemma public_eq b x : public b x = negb (private x && b).
Proof. unfold public. now rewrite private_prefix. Qed.
Section Facts.
  Variables recursive fail_on create_all skip_s skip_a : bool.
  Notation top0 := (fun _ : string => @nil string).
  Notation imp := (import_from recursive fail_on create_all skip_s skip_a top0).

  Lemma take_ok d l s : (fail_on = true -> forall x, In x l -> public skip_s x = true -> dget String.eqb d x <> None) ->
    exists s', take fail_on skip_s d l s = (s', None) /\
      merged s (flat_map (fun x => match dget String.eqb d x with Some v => [(x, v)] | None => [] end) (filter (public skip_s) l)) s'.
  Proof.
    revert s. induction l as [|x t IH]; intros s H; simpl; [exists s; split; [reflexivity|apply merged_nil]|].
    assert (H' : fail_on = true -> forall x, In x t -> public skip_s x = true -> dget String.eqb d x <> None) by (intros F y Hy; apply (H F); right; exact Hy).
    rewrite public_eq. destruct (private x && skip_s) eqn:Ep; simpl; [apply IH; exact H'|].
    destruct (dget String.eqb d x) as [v|] eqn:Ed.
    - destruct (IH (dset String.eqb (fst s) x v, note x (snd s)) H') as (s' & E & M). exists s'. split; [exact E|].
      eapply merged_app; [apply merged_one|exact M].
    - assert (Hf : fail_on = false) by (destruct fail_on eqn:F; [exfalso; apply (H eq_refl x); simpl; auto; rewrite public_eq, Ep; reflexivity|reflexivity]).
      rewrite Hf in IH |- *. simpl. apply IH. discriminate.
  Qed.
  Lemma take_bad d l s x : fail_on = true -> In x l -> public skip_s x = true -> dget String.eqb d x = None ->
    snd (take fail_on skip_s d l s) = Some AttributeError.
  Proof.
    intros F. revert s. induction l as [|y t IH]; intros s Hi Hp Hd; [destruct Hi|]. simpl.
    destruct (private y && skip_s) eqn:Ep.
    - destruct Hi as [->|Hi]; [rewrite public_eq, Ep in Hp; discriminate|apply IH; auto].
    - destruct (dget String.eqb d y) eqn:Ed; [|rewrite F; reflexivity].
      destruct Hi as [->|Hi]; [congruence|apply IH; auto].
  Qed.
  Lemma imp_nil path a d s : imp path (Pkg a d []) s = ([], s, None).
  Proof. reflexivity. Qed.
  Definition then_ path a d n m' (rest : list (string * tree)) (r : scope * option exn) : list (string * tree) * scope * option exn :=
    match r with
    | (s', None) => let '(rest', s'', e) := imp path (Pkg a d rest) s' in ((n, m') :: rest', s'', e)
    | (s', Some e) => ((n, m') :: rest, s', Some e)
    end.
  Lemma imp_mod path a d n a' d' rest s :
    imp path (Pkg a d ((n, Mod a' d') :: rest)) s = then_ path a d n (Mod a' d') rest (take fail_on skip_s d' (names a' d') s).
  Proof. reflexivity. Qed.
  Lemma imp_not path a d n a' d' below rest s : taken recursive skip_s skip_a n a' = false ->
    imp path (Pkg a d ((n, Pkg a' d' below) :: rest)) s = then_ path a d n (Pkg a' d' below) rest (s, None).
  Proof.
    unfold taken. rewrite public_eq. intros H. simpl. destruct recursive; simpl in *; [|reflexivity].
    destruct (private n && skip_s); simpl in *; [reflexivity|]. destruct a'; simpl in *; [discriminate|]. destruct skip_a; [reflexivity|discriminate].
  Qed.
  Lemma imp_taken path a d n a' d' below rest s : taken recursive skip_s skip_a n a' = true ->
    imp path (Pkg a d ((n, Pkg a' d' below) :: rest)) s =
    let '(below', (d'', all'), e) := imp (path ++ [n]) (Pkg a' d' below) (d', match a' with Some l => l | None => [] end) in
    let m' := Pkg (match a' with None => if create_all then Some all' else None | Some _ => Some all' end) d'' below' in
    match e with
    | Some e => ((n, m') :: rest, s, Some e)
    | None => then_ path a d n m' rest ((dset String.eqb (fst s) n (ModuleObj (path ++ [n])), note n (snd s)), None)
    end.
  Proof.
    unfold taken. rewrite public_eq. intros H.
    assert (R : recursive = true) by (destruct recursive; [reflexivity|discriminate]).
    assert (Q : private n && skip_s = false) by (destruct (private n && skip_s); [rewrite R in H; discriminate|reflexivity]).
    assert (A : match a' with None => skip_a | Some _ => false end = false) by (destruct (match a' with None => skip_a | Some _ => false end); [rewrite R, Q in H; discriminate|reflexivity]).
    clear H. unfold then_. rewrite R. clear R. cbn [import_from negb]. rewrite Q.
    destruct a' as [l|]; [|destruct skip_a; [discriminate|]]; cbn [from_toplevel];
      match goal with |- match ?x with _ => _ end = _ => destruct x as [[? [? ?]] [?|]]; reflexivity end.
  Qed.

  Lemma imp_ok t : forall path a d inside s, t = Pkg a d inside ->
    (fail_on = true -> forall n m, In (n, m) inside -> ~ lacks recursive skip_s skip_a n m) ->
    exists inside' s', imp path t s = (inside', s', None) /\
      Forall2 (equipped recursive create_all skip_s skip_a path) inside inside' /\
      merged s (flat_map (exports recursive skip_s skip_a path) inside) s'.
  Proof.
    induction t as [a0 d0|a0 d0 inside0 IH] using tree_ind'; intros path a d inside s E; [discriminate|]. injection E as -> -> ->.
    revert s. induction inside as [|[n m] rest IHr]; intros s Hl.
    - exists [], s. split; [apply imp_nil|]. split; [constructor|apply merged_nil].
    - assert (Hl' : fail_on = true -> forall n m, In (n, m) rest -> ~ lacks recursive skip_s skip_a n m) by (intros F n' m' Hi; apply (Hl F); right; exact Hi).
      pose proof (Forall_inv IH) as IHm. specialize (IHr (Forall_inv_tail IH)). simpl in IHm. destruct m as [a' d'|a' d' below].
      + rewrite imp_mod. destruct (@take_ok d' (names a' d') s) as (s1 & -> & M1).
        { intros F x Hx Hp Hd. apply (Hl F n (Mod a' d')); [left; reflexivity|]. econstructor; eauto. }
        destruct (IHr s1 Hl') as (rest' & s' & E' & F' & M'). unfold then_. rewrite E'. eexists _, _. split; [reflexivity|].
        split; [constructor; [constructor|exact F']|]. simpl. eapply merged_app; eassumption.
      + destruct (taken recursive skip_s skip_a n a') eqn:T.
        * rewrite imp_taken by exact T.
          destruct (IHm (path ++ [n]) a' d' below (d', match a' with Some l => l | None => [] end) eq_refl) as (below' & [d'' all'] & E1 & F1 & M1).
          { intros F n' m' Hi Hk. apply (Hl F n (Pkg a' d' below)); [left; reflexivity|]. econstructor; eauto. }
          rewrite E1. cbv zeta. unfold then_.
          destruct (IHr (dset String.eqb (fst s) n (ModuleObj (path ++ [n])), note n (snd s)) Hl') as (rest' & s' & E' & F' & M').
          rewrite E'. eexists _, _. split; [reflexivity|]. split; [constructor; [apply eq_taken; assumption|exact F']|].
          simpl flat_map. rewrite T. eapply merged_app; [apply merged_one|exact M'].
        * rewrite imp_not by exact T. unfold then_. destruct (IHr s Hl') as (rest' & s' & E' & F' & M'). rewrite E'.
          eexists _, _. split; [reflexivity|]. split; [constructor; [apply eq_not_taken; exact T|exact F']|].
          simpl flat_map. rewrite T. exact M'.
  Qed.

  Lemma take_error d l s s1 e : take fail_on skip_s d l s = (s1, Some e) -> e = AttributeError.
  Proof.
    revert s. induction l as [|x t IH]; intros s; simpl; [discriminate|].
    destruct (private x && skip_s); [apply IH|]. destruct (dget String.eqb d x); [apply IH|].
    destruct (Bool.bool_dec fail_on true) as [F|F]; [rewrite F; intros [= _ <-]; reflexivity|].
    apply Bool.not_true_is_false in F. specialize (IH s). rewrite F in *. exact IH.
  Qed.
  Lemma imp_error_kind t : forall path s e, snd (imp path t s) = Some e -> e = AttributeError.
  Proof.
    induction t as [a0 d0|a d inside IH] using tree_ind'; intros path s e; [discriminate|].
    revert s. induction inside as [|[n m] rest IHr]; intros s; [discriminate|].
    pose proof (Forall_inv IH) as IHm. specialize (IHr (Forall_inv_tail IH)). simpl in IHm.
    assert (Rest : forall m' s', snd (then_ path a d n m' rest (s', None)) = Some e -> e = AttributeError).
    { intros m' s' H. apply (IHr s'). unfold then_ in H. destruct (imp path (Pkg a d rest) s') as [[r' s''] e']. exact H. }
    destruct m as [a' d'|a' d' below].
    - rewrite imp_mod. destruct (take fail_on skip_s d' (names a' d') s) as [s1 [e'|]] eqn:Et; [|apply Rest].
      simpl. intros [= <-]. exact (take_error _ _ _ Et).
    - destruct (taken recursive skip_s skip_a n a') eqn:T; [|rewrite imp_not by exact T; apply Rest].
      rewrite imp_taken by exact T. specialize (IHm (path ++ [n]) (d', match a' with Some l => l | None => [] end) e).
      destruct (imp (path ++ [n]) (Pkg a' d' below) (d', match a' with Some l => l | None => [] end)) as [[below' [d'' all']] [e'|]]; [exact IHm|apply Rest].
  Qed.
  Lemma imp_error t : forall path a d inside s n m, t = Pkg a d inside -> fail_on = true -> In (n, m) inside -> lacks recursive skip_s skip_a n m ->
    snd (imp path t s) = Some AttributeError.
  Proof.
    induction t as [a0 d0|a0 d0 inside0 IH] using tree_ind'; intros path a d inside s n m E F Hi Hk; [discriminate|]. injection E as -> -> ->.
    revert s. induction inside as [|[n1 m1] rest IHr]; intros s; [destruct Hi|].
    pose proof (Forall_inv IH) as IHm. specialize (IHr (Forall_inv_tail IH)). simpl in IHm.
    assert (Rest : In (n, m) rest -> forall m' s', snd (then_ path a d n1 m' rest (s', None)) = Some AttributeError).
    { intros Hr m' s'. specialize (IHr Hr s'). unfold then_. destruct (imp path (Pkg a d rest) s') as [[r' s''] e]. exact IHr. }
    destruct m1 as [a' d'|a' d' below].
    - rewrite imp_mod. destruct (take fail_on skip_s d' (names a' d') s) as [s1 [e|]] eqn:Et.
      + simpl. rewrite (take_error _ _ _ Et). reflexivity.
      + destruct Hi as [Hi|Hi]; [|apply Rest; exact Hi]. injection Hi as <- <-. inversion Hk; subst.
        pose proof (@take_bad d' (names a' d') s x F) as B. rewrite Et in B. simpl in B. 
        assert (X : @None exn = Some AttributeError) by (apply B; auto); discriminate X.
    - destruct (taken recursive skip_s skip_a n1 a') eqn:T.
      + rewrite imp_taken by exact T.
        destruct (imp (path ++ [n1]) (Pkg a' d' below) (d', match a' with Some l => l | None => [] end)) as [[below' [d'' all']] e] eqn:E1.
        cbv zeta. destruct e as [e|].
        * simpl. f_equal. apply (@imp_error_kind (Pkg a' d' below) (path ++ [n1]) (d', match a' with Some l => l | None => [] end)). rewrite E1. reflexivity.
        * destruct Hi as [Hi|Hi]; [|apply Rest; exact Hi]. injection Hi as <- <-. inversion Hk; subst.
          pose proof (IHm (path ++ [n1]) a' d' below (d', match a' with Some l => l | None => [] end) n' m eq_refl F) as B. rewrite E1 in B. assert (X : @None exn = Some AttributeError) by (apply B; auto); discriminate X.
      + rewrite imp_not by exact T. destruct Hi as [Hi|Hi]; [|apply Rest; exact Hi]. injection Hi as <- <-. inversion Hk; subst; congruence.
  Qed.
End Facts.
