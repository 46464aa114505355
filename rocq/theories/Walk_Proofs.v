From Coq Require Import List Arith Lia Permutation.
From Verif Require Import Prelude Walk_Model Walk_Spec.
Import ListNotations.

Section P.
  Context {T : Type}.
  Implicit Types (ts q : list (rose T)) (l : list T).

  Lemma add_many_immediate_from_ok : forall t (done rest : list T), add_many_immediate_from (length done) t (done ++ rest) = done ++ t ++ rest.
  Proof.
    induction t as [|x t IH]; intros done rest; cbn [add_many_immediate_from]; auto.
    rewrite firstn_app, firstn_all, skipn_app, skipn_all, Nat.sub_diag. cbn [firstn skipn app]. rewrite app_nil_r.
    replace (done ++ x :: rest) with ((done ++ [x]) ++ rest) by now rewrite <- app_assoc.
    replace (S (length done)) with (length (done ++ [x])) by (rewrite app_length; simpl; lia).
    rewrite IH, <- app_assoc. reflexivity.
  Qed.
  Lemma add_many_immediate_ok : forall t (rest : list T), add_many_immediate t rest = t ++ rest.
  Proof. intros t rest. exact (add_many_immediate_from_ok t [] rest). Qed.

  Lemma rose_ind' : forall P : rose T -> Prop, (forall x ts, Forall P ts -> P (Node x ts)) -> forall t, P t.
  Proof.
    intros P H. fix IH 1. intros [x ts]. apply H. induction ts as [|t ts IHts]; constructor; auto.
  Qed.

  Fixpoint size (t : rose T) : nat := match t with Node _ ts => S (fold_right (fun t' n => size t' + n) 0 ts) end.
  Definition sizes ts := fold_right (fun t' n => size t' + n) 0 ts.
  Lemma sizes_app : forall a b, sizes (a ++ b) = sizes a + sizes b.
  Proof. intros a b. induction a as [|t a IH]; auto. unfold sizes in *. cbn [app fold_right]. rewrite IH. lia. Qed.

  Definition branches (t : rose T) := match t with Node _ ts => ts end.
  Definition em (leaves_only : bool) (t : rose T) : list T :=
    match t with Node x ks => if leaves_only then match ks with [] => [x] | _ => [] end else [x] end.

  Lemma F2_length : forall {A B} (R : A -> B -> Prop) a b, Forall2 R a b -> length a = length b.
  Proof. intros A B R a b F. induction F; simpl; auto. Qed.

  (** the loop on the forest *)
  Fixpoint floop (fuel : nat) (deep leaf : bool) ts : list T :=
    match fuel, ts with
    | 0, _ => [] | _, [] => []
    | S f, t :: q => em leaf t ++ floop f deep leaf (if deep then branches t ++ q else q ++ branches t)
    end.

  Lemma loop_floop : forall getter deep leaf f l ts, Forall2 (shape getter) l ts -> sizes ts < f ->
    walk_loop f getter deep leaf l = (floop f deep leaf ts, EDone).
  Proof.
    intros getter deep leaf. induction f as [|f IH]; intros l ts F L; [lia|].
    destruct F as [|o t a q S F]; cbn [walk_loop next floop]; auto.
    assert (L' : forall b, sizes b < size t -> sizes (q ++ b) < f /\ sizes (b ++ q) < f).
    { intros b B. rewrite !sizes_app. cbn in L. fold (sizes q) in L. lia. }
    destruct S as [x G|x l0 ts0 G F0]; rewrite G.
    - destruct (L' []) as [L1 L2]; [cbn; lia|].
      rewrite (IH a q F); [|now rewrite app_nil_r in L1]. cbn [branches em].
      destruct leaf, deep; cbn [app]; rewrite ?app_nil_r; reflexivity.
    - destruct (L' ts0) as [L1 L2]; [cbn; fold (sizes ts0); lia|].
      assert (E : length l0 = length ts0) by (eapply F2_length; eauto).
      destruct ts0 as [|t0 ts0].
      + destruct l0; [|discriminate]. cbn [length Nat.ltb Nat.leb].
        rewrite (IH a q F); [|now rewrite app_nil_r in L1]. cbn [branches em].
        destruct leaf, deep; cbn [app]; rewrite ?app_nil_r; reflexivity.
      + destruct l0 as [|x0 l0]; [discriminate|]. set (ks := t0 :: ts0) in *. set (l1 := x0 :: l0) in *.
        replace (0 <? length l1) with true by reflexivity. cbn [branches].
        rewrite add_many_immediate_ok. unfold add_many.
        assert (W : walk_loop f getter deep leaf (if deep then l1 ++ a else a ++ l1) = (floop f deep leaf (if deep then ks ++ q else q ++ ks), EDone)).
        { apply IH; [|destruct deep; assumption]. destruct deep; apply Forall2_app; assumption. }
        rewrite W. destruct leaf; cbn [em app]; reflexivity.
  Qed.

  Lemma floop_deep : forall leaf f ts, sizes ts < f -> floop f true leaf ts = flat_map (fun t => if leaf then leaves t else preorder t) ts.
  Proof.
    intros leaf. induction f as [|f IH]; intros ts L; [lia|].
    destruct ts as [|[x ks] q]; auto. cbn [floop branches]. rewrite IH.
    - rewrite flat_map_app. cbn [flat_map]. rewrite app_assoc. f_equal.
      destruct leaf; cbn [em]; [destruct ks; reflexivity|reflexivity].
    - rewrite sizes_app. cbn in L. fold (sizes ks) (sizes q) in L. lia.
  Qed.

  Fixpoint levels (leaf : bool) (n : nat) ts : list T :=
    match n with 0 => flat_map (em leaf) ts | S m => levels leaf m (flat_map branches ts) end.
  Definition maxh ts := fold_right (fun t h => Nat.max (height t) h) 0 ts.
  Lemma maxh_app : forall a b, maxh (a ++ b) = Nat.max (maxh a) (maxh b).
  Proof. intros a b. induction a as [|t a IH]; auto. unfold maxh in *. cbn [app fold_right]. rewrite IH. lia. Qed.
  Lemma maxh_step : forall ts, maxh ts = match ts with [] => 0 | _ => S (maxh (flat_map branches ts)) end.
  Proof.
    induction ts as [|[x ks] ts IH]; auto. cbn [maxh fold_right flat_map branches]. fold (maxh ts).
    rewrite maxh_app, IH. cbn [height]. fold (maxh ks). destruct ts; cbn; lia.
  Qed.

  Lemma floop_level : forall leaf a b f, sizes (a ++ b) < f ->
    exists f', sizes (b ++ flat_map branches a) < f' /\ floop f false leaf (a ++ b) = flat_map (em leaf) a ++ floop f' false leaf (b ++ flat_map branches a).
  Proof.
    intros leaf. induction a as [|[x ks] a IH]; intros b f L.
    - exists f. cbn. rewrite app_nil_r. auto.
    - destruct f as [|f]; [lia|]. cbn [app floop branches flat_map].
      destruct (IH (b ++ ks) f) as (f' & L' & E).
      { cbn in L. fold (sizes ks) in L. fold (sizes (a ++ b)) in L. rewrite app_assoc, sizes_app. lia. }
      exists f'. rewrite <- !app_assoc. rewrite <- app_assoc in E, L'. split; auto. f_equal. exact E.
  Qed.
  Lemma floop_levels : forall leaf h ts f, maxh ts <= h -> sizes ts < f -> floop f false leaf ts = flat_map (fun n => levels leaf n ts) (seq 0 h).
  Proof.
    intros leaf. induction h as [|h IH]; intros ts f M L.
    - destruct ts as [|t ts]; [|rewrite maxh_step in M; lia]. destruct f; reflexivity.
    - destruct (floop_level leaf ts [] f) as (f' & L' & E); [now rewrite app_nil_r|].
      rewrite app_nil_r in E. rewrite E. cbn [app seq flat_map]. f_equal.
      rewrite <- seq_shift.
      assert (FM : forall (g : nat -> list T) s, flat_map g (map S s) = flat_map (fun n => g (S n)) s).
      { intros g s. induction s as [|n s IHs]; cbn; auto. now rewrite IHs. }
      rewrite FM. cbn [levels]. apply IH; auto.
      destruct ts as [|t ts]; [cbn; lia|]. rewrite maxh_step in M. lia.
  Qed.
  Lemma levels_app : forall leaf n a b, levels leaf n (a ++ b) = levels leaf n a ++ levels leaf n b.
  Proof. induction n; intros a b; cbn; rewrite flat_map_app; auto. Qed.
  Lemma levels_flat : forall leaf n ts, levels leaf n ts = flat_map (fun t => levels leaf n [t]) ts.
  Proof.
    intros leaf n. induction ts as [|t ts IH].
    - cbn. induction n; auto.
    - replace (t :: ts) with ([t] ++ ts) by reflexivity. rewrite levels_app, IH. reflexivity.
  Qed.
  Lemma levels_level : forall n t, levels false n [t] = level n t.
  Proof.
    induction n as [|n IH]; intros [x ks]; cbn [levels level flat_map branches]; auto.
    rewrite app_nil_r, levels_flat. apply flat_map_ext. intros a. apply IH.
  Qed.
  Lemma levels_leaves : forall n t, levels true n [t] = level_leaves n t.
  Proof.
    induction n as [|n IH]; intros [x ks]; cbn [levels level_leaves flat_map branches]; auto.
    - cbn. destruct ks; auto.
    - rewrite app_nil_r, levels_flat. apply flat_map_ext. intros a. apply IH.
  Qed.
  Lemma floop_wide : forall f ts, sizes ts < f -> floop f false false ts = level_order ts.
  Proof.
    intros f ts L. rewrite (floop_levels false (maxh ts)); auto. unfold level_order. fold (maxh ts).
    apply flat_map_ext. intros n. rewrite levels_flat. apply flat_map_ext. intros t. apply levels_level.
  Qed.
  Lemma floop_wide_leaves : forall f ts, sizes ts < f -> floop f false true ts = level_order_leaves ts.
  Proof.
    intros f ts L. rewrite (floop_levels true (maxh ts)); auto. unfold level_order_leaves. fold (maxh ts).
    apply flat_map_ext. intros n. rewrite levels_flat. apply flat_map_ext. intros t. apply levels_leaves.
  Qed.

  Lemma shape_kids : forall getter x ts, shape getter x (Node x ts) -> getter x <> KNone -> exists l, getter x = KList l /\ Forall2 (shape getter) l ts.
  Proof. intros getter x ts S N. inversion S; subst; [contradiction|]. eauto. Qed.

  Lemma walk_finite : forall getter x ts deep leaf, shape getter x (Node x ts) -> getter x <> KNone ->
    exists n, forall fuel, n <= fuel -> walk fuel getter deep leaf x =
      (if deep then if leaf then flat_map leaves ts else flat_map preorder ts
       else if leaf then level_order_leaves ts else level_order ts, EDone).
  Proof.
    intros getter x ts deep leaf S N. destruct (shape_kids getter x ts S N) as (l & G & F).
    exists (Datatypes.S (sizes ts)). intros fuel L. unfold walk. rewrite G. rewrite (loop_floop getter deep leaf fuel l ts F) by lia.
    f_equal. destruct deep.
    - rewrite floop_deep by lia. destruct leaf; reflexivity.
    - destruct leaf; [apply floop_wide_leaves|apply floop_wide]; lia.
  Qed.

  Lemma loop_shape : forall getter deep leaf, (forall x l, getter x <> KUnsized l) -> forall f l ys, walk_loop f getter deep leaf l = (ys, EDone) ->
    exists ts, Forall2 (shape getter) l ts.
  Proof.
    intros getter deep leaf NU. induction f as [|f IH]; intros l ys E; [discriminate|].
    destruct l as [|o a]; [exists []; constructor|]. cbn [walk_loop next] in E.
    assert (Y : forall a', (let '(ys0, e) := walk_loop f getter deep leaf a' in (o :: ys0, e)) = (ys, EDone) -> exists ts, Forall2 (shape getter) a' ts).
    { intros a' H. destruct (walk_loop f getter deep leaf a') as [ys0 e] eqn:W. injection H as _ ->. eapply IH; eauto. }
    destruct (getter o) as [|l0|l0|e] eqn:G.
    - destruct (Y _ E) as [ts F]. exists (Node o [] :: ts). constructor; auto. now constructor.
    - destruct l0 as [|x0 l0].
      + destruct (Y _ E) as [ts F]. exists (Node o [] :: ts). constructor; auto. eapply shape_list; eauto.
      + cbn [length Nat.ltb Nat.leb] in E. set (l1 := x0 :: l0) in *.
        rewrite add_many_immediate_ok in E. unfold add_many in E.
        assert (Z : exists ts, Forall2 (shape getter) (if deep then l1 ++ a else a ++ l1) ts).
        { destruct leaf; [eapply IH; eauto|eapply Y; eauto]. }
        destruct Z as [ts F]. destruct deep.
        * apply Forall2_app_inv_l in F. destruct F as (t1 & t2 & F1 & F2 & ->). exists (Node o t1 :: t2). constructor; auto. eapply shape_list; eauto.
        * apply Forall2_app_inv_l in F. destruct F as (t1 & t2 & F1 & F2 & ->). exists (Node o t2 :: t1). constructor; auto. eapply shape_list; eauto.
    - exfalso. eapply NU; eauto.
    - discriminate.
  Qed.
  Lemma walk_ends : forall getter x deep leaf, (forall y l, getter y <> KUnsized l) ->
    ((exists fuel ys, walk fuel getter deep leaf x = (ys, EDone)) <-> getter x <> KNone /\ exists t, shape getter x t).
  Proof.
    intros getter x deep leaf NU. split.
    - intros (fuel & ys & E). unfold walk in E. destruct (getter x) as [|l|l|e] eqn:G; try discriminate.
      + split; [discriminate|]. destruct (loop_shape getter deep leaf NU _ _ _ E) as [ts F]. exists (Node x ts). eapply shape_list; eauto.
      + exfalso. eapply NU; eauto.
    - intros [N [t S]]. assert (exists ts, t = Node x ts) as [ts ->] by (inversion S; subst; eauto).
      destruct (walk_finite getter x ts deep leaf S N) as [n H]. exists n, (fst (walk n getter deep leaf x)). rewrite H by lia. reflexivity.
  Qed.

  (** all orders give the same nodes *)
  Lemma floop_perm : forall f f' leaf ts, sizes ts < f -> sizes ts < f' -> Permutation (floop f true leaf ts) (floop f' false leaf ts).
  Proof.
    assert (G : forall f deep leaf a b, Permutation a b -> sizes a < f -> sizes b < f -> Permutation (floop f deep leaf a) (flat_map (fun t => if leaf then leaves t else preorder t) b)).
    { induction f as [|f IH]; intros deep leaf a b P La Lb; [lia|].
      destruct a as [|[x ks] q].
      - apply Permutation_nil in P. subst. auto.
      - cbn [floop branches]. assert (Q : Permutation (flat_map (fun t => if leaf then leaves t else preorder t) (Node x ks :: q)) (flat_map (fun t => if leaf then leaves t else preorder t) b)).
        { now apply Permutation_flat_map. }
        etransitivity; [|exact Q]. cbn [flat_map].
        assert (Ls : sizes (ks ++ q) < f). { rewrite sizes_app. cbn in La. fold (sizes ks) (sizes q) in La. lia. }
        assert (Ls' : sizes (q ++ ks) < f). { rewrite sizes_app in *. lia. }
        etransitivity.
        + apply Permutation_app_head. apply (IH deep leaf _ (ks ++ q)); [destruct deep; auto using Permutation_app_comm|destruct deep; auto|auto].
        + rewrite flat_map_app, app_assoc. apply Permutation_app_tail.
          destruct leaf; cbn [em]; [destruct ks; reflexivity|reflexivity]. }
    intros f f' leaf ts L L'. rewrite (G f true leaf ts ts), (G f' false leaf ts ts); auto.
  Qed.

  Lemma bfs_perm : forall ts, Permutation (level_order ts) (flat_map preorder ts).
  Proof.
    intros ts. rewrite <- (floop_wide (S (sizes ts)) ts) by lia. symmetry. rewrite <- (floop_perm (S (sizes ts)) (S (sizes ts))); try lia.
    rewrite floop_deep by lia. reflexivity.
  Qed.
  Lemma bfs_leaves_perm : forall ts, Permutation (level_order_leaves ts) (flat_map leaves ts).
  Proof.
    intros ts. rewrite <- (floop_wide_leaves (S (sizes ts)) ts) by lia. symmetry. rewrite <- (floop_perm (S (sizes ts)) (S (sizes ts))); try lia.
    rewrite floop_deep by lia. reflexivity.
  Qed.

  (** an exception comes after what was yielded, and fuel only adds *)
  Lemma loop_more : forall getter deep leaf f f' l ys e, f <= f' -> walk_loop f getter deep leaf l = (ys, e) ->
    exists zs e', walk_loop f' getter deep leaf l = (ys ++ zs, e') /\ (e <> EGoing -> zs = [] /\ e' = e).
  Proof.
    intros getter deep leaf. induction f as [|f IH]; intros f' l ys e L E.
    - cbn in E. injection E as <- <-. destruct (walk_loop f' getter deep leaf l) as [zs e'] eqn:W. exists zs, e'. split; auto. intros H. contradiction.
    - destruct f' as [|f']; [lia|]. cbn [walk_loop] in *. destruct l as [|o a]; cbn [next] in *.
      { injection E as <- <-. exists [], EDone. auto. }
      assert (Y : forall a', (let '(ys0, e0) := walk_loop f getter deep leaf a' in (o :: ys0, e0)) = (ys, e) ->
        exists zs e', (let '(ys0, e0) := walk_loop f' getter deep leaf a' in (o :: ys0, e0)) = (ys ++ zs, e') /\ (e <> EGoing -> zs = [] /\ e' = e)).
      { intros a' H. destruct (walk_loop f getter deep leaf a') as [ys0 e0] eqn:W. injection H as <- <-.
        destruct (IH f' a' ys0 e0) as (zs & e' & W' & R); [lia|auto|]. exists zs, e'. rewrite W'. auto. }
      destruct (getter o); auto.
      + destruct (0 <? length l); auto. destruct leaf; auto. apply (IH f'); auto; lia.
      + injection E as <- <-. exists [], (ERaised e0). auto.
  Qed.

  (** the additions *)
  Lemma addition_ok : forall a (es : list T), apply_addition a es = wanted a es.
  Proof. intros [x|l|x|l] es; cbn; auto. apply add_many_immediate_ok. Qed.
  Lemma additions_perm : forall adds (es : list T), Permutation (fold_left (fun es0 a => apply_addition a es0) adds es) (es ++ flat_map added adds).
  Proof.
    induction adds as [|a adds IH]; intros es; cbn [fold_left flat_map]; [now rewrite app_nil_r|].
    rewrite IH, addition_ok, app_assoc. apply Permutation_app_tail. destruct a; cbn; auto.
    - apply Permutation_cons_append.
    - apply Permutation_app_comm.
  Qed.
  Lemma for_loop_perm : forall (body : T -> list (addition T)) f l ys, for_loop f body l = (ys, true) -> Permutation ys (l ++ flat_map (fun x => flat_map added (body x)) ys).
  Proof.
    intros body. induction f as [|f IH]; intros l ys E; [discriminate|]. cbn [for_loop] in E. destruct l as [|x t]; cbn [next] in E.
    - injection E as <-. auto.
    - destruct (for_loop f body _) as [zs d] eqn:W. injection E as <- ->. apply IH in W. cbn [app flat_map]. constructor.
      etransitivity; [exact W|]. rewrite (additions_perm (body x) t), <- app_assoc. reflexivity.
  Qed.
  Lemma for_loop_next : forall (body : T -> list (addition T)) f x t, for_loop (S f) body (x :: t) =
    (x :: fst (for_loop f body (fold_left (fun es a => wanted a es) (body x) t)), snd (for_loop f body (fold_left (fun es a => wanted a es) (body x) t))).
  Proof.
    intros body f x t. cbn [for_loop next].
    assert (E : forall adds es, fold_left (fun es0 a => apply_addition a es0) adds es = fold_left (fun (es : list T) a => wanted a es) adds es).
    { induction adds as [|a adds IH]; intros es; auto. cbn [fold_left]. rewrite IH, addition_ok. reflexivity. }
    rewrite E. destruct (for_loop f body _). reflexivity.
  Qed.
End P.

Lemma default_refuted : ~ (forall x, (exists l, x = PyList l) -> exists n, forall fuel, n <= fuel -> exists ys, walk fuel list_of true false x = (ys, EDone) /\ Permutation ys (everything x)).
Proof.
  intros H. destruct (H (PyList [PyInt 1])) as (n & K); [eauto|]. destruct (K (S n)) as (ys & E & _); [lia|]. cbn in E. discriminate.
Qed.
Lemma default_str_diverges : forall c fuel, exists ys, walk fuel list_of true false (PyList [PyStr [c]]) = (ys, EGoing).
Proof.
  intros c fuel. cbn [walk list_of]. induction fuel as [|f IH]; [eexists; reflexivity|].
  cbn [walk_loop next list_of map length Nat.ltb Nat.leb]. rewrite add_many_immediate_ok. cbn [app]. destruct IH as [ys E].
  rewrite E. eexists. reflexivity.
Qed.

Lemma pyobj_ind' : forall P : pyobj -> Prop, (forall n, P (PyInt n)) -> (forall c, P (PyStr c)) -> (forall l, Forall P l -> P (PyList l)) -> forall x, P x.
Proof. intros P HI HS HL. fix IH 1. intros [n|c|l]; [apply HI|apply HS|]. apply HL. induction l; constructor; auto. Qed.
Lemma only_lists_shape : forall x, only_lists x -> exists ts, shape list_of x (Node x ts) /\ flat_map preorder ts = everything x.
Proof.
  induction x as [n|c|l IH] using pyobj_ind'; intros O; try contradiction.
  assert (G : exists ts, Forall2 (shape list_of) l ts /\ flat_map preorder ts = everything (PyList l)).
  { cbn [only_lists] in O. induction IH as [|y l H F IHl].
    - exists []. split; [constructor|reflexivity].
    - cbn [fold_right] in O. destruct O as [O1 O2]. destruct (H O1) as (ts & S1 & E1). destruct (IHl O2) as (us & S2 & E2).
      exists (Node y ts :: us). split; [constructor; auto|]. cbn [flat_map preorder everything]. rewrite E1. f_equal. f_equal. exact E2. }
  destruct G as (ts & S1 & E). exists ts. split; auto. eapply shape_list; [reflexivity|auto].
Qed.
Lemma default_lists : forall x, only_lists x -> exists n, forall fuel, n <= fuel -> walk fuel list_of true false x = (everything x, EDone).
Proof.
  intros x O. destruct (only_lists_shape x O) as (ts & S & E). rewrite <- E.
  apply (walk_finite list_of x ts true false S). destruct x; discriminate.
Qed.
