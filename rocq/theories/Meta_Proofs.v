From Coq Require Import List Arith Lia Permutation.
From Verif Require Import Prelude PreludeFacts MoreFacts Walk_Model Walk_Spec Walk_Proofs Meta_Model Meta_Spec.
Import ListNotations.

(** *** Docstrings *)
Lemma falsy_spec : forall t, falsy t = true <-> t = [].
Proof. intros [|a t]; cbn; split; congruence. Qed.
Lemma falsy_not : forall t, falsy t = false <-> t <> [].
Proof. intros [|a t]; cbn; split; congruence. Qed.

Lemma attr_Some : forall w c key o, attr w c key = Some o <-> exists before k after, mro w c = before ++ k :: after /\ (forall x, In x before -> own w x key = None) /\ own w k key = Some o.
Proof.
  intros w c key o. unfold attr. induction (mro w c) as [|x l IH]; cbn [fold_right].
  - split; [discriminate|]. intros (b & k & a & E & _). destruct b; discriminate.
  - split.
    + destruct (own w x key) as [o'|] eqn:O.
      * intros [= <-]. exists [], x, l. repeat split; auto. intros y [].
      * intros H. apply IH in H. destruct H as (b & k & a & -> & B & K). exists (x :: b), k, a. repeat split; auto. intros y [<-|I]; auto.
    + intros (b & k & a & E & B & K). destruct b as [|y b]; cbn in E; injection E as -> E.
      * now rewrite K.
      * rewrite (B y) by now left. apply IH. exists b, k, a. repeat split; auto. intros z I. apply B. now right.
Qed.
Lemma attr_own : forall w c key o, attr w c key = Some o -> exists k, own w k key = Some o.
Proof. intros w c key o H. apply attr_Some in H. destruct H as (_ & k & _ & _ & _ & K). eauto. Qed.
Lemma doc_on_attr : forall w d key c t, doc_on w d key c t <-> t <> [] /\ exists o, attr w c key = Some o /\ d o = t.
Proof.
  intros w d key c t. unfold doc_on. split.
  - intros (N & o & b & k & a & E & B & K & D). split; auto. exists o. split; auto. apply attr_Some. eauto 7.
  - intros (N & o & A & D). split; auto. apply attr_Some in A. destruct A as (b & k & a & E & B & K). exists o, b, k, a. auto.
Qed.

Lemma find_doc_ok : forall w d key cs, first_text (doc_on w d key) cs (find_doc w d key cs).
Proof.
  intros w d key. induction cs as [|c cs IH]; cbn [find_doc]; [constructor|].
  destruct (attr w c key) as [o|] eqn:A.
  - destruct (falsy (d o)) eqn:F.
    + apply ft_later; auto. intros t H. apply doc_on_attr in H. destruct H as (N & o' & A' & D). apply falsy_spec in F. congruence.
    + apply ft_here. apply doc_on_attr. apply falsy_not in F. eauto.
  - apply ft_later; auto. intros t H. apply doc_on_attr in H. destruct H as (N & o' & A' & D). congruence.
Qed.
Lemma find_cdoc_ok : forall w cs, first_text (fun c t => t <> [] /\ cdoc w c = t) cs (find_cdoc w cs).
Proof.
  intros w. induction cs as [|c cs IH]; cbn [find_cdoc]; [constructor|]. destruct (falsy (cdoc w c)) eqn:F.
  - apply ft_later; auto. intros t [N E]. apply falsy_spec in F. congruence.
  - apply ft_here. apply falsy_not in F. auto.
Qed.
Lemma find_doc_same : forall w d d' key cs, (forall c k o, own w c k = Some o -> d' o = d o) -> find_doc w d' key cs = find_doc w d key cs.
Proof.
  intros w d d' key cs A. induction cs as [|c cs IH]; cbn [find_doc]; auto.
  destruct (attr w c key) as [o|] eqn:E; auto. destruct (attr_own _ _ _ _ E) as [k K]. rewrite (A _ _ _ K), IH. reflexivity.
Qed.

Lemma set_doc_eq : forall d o t, set_doc d o t o = t.
Proof. intros. unfold set_doc. now rewrite Nat.eqb_refl. Qed.
Lemma set_doc_neq : forall d o t x, x <> o -> set_doc d o t x = d x.
Proof. intros d o t x N. unfold set_doc. destruct (Nat.eqb_spec x o); congruence. Qed.

Lemma parent_loop_out : forall w cs ms d o, ~ In o (map snd ms) -> parent_loop w cs d ms o = d o.
Proof.
  intros w cs. induction ms as [|[k v] ms IH]; intros d o N; cbn [parent_loop]; auto. cbn in N.
  destruct (falsy (d v) && callable w v); [destruct (find_doc w d k cs)|]; rewrite IH; auto. rewrite set_doc_neq; auto.
Qed.
Lemma parent_loop_keep : forall w cs ms d o, d o <> [] \/ callable w o = false -> parent_loop w cs d ms o = d o.
Proof.
  intros w cs. induction ms as [|[k v] ms IH]; intros d o N; cbn [parent_loop]; auto.
  destruct (falsy (d v) && callable w v) eqn:F; [destruct (find_doc w d k cs) eqn:E|]; auto.
  apply andb_prop in F. destruct F as [F C]. apply falsy_spec in F.
  assert (o <> v) by (intros ->; destruct N; congruence). rewrite IH; rewrite set_doc_neq; auto.
Qed.
Lemma parent_loop_ok : forall w cs ms d0 d, NoDup (map snd ms) -> (forall c k o, own w c k = Some o -> d o = d0 o) ->
  (forall c k o, own w c k = Some o -> ~ In o (map snd ms)) -> forall key v, In (key, v) ms -> d v = [] -> callable w v = true ->
  parent_loop w cs d ms v = match find_doc w d0 key cs with Some t => t | None => [] end.
Proof.
  intros w cs. induction ms as [|[k v0] ms IH]; intros d0 d ND A FR key v I D C; [destruct I|].
  cbn in ND. inversion ND as [|? ? NI ND']; subst. cbn [parent_loop].
  assert (FR' : forall c k0 o, own w c k0 = Some o -> ~ In o (map snd ms)).
  { intros c k0 o O J. eapply FR; eauto. now right. }
  destruct I as [[= -> ->]|I].
  - rewrite D, C. cbn [falsy andb]. rewrite (find_doc_same w d0 d) by auto. destruct (find_doc w d0 key cs).
    + rewrite parent_loop_out; auto. apply set_doc_eq.
    + rewrite parent_loop_out; auto.
  - assert (v <> v0) by (intros ->; apply NI; apply in_map_iff; exists (key, v0); auto).
    destruct (falsy (d v0) && callable w v0); [destruct (find_doc w d k cs)|]; apply (IH d0); auto.
    + intros c k0 o O. rewrite set_doc_neq; [eapply A; eauto|]. intros ->. eapply FR; eauto. now left.
    + rewrite set_doc_neq; auto.
Qed.

(** the walk over bases *)
Section Map.
  Context {A B : Type} (f : A -> B).
  Fixpoint rmap (t : rose A) : rose B := match t with Node x ts => Node (f x) (map rmap ts) end.
  Lemma rmap_level : forall n t, level n (rmap t) = map f (level n t).
  Proof.
    induction n as [|n IH]; intros [x ts]; cbn [rmap level]; auto.
    induction ts as [|t ts IHt]; cbn; auto. rewrite IH, map_app, IHt. reflexivity.
  Qed.
  Lemma rmap_height : forall t, height (rmap t) = height t.
  Proof.
    apply rose_ind'. intros x ts F. cbn [rmap height]. f_equal. induction F as [|t ts H F IHt]; cbn; auto.
  Qed.
  Lemma rmap_level_order : forall ts, level_order (map rmap ts) = map f (level_order ts).
  Proof.
    intros ts. unfold level_order.
    assert (H : fold_right (fun t h => Nat.max (height t) h) 0 (map rmap ts) = fold_right (fun t h => Nat.max (height t) h) 0 ts).
    { induction ts as [|t ts IH]; cbn; auto. now rewrite rmap_height, IH. }
    rewrite H. clear H. induction (seq 0 _) as [|n l IH]; cbn [flat_map map]; auto. rewrite IH, map_app. f_equal.
    clear IH. induction ts as [|t ts IH]; cbn [flat_map map]; auto. now rewrite rmap_level, IH, map_app.
  Qed.
End Map.

Lemma family_shape : forall w t c, family w c t -> shape (extract_bases w) (Cls c) (rmap Cls t).
Proof.
  intros w. induction t as [x ts IH] using rose_ind'; intros c F. inversion F as [? ? F2]; subst. cbn [rmap]. eapply shape_list; [reflexivity|].
  clear F. induction F2 as [|b t bs ts H F2 IHF]; cbn [map]; [constructor|]. inversion IH; subst. constructor; auto.
Qed.
Lemma walked_ok : forall w bases ts, Forall2 (family w) bases ts -> exists n, forall fuel, n <= fuel -> walked w fuel bases = level_order ts.
Proof.
  intros w bases ts F.
  assert (S : shape (extract_bases w) (Bases bases) (Node (Bases bases) (map (rmap Cls) ts))).
  { eapply shape_list; [reflexivity|]. induction F; cbn [map]; constructor; auto. now apply family_shape. }
  destruct (walk_finite (extract_bases w) _ _ false false S) as [n H]; [discriminate|].
  exists n. intros fuel L. unfold walked. rewrite (H fuel L). cbn [fst]. rewrite rmap_level_order.
  induction (level_order ts) as [|c l IH]; cbn [map flat_map app]; auto. now rewrite IH.
Qed.

Lemma docs_from_parent : forall w bases ts b d, Forall2 (family w) bases ts -> exists n, forall fuel, n <= fuel ->
  (match body_doc b with
   | Some t => fst (DocsFromParent w fuel bases b d) = Some t
   | None => first_text (fun c t => t <> [] /\ cdoc w c = t) (level_order ts) (fst (DocsFromParent w fuel bases b d))
   end) /\
  (forall o, ~ In o (map snd (members b)) \/ d o <> [] \/ callable w o = false -> snd (DocsFromParent w fuel bases b d) o = d o) /\
  (fresh_members w (members b) -> forall key v, In (key, v) (members b) -> d v = [] -> callable w v = true ->
     exists r, first_text (doc_on w d key) (level_order ts) r /\ snd (DocsFromParent w fuel bases b d) v = match r with Some t => t | None => [] end).
Proof.
  intros w bases ts b d F. destruct (walked_ok w bases ts F) as [n H]. exists n. intros fuel L. unfold DocsFromParent. rewrite (H fuel L). cbn [fst snd].
  repeat split.
  - destruct (body_doc b); [reflexivity|apply find_cdoc_ok].
  - intros o [N|N]; [now apply parent_loop_out|now apply parent_loop_keep].
  - intros [ND FR] key v I D C. exists (find_doc w d key (level_order ts)). split; [apply find_doc_ok|].
    apply parent_loop_ok; auto.
Qed.

Lemma copy_loop_none : forall w target ms d, (forall key v t, In (key, v) ms -> d v = [] -> callable w v = true -> ~ doc_on w d key target t) -> copy_loop w target d ms = d.
Proof.
  intros w target. induction ms as [|[k v] ms IH]; intros d N; cbn [copy_loop]; auto.
  assert (R : copy_loop w target d ms = d) by (apply IH; intros key v0 t I; apply N; now right).
  destruct (falsy (d v) && callable w v) eqn:F; auto. apply andb_prop in F. destruct F as [F C]. apply falsy_spec in F.
  destruct (attr w target k) as [o|] eqn:A; auto. destruct (falsy (d o)) eqn:G; auto.
  exfalso. apply (N k v (d o)); auto; [now left|]. apply doc_on_attr. apply falsy_not in G. eauto.
Qed.
Lemma copy_loop_first : forall w target before d key v after t,
  (forall k x s, In (k, x) before -> d x = [] -> callable w x = true -> ~ doc_on w d k target s) ->
  d v = [] -> callable w v = true -> doc_on w d key target t ->
  copy_loop w target d (before ++ (key, v) :: after) = set_doc d v t.
Proof.
  intros w target. induction before as [|[k x] before IH]; intros d key v after t N D C O.
  - cbn [app copy_loop]. rewrite D, C. cbn [falsy andb]. apply doc_on_attr in O. destruct O as (NE & o & A & E). rewrite A.
    apply falsy_not in NE. rewrite E, NE. reflexivity.
  - cbn [app copy_loop].
    assert (R : copy_loop w target d (before ++ (key, v) :: after) = set_doc d v t) by (apply IH; auto; intros k0 x0 s I; apply N; now right).
    destruct (falsy (d x) && callable w x) eqn:F; auto. apply andb_prop in F. destruct F as [F C']. apply falsy_spec in F.
    destruct (attr w target k) as [o|] eqn:A; auto. destruct (falsy (d o)) eqn:G; auto.
    exfalso. apply (N k x (d o)); auto; [now left|]. apply doc_on_attr. apply falsy_not in G. eauto.
Qed.

(** *** Metaclasses *)
Lemma skip_In : forall l s x, In x (skip_redundant l s) <-> In x l /\ ~ In x s.
Proof.
  induction l as [|a l IH]; intros s x; cbn [skip_redundant]; [tauto|].
  destruct (memb Nat.eqb a s) eqn:M.
  - apply (memb_In nateqb_ok) in M. rewrite IH. cbn. split; intros H; destruct H as [H1 H2]; split; auto. destruct H1 as [<-|H1]; [contradiction|auto].
  - apply (memb_false nateqb_ok) in M. cbn. rewrite IH. cbn. split.
    + intros [<-|[H1 H2]]; [split; [now left|auto]|]. split; [now right|]. intros J. apply H2. now right.
    + intros [[<-|H1] H2]; [now left|]. destruct (Nat.eq_dec a x) as [->|N]; [now left|]. right. split; auto. intros [J|J]; auto.
Qed.
Lemma skip_NoDup : forall l s, NoDup (skip_redundant l s).
Proof.
  induction l as [|a l IH]; intros s; cbn [skip_redundant]; [constructor|]. destruct (memb Nat.eqb a s); auto.
  constructor; auto. rewrite skip_In. cbn. tauto.
Qed.

Section Inh.
  Variables (mro : nat -> list nat) (inh : inheritance mro) (ty : nat).

  Lemma tl_In : forall c x, In x (tl (mro c)) <-> In x (mro c) /\ x <> c.
  Proof.
    intros c x. destruct (mro_self _ inh c) as [rest E]. pose proof (mro_once _ inh c) as ND. rewrite E in *. cbn. inversion ND; subst.
    split; [intros I; split; auto; congruence|]. intros [[->|I] N]; congruence || auto.
  Qed.
  Lemma redundant_In : forall metas m, In m (remove_redundant mro ty metas) <-> In m metas /\ m <> ty /\ forall x, In x metas -> In m (mro x) -> m = x.
  Proof.
    intros metas m. unfold remove_redundant. rewrite skip_In. cbn. rewrite in_flat_map. split.
    - intros [I N]. repeat split; auto. intros x J K. destruct (Nat.eq_dec m x); auto. exfalso. apply N. right. exists x. split; auto. apply tl_In. auto.
    - intros (I & N & H). split; auto. intros [J|(x & J & K)]; [congruence|]. apply tl_In in K. destruct K as [K1 K2]. apply K2. auto.
  Qed.

  Lemma mro_lt : forall a b, In b (mro a) -> a <> b -> length (mro b) < length (mro a).
  Proof.
    intros a b I N. destruct (mro_self _ inh a) as [rest E].
    assert (NI : ~ In a (mro b)) by (intros J; apply N; exact (mro_anti _ inh a b I J)).
    assert (L : incl (a :: mro b) (mro a)).
    { intros x [<-|J]; [rewrite E; now left|]. exact (mro_trans _ inh a b x I J). }
    assert (ND : NoDup (a :: mro b)) by (constructor; auto; apply (mro_once _ inh)).
    pose proof (NoDup_incl_length ND L). cbn in H. lia.
  Qed.

  (** something at the bottom *)
  Lemma lowest : forall metas m, In m metas -> exists r, In r metas /\ In m (mro r) /\ forall x, In x metas -> In r (mro x) -> r = x.
  Proof.
    intros metas m I.
    assert (B : exists n, forall x, In x metas -> length (mro x) <= n).
    { clear I. induction metas as [|a l [n H]]; [exists 0; intros x []|]. exists (length (mro a) + n). intros x [<-|J]; [lia|]. specialize (H x J). lia. }
    destruct B as [n B].
    assert (G : forall k m', In m' metas -> In m (mro m') -> n - length (mro m') <= k -> exists r, In r metas /\ In m (mro r) /\ forall x, In x metas -> In r (mro x) -> r = x).
    { induction k as [|k IH]; intros m' I' M L.
      - exists m'. repeat split; auto. intros x J K. destruct (Nat.eq_dec m' x) as [|N]; auto. exfalso.
        assert (length (mro m') < length (mro x)) by (apply mro_lt; auto). specialize (B x J). lia.
      - assert (D : (forall x, In x metas -> In m' (mro x) -> m' = x) \/ exists x, In x metas /\ In m' (mro x) /\ m' <> x).
        { clear - metas. induction metas as [|a l [H|H]].
          - left. intros x [].
          - destruct (in_dec Nat.eq_dec m' (mro a)) as [J|J].
            + destruct (Nat.eq_dec m' a) as [->|N].
              * left. intros x [<-|K]; auto.
              * right. exists a. repeat split; auto. now left.
            + left. intros x [<-|K]; auto. contradiction.
          - right. destruct H as (x & H1 & H2). exists x. split; auto. now right. }
        destruct D as [D|(x & J & K & N)]; [exists m'; auto|].
        apply (IH x J); [exact (mro_trans _ inh x m' m K M)|].
        assert (length (mro m') < length (mro x)) by (apply mro_lt; auto). specialize (B x J). lia. }
    destruct (mro_self _ inh m) as [rest E]. apply (G (n - length (mro m)) m); auto. rewrite E. now left.
  Qed.
  Lemma covered : forall metas, (forall m, In m metas -> In ty (mro m)) -> forall m, In m metas -> m = ty \/ exists r, In r (remove_redundant mro ty metas) /\ In m (mro r).
  Proof.
    intros metas MT m I. destruct (Nat.eq_dec m ty) as [->|N]; [now left|]. right. destruct (lowest metas m I) as (r & R & M & H).
    exists r. split; auto. apply redundant_In. repeat split; auto. intros ->. apply N. apply (mro_anti _ inh); auto.
  Qed.

  Lemma teqb_ok : eqb_ok tuple_eqb.
  Proof. intros x y. unfold tuple_eqb. destruct (list_eq_dec Nat.eq_dec x y); split; congruence. Qed.

  Variables (typ : nat -> nat) (make : nat -> list nat -> res nat).
  Hypothesis made : creates mro make.
  Hypothesis metas_typ : forall c, In ty (mro (typ c)).

  Definition good_memo (memo : list (list nat * nat)) := forall k m, dget tuple_eqb memo k = Some m -> (k = [] -> m = ty) /\ forall x, In x k -> In x (mro m).

  Lemma good_set : forall memo k m, good_memo memo -> (k = [] -> m = ty) -> (forall x, In x k -> In x (mro m)) -> good_memo (dset tuple_eqb memo k m).
  Proof.
    intros memo k m G H1 H2 k' m' D. destruct (list_eq_dec Nat.eq_dec k' k) as [->|N].
    - rewrite (dget_dset_eq teqb_ok) in D. injection D as <-. auto.
    - rewrite (dget_dset_neq teqb_ok) in D by auto. apply G; auto.
  Qed.

  Definition needed_of bases l r := remove_redundant mro ty (l ++ map typ bases ++ r).

  Lemma noconflict_ok : forall fuel memo bases l r o memo', good_memo memo -> get_noconflict fuel mro ty typ make memo bases l r = (o, memo') ->
    good_memo memo' /\ (forall k m, dget tuple_eqb memo k = Some m -> dget tuple_eqb memo' k = Some m) /\
    (forall m, o = Ok m -> dget tuple_eqb memo' (needed_of bases l r) = Some m).
  Proof.
    induction fuel as [|f IH]; intros memo bases l r o memo' G E.
    - cbn in E. injection E as <- <-. repeat split; auto; try (apply G; auto). discriminate.
    - cbn [get_noconflict] in E. fold (needed_of bases l r) in E. set (nd := needed_of bases l r) in *.
      destruct (dget tuple_eqb memo nd) as [m0|] eqn:D.
      { injection E as <- <-. repeat split; auto; try (apply G; auto). now intros m [= <-]. }
      assert (K : forall mm memo1, (forall k m, dget tuple_eqb memo k = Some m -> dget tuple_eqb memo1 k = Some m) ->
        forall k m, dget tuple_eqb memo k = Some m -> dget tuple_eqb (dset tuple_eqb memo1 nd mm) k = Some m).
      { intros mm memo1 P k m H. rewrite (dget_dset_neq teqb_ok); auto. intros ->. congruence. }
      destruct nd as [|m1 [|m2 rest]] eqn:ND; cbv zeta in E.
      + injection E as <- <-. split; [|split].
        * apply good_set; auto. intros x [].
        * apply (K ty memo); auto.
        * intros m [= <-]. apply (dget_dset_eq teqb_ok).
      + injection E as <- <-. split; [|split].
        * apply good_set; auto; [discriminate|]. intros x [<-|[]]. destruct (mro_self _ inh m1) as [z Z]. rewrite Z. now left.
        * apply (K m1 memo); auto.
        * intros m [= <-]. apply (dget_dset_eq teqb_ok).
      + destruct (tuple_eqb (m1 :: m2 :: rest) bases).
        { injection E as <- <-. repeat split; auto; try (apply G; auto). discriminate. }
        destruct (get_noconflict f mro ty typ make memo (m1 :: m2 :: rest) [] []) as [o1 memo1] eqn:R.
        destruct (IH _ _ _ _ _ _ G R) as (G1 & P1 & _).
        destruct o1 as [mm|e].
        * destruct (make mm (m1 :: m2 :: rest)) as [m|e] eqn:MK; injection E as <- <-.
          -- split; [|split].
             ++ apply good_set; auto; [discriminate|]. intros x I. exact (made _ _ _ MK x I).
             ++ apply K; auto.
             ++ intros m' [= <-]. apply (dget_dset_eq teqb_ok).
          -- split; [|split]; auto. discriminate.
        * injection E as <- <-. split; [|split]; auto. discriminate.
  Qed.

  Lemma noconflict_sub : forall fuel memo bases l r m memo', good_memo memo -> (forall x, In x (l ++ r) -> In ty (mro x)) ->
    get_noconflict fuel mro ty typ make memo bases l r = (Ok m, memo') -> forall x, In x (l ++ map typ bases ++ r) -> In x (mro m).
  Proof.
    intros fuel memo bases l r m memo' G LR E x I. destruct (noconflict_ok _ _ _ _ _ _ _ G E) as (G' & _ & H). specialize (H m eq_refl).
    destruct (G' _ _ H) as [H1 H2].
    assert (MT : forall y, In y (l ++ map typ bases ++ r) -> In ty (mro y)).
    { intros y J. rewrite !in_app_iff in J. destruct J as [J|[J|J]]; [apply LR; rewrite in_app_iff; auto| |apply LR; rewrite in_app_iff; auto].
      apply in_map_iff in J. destruct J as (b & <- & _). auto. }
    destruct (covered _ MT x I) as [-> |(y & Y1 & Y2)].
    - destruct (needed_of bases l r) as [|y nd] eqn:ND.
      + rewrite H1 by auto. destruct (mro_self _ inh ty) as [z Z]. rewrite Z. now left.
      + apply (mro_trans _ inh m y); [apply H2; now left|]. apply MT. assert (J : In y (needed_of bases l r)) by (rewrite ND; now left).
        unfold needed_of in J. apply redundant_In in J. tauto.
    - apply (mro_trans _ inh m y x); auto.
  Qed.

  Lemma run_good : forall fuel calls memo rs memo', good_memo memo -> maker_run fuel mro ty typ make memo calls = (rs, memo') ->
    good_memo memo' /\ (forall k m, dget tuple_eqb memo k = Some m -> dget tuple_eqb memo' k = Some m) /\ length rs = length calls /\
    (forall i bases l r m, nth_error calls i = Some (bases, l, r) -> nth_error rs i = Some (Ok m) ->
       dget tuple_eqb memo' (needed_of bases l r) = Some m /\ ((forall x, In x (l ++ r) -> In ty (mro x)) -> forall x, In x (l ++ map typ bases ++ r) -> In x (mro m))).
  Proof.
    intros fuel. induction calls as [|[[bs l] r] calls IH]; intros memo rs memo' G E; cbn [maker_run] in E.
    - injection E as <- <-. repeat split; auto; try (apply G; auto). all: destruct i; discriminate.
    - destruct (get_noconflict fuel mro ty typ make memo bs l r) as [o memo1] eqn:N.
      destruct (maker_run fuel mro ty typ make memo1 calls) as [rs' memo2] eqn:R. injection E as <- <-.
      destruct (noconflict_ok _ _ _ _ _ _ _ G N) as (G1 & P1 & H1). destruct (IH _ _ _ G1 R) as (G2 & P2 & L2 & H2).
      split; [|split; [|split]]; auto.
      + cbn. now rewrite L2.
      + intros [|i] bases l0 r0 m C O; cbn in C, O.
        * injection C as -> -> ->. injection O as ->. split; [auto|]. intros LR. exact (noconflict_sub _ _ _ _ _ _ _ G LR N).
        * eapply H2; eauto.
  Qed.
End Inh.

Lemma no_conflict : forall mro ty typ make fuel calls, inheritance mro -> creates mro make -> (forall c, In ty (mro (typ c))) ->
  let rs := fst (maker_run fuel mro ty typ make [] calls) in
  length rs = length calls /\
  (forall i bases l r m, nth_error calls i = Some (bases, l, r) -> nth_error rs i = Some (Ok m) -> (forall x, In x (l ++ r) -> In ty (mro x)) ->
     forall x, In x (l ++ map typ bases ++ r) -> In x (mro m)) /\
  (forall i j bases l r m m', nth_error calls i = Some (bases, l, r) -> nth_error calls j = Some (bases, l, r) ->
     nth_error rs i = Some (Ok m) -> nth_error rs j = Some (Ok m') -> m = m').
Proof.
  intros mro ty typ make fuel calls inh CR MT. cbv zeta. destruct (maker_run fuel mro ty typ make [] calls) as [rs memo'] eqn:R. cbn [fst].
  assert (G : good_memo mro ty []) by (intros k m; discriminate).
  destruct (run_good mro inh ty typ make CR MT _ _ _ _ _ G R) as (_ & _ & L & H). split; auto. split.
  - intros i bases l r m C O LR. destruct (H _ _ _ _ _ C O) as [_ K]. auto.
  - intros i j bases l r m m' C C' O O'. destruct (H _ _ _ _ _ C O) as [K _]. destruct (H _ _ _ _ _ C' O') as [K' _]. congruence.
Qed.

Lemma wrap_loop_ok : forall K V (callables properties : V -> res V) sel_c sel_p (dct : list (K * member V)) r,
  wrap_loop callables properties sel_c sel_p dct = Ok r ->
  Forall2 (fun (a : K * member V) (b : K * V) => fst a = fst b /\ match marked (snd a), mkind (snd a) with
     | false, KCallable => (sel_c (mval (snd a)) = Ok true /\ callables (mval (snd a)) = Ok (snd b)) \/ (sel_c (mval (snd a)) = Ok false /\ snd b = mval (snd a))
     | false, KProperty => (sel_p (mval (snd a)) = Ok true /\ properties (mval (snd a)) = Ok (snd b)) \/ (sel_p (mval (snd a)) = Ok false /\ snd b = mval (snd a))
     | _, _ => snd b = mval (snd a) end) dct r.
Proof.
  intros K V callables properties sel_c sel_p. induction dct as [|[k m] dct IH]; intros r E; cbn [wrap_loop] in E.
  - injection E as <-. constructor.
  - destruct m as [v kd mk]. cbn [mval mkind marked] in E.
    assert (X : exists v' t', r = (k, v') :: t' /\ wrap_loop callables properties sel_c sel_p dct = Ok t' /\
      (if mk then Ok v else match kd with KCallable => res_bind (sel_c v) (fun s : bool => if s then callables v else Ok v)
        | KProperty => res_bind (sel_p v) (fun s : bool => if s then properties v else Ok v) | KOther => Ok v end) = Ok v').
    { destruct (if mk then _ else _) as [v'|e] eqn:X; cbn [res_bind] in E; [|discriminate].
      destruct (wrap_loop callables properties sel_c sel_p dct) as [t'|e]; cbn [res_bind] in E; [|discriminate]. injection E as <-. eauto. }
    destruct X as (v' & t' & -> & W & X). constructor; [|auto]. cbn [fst snd mval mkind marked]. split; auto.
    destruct mk; [congruence|]. destruct kd.
    + destruct (sel_c v) as [[]|e]; cbn in X; [left|right|discriminate]; split; auto; congruence.
    + destruct (sel_p v) as [[]|e]; cbn in X; [left|right|discriminate]; split; auto; congruence.
    + congruence.
Qed.

Lemma skip_order : forall l s l1 a l2 b l3, skip_redundant l s = l1 ++ a :: l2 ++ b :: l3 -> exists p q, l = p ++ a :: q /\ ~ In a p /\ ~ In b p.
Proof.
  induction l as [|x l IH]; intros s l1 a l2 b l3 E; cbn [skip_redundant] in E; [destruct l1; discriminate|].
  assert (IA : forall l0 s0, skip_redundant l0 s0 = l1 ++ a :: l2 ++ b :: l3 -> ~ In a s0 /\ ~ In b s0).
  { intros l0 s0 E0. split.
    - assert (I : In a (skip_redundant l0 s0)) by (rewrite E0, in_app_iff; right; now left). apply skip_In in I. tauto.
    - assert (I : In b (skip_redundant l0 s0)) by (rewrite E0, in_app_iff; right; right; rewrite in_app_iff; right; now left). apply skip_In in I. tauto. }
  destruct (memb Nat.eqb x s) eqn:M.
  - apply (memb_In nateqb_ok) in M. destruct (IA _ _ E) as [A B]. destruct (IH _ _ _ _ _ _ E) as (p & q & -> & Pa & Pb).
    exists (x :: p), q. repeat split; auto; intros [->|J]; auto.
  - destruct l1 as [|y l1]; cbn in E; injection E as -> E.
    + exists [], l. repeat split; auto.
    + destruct (IH _ _ _ _ _ _ E) as (p & q & -> & Pa & Pb).
      assert (A : ~ In a (y :: s) /\ ~ In b (y :: s)).
      { split.
        - assert (I : In a (skip_redundant (p ++ a :: q) (y :: s))) by (rewrite E, in_app_iff; right; now left). apply skip_In in I. tauto.
        - assert (I : In b (skip_redundant (p ++ a :: q) (y :: s))) by (rewrite E, in_app_iff; right; right; rewrite in_app_iff; right; now left). apply skip_In in I. tauto. }
      exists (y :: p), q. repeat split; auto; (intros [->|J]; [cbn in A; tauto|auto]).
Qed.

(** a source with two documented methods *)
Definition w_copy := {| bases_of := fun _ => []; mro := fun c => [c]; own := fun c k => if (c =? 1) && (k =? 5) then Some 10 else if (c =? 1) && (k =? 6) then Some 11 else None;
  cdoc := fun _ => []; callable := fun _ => true; object_cls := 0 |}.
Lemma copy_refuted : ~ (forall w target b d key v t, fresh_members w (members b) -> In (key, v) (members b) -> d v = [] -> callable w v = true -> doc_on w d key target t ->
  snd (CopyDocsFrom w target b d) v = t).
Proof.
  intros H. specialize (H w_copy 1 {| body_doc := None; members := [(5, 20); (6, 21)] |} (fun o => if o =? 10 then [1] else if o =? 11 then [2] else []) 6 21 [2]).
  cbn [members] in H. assert (E : ([] : text) = [2]); [|discriminate]. apply H; auto.
  - split; [repeat constructor; cbn; intuition discriminate|]. intros c k o. cbn.
    destruct ((c =? 1) && (k =? 5)); [intros [= <-]; cbn; intuition discriminate|]. destruct ((c =? 1) && (k =? 6)); [intros [= <-]; cbn; intuition discriminate|discriminate].
  - cbn. auto.
  - split; [discriminate|]. exists 11, [], 1, []. repeat split; auto. intros x [].
Qed.

(** Father (1) has no __init__ (7) of their own, Mother (2) has one *)
Definition w_parents := {| bases_of := fun _ => [0]; mro := fun c => match c with 0 => [0] | _ => [c; 0] end;
  own := fun c k => if k =? 7 then match c with 0 => Some 100 | 2 => Some 101 | _ => None end else None;
  cdoc := fun _ => []; callable := fun _ => true; object_cls := 0 |}.
Lemma own_refuted : ~ (forall w bases ts b d, Forall2 (family w) bases ts -> fresh_members w (members b) -> exists n, forall fuel, n <= fuel ->
  forall key v, In (key, v) (members b) -> d v = [] -> callable w v = true ->
  exists r, first_text (fun c t => t <> [] /\ exists o, own w c key = Some o /\ d o = t) (level_order ts) r /\
    snd (DocsFromParent w fuel bases b d) v = match r with Some t => t | None => [] end).
Proof.
  intros H. specialize (H w_parents [1; 2] [Node 1 []; Node 2 []] {| body_doc := None; members := [(7, 200)] |} (fun o => if o =? 100 then [9] else if o =? 101 then [5] else [])).
  destruct H as [n H].
  - repeat constructor.
  - split; [repeat constructor; cbn; auto|]. intros c k o. cbn. destruct (k =? 7); [|discriminate].
    destruct c as [|[|[|c]]]; intros E; inversion E; cbn; intuition discriminate.
  - destruct (H (S (S (S n))) ltac:(lia) 7 200) as (r & F & E); cbn; auto.
    assert (R : r = Some [5]).
    { cbn in F. inversion F as [|c cs t [_ (o & O & _)]|c cs r' N F']; subst; [discriminate O|].
      inversion F' as [|c cs t [_ (o & O & D)]|c cs r' N' F'']; subst.
      - injection O as <-. reflexivity.
      - exfalso. apply (N' [5]). split; [discriminate|]. exists 101. auto. }
    subst r. cbn in E. discriminate.
Qed.
