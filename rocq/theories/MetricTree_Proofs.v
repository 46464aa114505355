From Coq Require Import Ascii String.
From Verif Require Import Prelude Files_Model Files_Proofs MetricTree_Model MetricTree_Spec.
Import ListNotations.
Open Scope list_scope.

Lemma name_eqb_eq a b : name_eqb a b = true <-> a = b.
Proof. unfold name_eqb. destruct (list_eq_dec ascii_dec a b); split; congruence. Qed.
Lemma name_eqb_refl a : name_eqb a a = true. Proof. apply name_eqb_eq. auto. Qed.
Lemma name_eqb_neq a b : name_eqb a b = false <-> a <> b.
Proof. unfold name_eqb. destruct (list_eq_dec ascii_dec a b); split; congruence. Qed.

(** ** joining and splitting *)
Definition nodots (l : list name) : Prop := forall w, In w l -> ~ In dot w.
Lemma split_nodots : forall p, nodots (split_on dot p).
Proof.
  induction p as [|c r IH]; intros w; cbn [split_on]. { intros [<-|[]] []. }
  destruct (is c dot) eqn:E. { intros [<-|I]; [intros []|auto]. }
  destruct (split_on dot r) as [|v vs] eqn:F. { destruct (split_on_ne _ _ F). }
  apply is_neq in E. intros [<-|I]. { intros [H|H]; [congruence|]. apply (IH v); simpl; auto. } apply IH. simpl; auto.
Qed.
Lemma split_app_dot : forall w r, ~ In dot w -> split_on dot (w ++ dot :: r) = w :: split_on dot r.
Proof.
  induction w as [|c w IH]; intros r N; cbn [app split_on]. { auto. }
  rewrite IH by (intros H; apply N; simpl; auto). replace (is c dot) with false; auto. symmetry. apply is_neq. intros ->. apply N. simpl; auto.
Qed.
Lemma split_one : forall w, ~ In dot w -> split_on dot w = [w].
Proof.
  induction w as [|c w IH]; intros N; cbn [split_on]; auto. rewrite IH by (intros H; apply N; simpl; auto).
  replace (is c dot) with false; auto. symmetry. apply is_neq. intros ->. apply N. simpl; auto.
Qed.
Lemma split_join : forall l, l <> [] -> nodots l -> split_on dot (join_on dot l) = l.
Proof.
  induction l as [|w l IH]; intros E N; [congruence|]. destruct l as [|v l]. { simpl. apply split_one. apply N. simpl; auto. }
  cbn [join_on]. rewrite split_app_dot by (apply N; simpl; auto). f_equal. apply IH; [discriminate|]. intros x I. apply N. simpl in *; tauto.
Qed.
Lemma join_snoc : forall l w, l <> [] -> join_on dot (l ++ [w]) = join_on dot l ++ dot :: w.
Proof.
  intros l w E. rewrite join_removelast by (rewrite app_length; destruct l; simpl; [congruence|lia]). rewrite removelast_last, last_last. auto.
Qed.
Lemma join_snoc_nil l w : join_on dot (l ++ [w]) = [] -> l = [] /\ w = [].
Proof.
  destruct l as [|v l]. { simpl. auto. } rewrite join_snoc by discriminate. intros H. destruct (join_on dot (v :: l)); discriminate.
Qed.
Lemma nodots_app a b : nodots (a ++ b) <-> nodots a /\ nodots b.
Proof. unfold nodots. split; [intros H; split; intros; apply H; apply in_or_app; auto|]. intros [A B] w I. apply in_app_or in I. destruct I; auto. Qed.

(** ** the invariant *)
Record Inv (s : st) : Prop := {
  i_older : forall i p, i < size s -> o_parent (heap s i) = Some p -> p < i;
  i_root : forall i, i < size s -> o_parent (heap s i) = None -> o_level (heap s i) <> INHERIT /\ o_name (heap s i) = [];
  i_reg : forall k i, reg s k = Some i -> i < size s;
  i_child : forall i c, i < size s -> In c (o_children (heap s i)) -> c < size s /\ o_parent (heap s c) = Some i;
  i_kind : forall i, i < size s -> kind_of (o_class (heap s i)) <> None;
  i_top : forall r, reg s [] = Some r -> o_parent (heap s r) = None /\ o_class (heap s r) = "base"%string;
  i_link : forall l w i, nodots (l ++ [w]) -> join_on dot (l ++ [w]) <> [] -> reg s (join_on dot (l ++ [w])) = Some i ->
           exists q, reg s (join_on dot l) = Some q /\ o_parent (heap s i) = Some q /\ o_name (heap s i) = w }.

Lemma put_eq s i o : heap (put s i o) i = o. Proof. simpl. rewrite Nat.eqb_refl. auto. Qed.
Lemma put_neq s i o j : j <> i -> heap (put s i o) j = heap s j. Proof. intros N. simpl. apply Nat.eqb_neq in N. rewrite N. auto. Qed.

(** an object gets another level, other data, or a child that is its own *)
Definition like (s : st) (i : nat) (o : obj) : Prop :=
  o_name o = o_name (heap s i) /\ o_parent o = o_parent (heap s i) /\ o_class o = o_class (heap s i).
Lemma put_like s i o j : like s i o -> o_name (heap (put s i o) j) = o_name (heap s j) /\ o_parent (heap (put s i o) j) = o_parent (heap s j) /\ o_class (heap (put s i o) j) = o_class (heap s j).
Proof. intros L. destruct (Nat.eq_dec j i) as [->|N]; [rewrite put_eq; exact L|rewrite put_neq by auto; auto]. Qed.
Lemma put_Inv s i o : Inv s -> like s i o -> (o_level o = INHERIT -> o_level (heap s i) = INHERIT \/ o_name o <> []) ->
  (forall c, In c (o_children o) -> In c (o_children (heap s i)) \/ (c < size s /\ o_parent (heap s c) = Some i)) -> Inv (put s i o).
Proof.
  intros I L LV CH. pose proof (put_like s i o) as P. constructor.
  - intros j p J. rewrite (proj1 (proj2 (P j L))). apply I. auto.
  - intros j J. rewrite (proj1 (proj2 (P j L))), (proj1 (P j L)). intros E. destruct (i_root s I j J E) as [A B]. split; auto.
    destruct (Nat.eq_dec j i) as [->|N]; [|rewrite put_neq by auto; auto]. rewrite put_eq. intros H. destruct (LV H) as [X|X]; auto. destruct L as [L _]. congruence.
  - intros k j. apply (i_reg s I).
  - intros j c J H. rewrite (proj1 (proj2 (P c L))). destruct (Nat.eq_dec j i) as [->|N]; [|rewrite put_neq in H by auto; apply (i_child s I j c J H)].
    rewrite put_eq in H. destruct (CH c H) as [X|X]; auto. apply (i_child s I i c J X).
  - intros j J. rewrite (proj2 (proj2 (P j L))). apply I. auto.
  - intros r R. rewrite (proj1 (proj2 (P r L))), (proj2 (proj2 (P r L))). apply I. auto.
  - intros l w j N E R. rewrite (proj1 (proj2 (P j L))), (proj1 (P j L)). apply (i_link s I l w j N E R).
Qed.

(** ** levels *)
Lemma climb_ok s : Inv s -> forall n i, i < n -> i < size s -> exists l, effective s i l /\ climb n s i = Ok l.
Proof.
  intros I. induction n as [|n IH]; intros i N Z; [lia|]. cbn [climb]. destruct (o_level (heap s i)) eqn:E; cbn [is_inherit].
  1-3: eexists; split; [|reflexivity]; rewrite <- E; apply own_level; congruence.
  destruct (o_parent (heap s i)) as [p|] eqn:P.
  - pose proof (i_older s I i p Z P). destruct (IH p) as (l & A & B); try lia. exists l. split; auto. eapply inherited; eauto.
  - destruct (proj1 (i_root s I i Z P) E).
Qed.
Lemma effective_fun s i l : effective s i l -> forall l', effective s i l' -> l = l'.
Proof.
  induction 1 as [i N|i p l E P H IH]; intros l' H'.
  - inversion H'; subst; congruence.
  - inversion H' as [? N'|? p' ? E' P' H'']; subst; [congruence|]. apply IH. congruence.
Qed.
Lemma level_ok s i : Inv s -> i < size s -> exists l, effective s i l /\ level s i = Ok l.
Proof. intros I Z. apply climb_ok; auto. Qed.
Lemma level_iff s i l : Inv s -> i < size s -> (effective s i l <-> level s i = Ok l).
Proof.
  intros I Z. destruct (level_ok s i I Z) as (l' & A & B). rewrite B. split; [|intros X; injection X as <-; auto]. intros H. f_equal. eapply effective_fun; eauto.
Qed.
Lemma rank_leb a b : (lval a <=? lval b)%nat = (rank a <=? rank b)%nat.
Proof. destruct a, b; reflexivity. Qed.
Lemma not_above_ok s c i : Inv s -> c < size s -> i < size s -> not_above s c i = true <-> shown s c i.
Proof.
  intros I C Z. destruct (level_ok s c I C) as (a & A & A'). destruct (level_ok s i I Z) as (b & B & B'). unfold not_above. rewrite A', B', rank_leb. split.
  - intros H. apply Nat.leb_le in H. exists a, b. auto.
  - intros (a' & b' & X & Y & H). rewrite (effective_fun _ _ _ A _ X), (effective_fun _ _ _ B _ Y). apply Nat.leb_le. auto.
Qed.
Lemma effective_not_inherit s i l : effective s i l -> l <> INHERIT.
Proof. induction 1; auto. Qed.

(** ** what stays when metrics are added *)
Record ext (s s' : st) : Prop := {
  e_size : size s <= size s';
  e_reg : forall k i, reg s k = Some i -> reg s' k = Some i;
  e_obj : forall i, i < size s -> o_name (heap s' i) = o_name (heap s i) /\ o_parent (heap s' i) = o_parent (heap s i) /\
          o_class (heap s' i) = o_class (heap s i) /\ incl (o_children (heap s i)) (o_children (heap s' i)) }.
Lemma ext_refl s : ext s s. Proof. constructor; auto. intros; repeat split; auto. apply incl_refl. Qed.
Lemma ext_trans a b c : ext a b -> ext b c -> ext a c.
Proof.
  intros A B. constructor. { pose proof (e_size _ _ A). pose proof (e_size _ _ B). lia. }
  - intros k i R. apply B. apply A. auto.
  - intros i Z. destruct (e_obj _ _ A i Z) as (A1 & A2 & A3 & A4). destruct (e_obj _ _ B i) as (B1 & B2 & B3 & B4). { pose proof (e_size _ _ A). lia. }
    repeat split; try congruence. eapply incl_tran; eauto.
Qed.
Lemma put_ext s i o : like s i o -> incl (o_children (heap s i)) (o_children o) -> ext s (put s i o).
Proof.
  intros L C. constructor; auto. intros j J. destruct (put_like s i o j L) as (A & B & D). repeat split; auto.
  destruct (Nat.eq_dec j i) as [->|N]; [rewrite put_eq; auto|rewrite put_neq by auto; apply incl_refl].
Qed.
Lemma set_level_ok s i l s' r : Inv s -> i < size s -> set_level s i l = (s', r) -> Inv s' /\ ext s s' /\ size s' = size s /\ reg s' = reg s.
Proof.
  intros I Z. unfold set_level. destruct (_ && _) eqn:E; intros H; injection H as <- _. { split; [|split; [|split]]; auto using ext_refl. }
  split; [|split; [|auto]].
  - apply put_Inv; auto. { repeat split; auto. } cbn [o_level o_name]. intros ->. right. simpl in E. apply name_eqb_neq. auto.
  - apply put_ext; [repeat split; auto|apply incl_refl].
Qed.
Lemma handle_ok s i l v s' r : Inv s -> i < size s -> handle s i l v = (s', r) -> Inv s' /\ ext s s' /\ size s' = size s /\ reg s' = reg s.
Proof.
  intros I Z. assert (N : Inv s /\ ext s s /\ size s = size s /\ reg s = reg s) by (split; [|split; [|split]]; auto using ext_refl).
  unfold handle. destruct (level s i); [|intros H; injection H as <- _; auto]. destruct (_ <=? _)%nat; [|intros H; injection H as <- _; auto].
  destruct (kind_of _) as [[| |]|]; intros H; injection H as <- _; auto. split; [|split; [|auto]].
  - apply put_Inv; auto. repeat split; auto. 
  - apply put_ext; [repeat split; auto|apply incl_refl].
Qed.

Lemma make_new s k o : heap (make s k o) (size s) = o. Proof. simpl. rewrite Nat.eqb_refl. auto. Qed.
Lemma make_old s k o i : i < size s -> heap (make s k o) i = heap s i.
Proof. intros Z. simpl. destruct (Nat.eqb_spec i (size s)); auto. lia. Qed.
Lemma make_reg_eq s k o : reg (make s k o) k = Some (size s). Proof. simpl. rewrite name_eqb_refl. auto. Qed.
Lemma make_reg_neq s k o k' : k' <> k -> reg (make s k o) k' = reg s k'.
Proof. intros N. apply name_eqb_neq in N. simpl. rewrite N. auto. Qed.
Lemma make_ext s k o : reg s k = None -> ext s (make s k o).
Proof.
  intros R. constructor. { simpl. lia. } { intros k' i E. rewrite make_reg_neq; auto. congruence. }
  intros i Z. rewrite make_old by auto. repeat split; auto. apply incl_refl.
Qed.
Lemma make_Inv_gen s k o : Inv s -> reg s k = None -> o_children o = [] -> kind_of (o_class o) <> None ->
  (forall p, o_parent o = Some p -> p < size s) -> (o_parent o = None -> o_level o <> INHERIT /\ o_name o = []) ->
  (k = [] -> o_parent o = None /\ o_class o = "base"%string) ->
  (forall l w, nodots (l ++ [w]) -> k = join_on dot (l ++ [w]) -> k <> [] -> exists q, reg s (join_on dot l) = Some q /\ o_parent o = Some q /\ o_name o = w) ->
  Inv (make s k o).
Proof.
  intros I R C K P N T L.
  assert (OLD : forall i, i < S (size s) -> i < size s \/ i = size s) by (intros; lia). constructor; cbn [size make].
  - intros i p Z. destruct (OLD i Z) as [Y| ->]; [rewrite make_old by auto; apply I; auto|rewrite make_new; auto].
  - intros i Z. destruct (OLD i Z) as [Y| ->]; [rewrite make_old by auto; apply I; auto|rewrite make_new; auto].
  - intros k' i E. destruct (list_eq_dec ascii_dec k' k) as [->|NE]. { rewrite make_reg_eq in E. injection E as <-. lia. }
    rewrite make_reg_neq in E by auto. apply I in E. lia.
  - intros i c Z. destruct (OLD i Z) as [Y| ->]; [|rewrite make_new, C; intros []]. rewrite make_old by auto. intros H.
    destruct (i_child s I i c Y H) as [A B]. rewrite make_old by auto. split; auto.
  - intros i Z. destruct (OLD i Z) as [Y| ->]; [rewrite make_old by auto; apply I; auto|rewrite make_new; auto].
  - intros r E. destruct (list_eq_dec ascii_dec [] k) as [<-|NE]. { rewrite make_reg_eq in E. injection E as <-. rewrite make_new. auto. }
    rewrite make_reg_neq in E by auto. rewrite make_old by (apply (i_reg s I [] r E)). apply I. auto.
  - intros l w i ND NE E. destruct (list_eq_dec ascii_dec (join_on dot (l ++ [w])) k) as [X|X].
    + rewrite X in E. rewrite make_reg_eq in E. injection E as <-. rewrite make_new. destruct (L l w ND (eq_sym X)) as (q & A & B & D); [congruence|].
      exists q. rewrite make_reg_neq by congruence. auto.
    + rewrite make_reg_neq in E by auto. rewrite make_old by (apply (i_reg s I _ _ E)). destruct (i_link s I l w i ND NE E) as (q & A & B & D).
      exists q. rewrite make_reg_neq by congruence. auto.
Qed.

Lemma process_root s full t l bad s' r : Inv s -> process s full [] [] None t l bad = (s', r) ->
  Inv s' /\ ext s s' /\ exists m, r = Ok m /\ reg s' [] = Some m.
Proof.
  intros I. unfold process. destruct (reg s []) as [m|] eqn:R. { intros H. injection H as <- <-. split; [|split]; auto using ext_refl. eauto. }
  rewrite name_eqb_refl. intros H. injection H as <- <-. split; [|split; [apply make_ext; auto|exists (size s); split; auto]].
  apply make_Inv_gen; auto; cbn [o_children o_class o_parent o_level o_name new_obj].
  - discriminate.
  - discriminate.
  - intros _. split; [discriminate|auto].
  - congruence.
Qed.
Lemma process_part s full done part root t l bad s' r : Inv s -> nodots (done ++ [part]) -> reg s (join_on dot done) = Some root ->
  process s full (join_on dot (done ++ [part])) part (Some root) t l bad = (s', r) ->
  Inv s' /\ ext s s' /\ (forall m, r = Ok m -> reg s' (join_on dot (done ++ [part])) = Some m) /\
  (forall k i, reg s' k = Some i -> reg s k = Some i \/ (k = join_on dot (done ++ [part]) /\ i = size s)) /\
  (forall k c q, reg s' k = Some c -> reg s k = None -> o_parent (heap s' c) = Some q -> kind_of (o_class (heap s' q)) <> Some KLeaf -> In c (o_children (heap s' q))) /\
  (forall i c, i < size s' -> In c (o_children (heap s' i)) -> c < size s -> i < size s /\ In c (o_children (heap s i))) /\
  (forall i, i < size s' -> size s <= i -> exists k, reg s' k = Some i) /\
  (forall m, r = Ok m -> full = join_on dot (done ++ [part]) -> full <> [] -> reg s full = None -> o_class (heap s' m) = t).
Proof.
  intros I ND RT. set (tent := join_on dot (done ++ [part])). unfold process. destruct (reg s tent) as [m|] eqn:R.
  { intros H. injection H as <- <-. split; auto. split; [apply ext_refl|]. split; [congruence|]. split; auto. split; [congruence|]. split; auto. split; [lia|congruence]. }
  destruct (name_eqb tent []) eqn:E.
  { apply name_eqb_eq in E. destruct (join_snoc_nil done part E) as [-> ->]. simpl in tent, RT. unfold tent in R. congruence. }
  apply name_eqb_neq in E.
  assert (RZ : root < size s) by (apply (i_reg s I _ _ RT)).
  assert (KEY : forall o, o_children o = [] -> kind_of (o_class o) <> None -> o_parent o = Some root -> o_name o = part -> (full = tent -> o_class o = t) ->
     (let m := size s in let s0 := make s tent o in match append_child s0 root m with (s1, Ok _) => (s1, Ok m) | (s1, Err e) => (s1, Err e) end) = (s', r) ->
     Inv s' /\ ext s s' /\ (forall m, r = Ok m -> reg s' tent = Some m) /\
     (forall k i, reg s' k = Some i -> reg s k = Some i \/ (k = tent /\ i = size s)) /\
     (forall k c q, reg s' k = Some c -> reg s k = None -> o_parent (heap s' c) = Some q -> kind_of (o_class (heap s' q)) <> Some KLeaf -> In c (o_children (heap s' q))) /\
     (forall i c, i < size s' -> In c (o_children (heap s' i)) -> c < size s -> i < size s /\ In c (o_children (heap s i))) /\
     (forall i, i < size s' -> size s <= i -> exists k, reg s' k = Some i) /\
     (forall m, r = Ok m -> full = tent -> full <> [] -> reg s full = None -> o_class (heap s' m) = t)).
  { intros o OC OK OP ON OT.
    assert (I0 : Inv (make s tent o)).
    { apply make_Inv_gen; auto; try congruence.
      intros l0 w N2 X _. assert (EQ : done ++ [part] = l0 ++ [w]).
      { rewrite <- (split_join (done ++ [part])), <- (split_join (l0 ++ [w])); auto; try (destruct l0; discriminate); try (destruct done; discriminate). f_equal. exact X. }
      apply app_inj_tail in EQ. destruct EQ as [<- <-]. exists root. auto. }
    pose proof (make_ext s tent o R) as X0. assert (RO : heap (make s tent o) root = heap s root) by (apply make_old; auto).
    assert (RG : forall k i, reg (make s tent o) k = Some i -> reg s k = Some i \/ (k = tent /\ i = size s)).
    { intros k i H. destruct (list_eq_dec ascii_dec k tent) as [->|NE]. { rewrite make_reg_eq in H. injection H as <-. auto. } rewrite make_reg_neq in H; auto. }
    assert (ALL : forall i, i < S (size s) -> size s <= i -> exists k, reg (make s tent o) k = Some i).
    { intros i A B. exists tent. rewrite make_reg_eq. f_equal. lia. }
    cbv zeta. unfold append_child. rewrite RO.
    destruct (kind_of (o_class (heap s root))) as [[| |]|] eqn:K.
    3: { intros H. injection H as <- <-. split; auto. split; auto. split; [discriminate|]. split; auto. split; [|split; [|split; [auto|discriminate]]].
         - intros k c q A B. destruct (RG k c A) as [Y|[-> ->]]; [congruence|]. rewrite make_new, OP. intros Q. injection Q as <-. rewrite RO, K. congruence.
         - intros i c A B C. cbn [size make] in A. assert (Y : i < size s \/ i = size s) by lia. destruct Y as [Y| ->]; [|rewrite make_new, OC in B; destruct B].
           rewrite make_old in B by auto. auto. }
    3: destruct (i_kind s I root RZ K).
    all: intros H; injection H as <- <-;
      match goal with |- context[put _ _ ?o] => set (o' := o) end;
      assert (LK : like (make s tent o) root o') by (unfold like; rewrite RO; repeat split; auto);
      (split; [apply put_Inv; auto; rewrite RO; [auto|]; cbn [o_children o']; intros c C; apply in_app_or in C; destruct C as [C|[<-|[]]]; auto; right; rewrite make_new; split; [simpl; lia|auto]|]);
      (split; [eapply ext_trans; [exact X0|]; apply put_ext; auto; rewrite RO; cbn [o_children o']; intros c C; apply in_or_app; auto|]);
      (split; [intros m M; injection M as <-; apply make_reg_eq|]);
      (split; [exact RG|]);
      (split; [|split; [|split; [exact ALL|]]]).
    all: try (intros k c q A B; destruct (RG k c A) as [Y|[-> ->]]; [congruence|];
         rewrite (proj1 (proj2 (put_like _ _ _ (size s) LK))), make_new, OP; intros Q; injection Q as <-; rewrite put_eq; intros _;
         unfold o'; cbn [o_children]; apply in_or_app; simpl; auto).
    all: try (intros i c A B C; cbn [size put make] in A; destruct (Nat.eq_dec i root) as [->|NE];
         [rewrite put_eq in B; unfold o' in B; cbn [o_children] in B; apply in_app_or in B; destruct B as [B|[<-|[]]]; [auto|lia]|];
         rewrite put_neq in B by auto; assert (Y : i < size s \/ i = size s) by lia; destruct Y as [Y| ->];
         [rewrite make_old in B by auto; auto|rewrite make_new, OC in B; destruct B]).
    all: intros m M F _ _; injection M as <-; rewrite (proj2 (proj2 (put_like _ _ _ (size s) LK))), make_new; auto. }
  cbv zeta in KEY. destruct (name_eqb full tent) eqn:F.
  - destruct (kind_of t) as [kd|] eqn:KT.
    + destruct bad as [e|].
      * intros H. injection H as <- <-. split; auto. split; [apply ext_refl|]. split; [discriminate|]. split; auto. split; [congruence|]. split; auto. split; [lia|discriminate].
      * apply KEY; auto. cbn [o_class new_obj]. congruence.
    + intros H. injection H as <- <-. split; auto. split; [apply ext_refl|]. split; [discriminate|]. split; auto. split; [congruence|]. split; auto. split; [lia|discriminate].
  - apply name_eqb_neq in F. apply KEY; auto; try congruence. discriminate.
Qed.

(** ** the whole of getMetric *)
Definition Pk (s : st) : Prop := forall k i, reg s k = Some i -> proper k.
Definition Ch (s : st) : Prop := forall k c q, reg s k = Some c -> o_parent (heap s c) = Some q -> kind_of (o_class (heap s q)) <> Some KLeaf -> In c (o_children (heap s q)).
Definition All (s : st) : Prop := forall i, i < size s -> exists k, reg s k = Some i.
Definition keeps (full : name) (s s' : st) : Prop := (proper full -> Pk s -> Pk s') /\ (Ch s -> Ch s') /\ (All s -> All s').
Lemma keeps_refl f s : keeps f s s. Proof. repeat split; auto. Qed.
Lemma keeps_trans f a b c : keeps f a b -> keeps f b c -> keeps f a c.
Proof. intros (A & B & C) (D & E & F). repeat split; auto. Qed.
Lemma Ch_ext s s' : Inv s -> ext s s' ->
  (forall k c q, reg s' k = Some c -> reg s k = None -> o_parent (heap s' c) = Some q -> kind_of (o_class (heap s' q)) <> Some KLeaf -> In c (o_children (heap s' q))) -> Ch s -> Ch s'.
Proof.
  intros I X N H k c q R P K. destruct (reg s k) as [c'|] eqn:E; [|eapply N; eauto].
  pose proof (e_reg _ _ X _ _ E) as E'. rewrite E' in R. injection R as ->. pose proof (i_reg s I _ _ E) as CZ.
  destruct (e_obj _ _ X c CZ) as (_ & P' & _). rewrite P' in P. pose proof (i_older s I c q CZ P) as QZ.
  destruct (e_obj _ _ X q) as (_ & _ & K' & C'); [lia|]. apply C'. apply (H k c q E P). congruence.
Qed.
Lemma proper_prefix a b : nodots (a ++ b) -> a <> [] -> ~ In [] (a ++ b) -> proper (join_on dot a).
Proof. intros N E H. right. apply nodots_app in N. rewrite split_join by tauto. intros X. apply H. apply in_or_app; auto. Qed.

Lemma process_all_ok full t l bad : forall rest done s root s' r, Inv s -> nodots (done ++ rest) -> (join_on dot (done ++ rest) = full) -> reg s (join_on dot done) = Some root ->
  process_all s full done rest root t l bad = (s', r) ->
  Inv s' /\ ext s s' /\ keeps full s s' /\ (forall m, r = Ok m -> reg s' full = Some m) /\
  (forall m, r = Ok m -> rest <> [] -> full <> [] -> reg s full = None -> o_class (heap s' m) = t).
Proof.
  induction rest as [|part rest IH]; intros done s root s' r I N F R; cbn [process_all].
  { intros H. injection H as <- <-. rewrite app_nil_r in F. subst full. split; auto. split; [apply ext_refl|]. split; [apply keeps_refl|]. split; congruence. }
  destruct (process s full (join_on dot (done ++ [part])) part (Some root) t l bad) as [s1 r1] eqn:P. intros H.
  assert (AS : done ++ part :: rest = (done ++ [part]) ++ rest) by (rewrite <- app_assoc; auto).
  assert (N1 : nodots (done ++ [part])). { rewrite AS in N. apply nodots_app in N. tauto. }
  destruct (process_part s full done part root t l bad s1 r1 I N1 R P) as (I1 & X1 & R1 & G1 & C1 & _ & A1 & T1).
  assert (K1 : keeps full s s1).
  { split; [|split].
    - intros PF PK k i E. destruct (G1 k i E) as [Y|[-> _]]; [eapply PK; eauto|]. destruct PF as [PF|PF].
      + subst full. rewrite AS in PF. destruct (list_eq_dec (list_eq_dec ascii_dec) rest []) as [->|NE]. { rewrite app_nil_r in PF. left. auto. }
        exfalso. destruct (exists_last NE) as (z & w & Z). rewrite Z, app_assoc in PF. destruct (join_snoc_nil _ _ PF) as [Y _]. destruct done; discriminate.
      + rewrite <- F, split_join in PF; auto; [|destruct done; discriminate]. rewrite AS in PF, N. eapply proper_prefix; eauto. destruct done; discriminate.
    - apply Ch_ext; auto.
    - intros AL i Z. destruct (le_lt_dec (size s) i) as [L|L]; [apply A1; auto|]. destruct (AL i L) as [k K]. exists k. apply X1. auto. }
  destruct r1 as [m1|e].
  - rewrite AS in N, F. destruct (IH (done ++ [part]) s1 m1 s' r I1 N F (R1 m1 eq_refl) H) as (I2 & X2 & K2 & R2 & T2).
    split; auto. split; [eapply ext_trans; eauto|]. split; [eapply keeps_trans; eauto|]. split; auto.
    intros m M _ NE RN. destruct rest as [|p2 rest].
    + cbn [process_all] in H. injection H as <- <-. injection M as <-. rewrite app_nil_r in F. apply T1; auto.
    + apply T2; auto; [discriminate|]. destruct (reg s1 full) as [z|] eqn:E; auto. destruct (G1 full z E) as [Y|[Y _]]; [congruence|].
      exfalso. rewrite <- F in Y. apply (f_equal (split_on dot)) in Y. rewrite !split_join in Y; auto; try (destruct done; discriminate).
      apply (f_equal (@length _)) in Y. rewrite !app_length in Y. simpl in Y. lia.
  - injection H as <- <-. split; auto. split; auto. split; auto. split; discriminate.
Qed.

Lemma put_keeps f s i o : like s i o -> o_children o = o_children (heap s i) -> keeps f s (put s i o).
Proof.
  intros L C. split; [|split]; auto. intros H k c q R P K. destruct (put_like s i o c L) as (_ & P' & _). destruct (put_like s i o q L) as (_ & _ & K').
  rewrite P' in P. rewrite K' in K. pose proof (H k c q R P K) as X. destruct (Nat.eq_dec q i) as [->|N]; [rewrite put_eq, C; auto|rewrite put_neq; auto].
Qed.
Lemma set_level_keeps f s i l : keeps f s (fst (set_level s i l)).
Proof. unfold set_level. destruct (_ && _); [apply keeps_refl|]. apply put_keeps; auto. repeat split; auto. Qed.
Lemma handle_keeps f s i l v : keeps f s (fst (handle s i l v)).
Proof.
  unfold handle. destruct (level s i); [|apply keeps_refl]. destruct (_ <=? _)%nat; [|apply keeps_refl]. destruct (kind_of _) as [[| |]|]; try apply keeps_refl.
  apply put_keeps; auto. repeat split; auto.
Qed.
Lemma get_metric_ok s full t l bad s' r : Inv s -> get_metric s full t l bad = (s', r) ->
  Inv s' /\ ext s s' /\ keeps full s s' /\ (forall m, r = Ok m -> reg s' full = Some m) /\
  (forall m, r = Ok m -> o_class (heap s' m) = t \/ full = []) /\ (forall m, r = Ok m -> forallb allowed full = true).
Proof.
  intros I. unfold get_metric. destruct (forallb allowed full) eqn:FA; cbn [negb].
  2: { intros H. injection H as <- <-. split; auto. split; [apply ext_refl|]. split; [apply keeps_refl|]. repeat split; discriminate. }
  assert (ND : nodots ([] ++ split_on dot full)) by apply split_nodots.
  assert (FJ : join_on dot ([] ++ split_on dot full) = full) by apply join_split.
  destruct (match reg s full with Some m => _ | None => false end) eqn:TY.
  { intros H. injection H as <- <-. split; auto. split; [apply ext_refl|]. split; [apply keeps_refl|]. repeat split; discriminate. }
  destruct (process s full [] [] None t l bad) as [s1 r1] eqn:P0.
  destruct (process_root _ _ _ _ _ _ _ I P0) as (I1 & X1 & m1 & -> & R1).
  assert (K1 : keeps full s s1).
  { unfold process in P0. destruct (reg s []) as [m|] eqn:R. { injection P0 as <- _. apply keeps_refl. } rewrite name_eqb_refl in P0. injection P0 as <- _.
    split; [|split].
    - intros _ PK k i E. destruct (list_eq_dec ascii_dec k []) as [->|NE]; [left; auto|]. rewrite make_reg_neq in E by auto. eapply PK; eauto.
    - apply Ch_ext; auto. intros k c q E RN. destruct (list_eq_dec ascii_dec k []) as [->|NE].
      + rewrite make_reg_eq in E. injection E as <-. rewrite make_new. discriminate.
      + rewrite make_reg_neq in E by auto. congruence.
    - intros AL i Z. cbn [size make] in Z. destruct (Nat.eq_dec i (size s)) as [->|NE]. { exists []. apply make_reg_eq. }
      destruct (AL i) as [k K]; [lia|]. exists k. apply X1. auto. }
  destruct (process_all s1 full [] (split_on dot full) m1 t l bad) as [s2 r2] eqn:P2. 
  destruct (process_all_ok full t l bad (split_on dot full) [] s1 m1 s2 r2 I1 ND FJ R1 P2) as (I2 & X2 & K2 & R2 & T2).
  pose proof (ext_trans _ _ _ X1 X2) as X12. pose proof (keeps_trans _ _ _ _ K1 K2) as K12.
  destruct r2 as [m|e].
  2: { intros H. injection H as <- <-. split; auto. split; auto. split; auto. repeat split; discriminate. }
  specialize (R2 m eq_refl). pose proof (i_reg s2 I2 _ _ R2) as MZ.
  assert (TC : o_class (heap s2 m) = t \/ full = []).
  { destruct (list_eq_dec ascii_dec full []) as [->|NE]; auto. left.
    destruct (reg s full) as [z|] eqn:RF.
    - pose proof (e_reg _ _ X12 _ _ RF) as RZ. rewrite RZ in R2. injection R2 as ->.
      destruct (e_obj _ _ X12 m) as (_ & _ & -> & _). { apply (i_reg s I _ _ RF). } apply negb_false_iff in TY. apply String.eqb_eq. auto.
    - apply T2; auto. { apply split_on_ne. }
      destruct (reg s1 full) as [z|] eqn:RF1; auto. unfold process in P0. destruct (reg s []); [congruence|]. rewrite name_eqb_refl in P0. injection P0 as <- _.
      rewrite make_reg_neq in RF1; congruence. }
  destruct l as [l|].
  - destruct (set_level s2 m l) as [s3 r3] eqn:SL. destruct (set_level_ok s2 m l s3 r3 I2 MZ SL) as (I3 & X3 & _ & RG3).
    pose proof (set_level_keeps full s2 m l) as K3. rewrite SL in K3. cbn [fst] in K3.
    assert (DN : Inv s3 /\ ext s s3 /\ keeps full s s3) by (split; [|split]; auto; [eapply ext_trans; eauto|eapply keeps_trans; eauto]). destruct DN as (D1 & D2 & D3).
    destruct r3 as [u|e]; intros H; injection H as <- <-; split; auto; split; auto; split; auto.
    + split; [|split]; auto; intros m' M; injection M as <-.
      * rewrite RG3. auto.
      * destruct (e_obj _ _ X3 m MZ) as (_ & _ & -> & _). auto.
    + repeat split; discriminate.
  - intros H. injection H as <- <-. split; auto. split; auto. split; auto. split; [|split]; auto; intros m' M; injection M as <-; auto.
Qed.

(** ** reset *)
Lemma starts_app : forall p k, starts_with (p ++ k) p = true.
Proof. induction p as [|c p IH]; intros k; simpl; [destruct k; auto|]. rewrite IH, andb_true_r. apply is_ok. auto. Qed.
Lemma starts_ok : forall k p, starts_with k p = true <-> exists r, k = p ++ r.
Proof.
  intros k p. split; [|intros [r ->]; apply starts_app]. revert k. induction p as [|c p IH]; intros k H. { exists k. auto. }
  destruct k as [|d k]; [discriminate|]. simpl in H. apply andb_true_iff in H. destruct H as [A B]. apply is_ok in A. subst. destruct (IH k B) as [r ->]. exists r. auto.
Qed.
Lemma set_reg_Inv s r' : Inv s -> (forall k i, r' k = Some i -> reg s k = Some i) ->
  (forall l w i, nodots (l ++ [w]) -> join_on dot (l ++ [w]) <> [] -> r' (join_on dot (l ++ [w])) = Some i -> r' (join_on dot l) = reg s (join_on dot l)) -> Inv (set_reg s r').
Proof.
  intros I SUB CL. constructor; try apply I.
  - intros k i R. apply (i_reg s I k i). auto.
  - intros r R. apply I. auto.
  - intros l w i N E R. cbn [reg set_reg] in *. destruct (i_link s I l w i N E (SUB _ _ R)) as (q & A & B). exists q. rewrite (CL l w i N E R). auto.
Qed.
Lemma no_children_Inv s i : Inv s -> Inv (no_children s i).
Proof. intros I. apply put_Inv; auto. repeat split; auto. intros c []. Qed.
Lemma filter_closed f k l w : f <> [] -> nodots (l ++ [w]) -> k = join_on dot (l ++ [w]) -> starts_with k (f ++ [dot]) = false ->
  starts_with (join_on dot l) (f ++ [dot]) = false /\ join_on dot l <> f.
Proof.
  intros F N -> S. destruct l as [|v l].
  - simpl. split; [|congruence]. destruct f; [congruence|auto].
  - rewrite join_snoc in S by discriminate. set (x := join_on dot (v :: l)) in *. split.
    + destruct (starts_with x (f ++ [dot])) eqn:E; auto. apply starts_ok in E. destruct E as [r E]. rewrite E, <- app_assoc, starts_app in S. discriminate.
    + intros ->. replace (f ++ dot :: w) with ((f ++ [dot]) ++ w) in S by (rewrite <- app_assoc; auto). rewrite starts_app in S. discriminate.
Qed.
Lemma full_name_ne s i : Inv s -> i < size s -> o_name (heap s i) <> [] -> full_name s i <> [].
Proof.
  intros I Z N. unfold full_name. cbn [climb_names]. destruct (o_parent (heap s i)) eqn:P. { intros E. apply join_snoc_nil in E. tauto. }
  destruct (i_root s I i Z P). congruence.
Qed.
Lemma reset_ok s i s' r : Inv s -> i < size s -> reset s i = (s', r) -> Inv s' /\ size s' = size s /\ (forall k j, reg s' k = Some j -> reg s k = Some j) /\
  (forall j, o_name (heap s' j) = o_name (heap s j) /\ o_parent (heap s' j) = o_parent (heap s j) /\ o_class (heap s' j) = o_class (heap s j) /\
             (j <> i -> o_children (heap s' j) = o_children (heap s j))) /\
  (o_children (heap s' i) = o_children (heap s i) \/ reg s' = (fun _ => None) \/ reg s' (full_name s i) = None).
Proof.
  intros I Z. unfold reset. destruct (name_eqb (o_name (heap s i)) []) eqn:E.
  { intros H. injection H as <- <-. split; [|split; [auto|split; [discriminate|split; [|auto]]]].
    - apply no_children_Inv. apply set_reg_Inv; auto; discriminate.
    - intros j. destruct (put_like (set_reg s (fun _ => None)) i {| o_name := o_name (heap s i); o_parent := o_parent (heap s i); o_level := o_level (heap s i); o_class := o_class (heap s i); o_children := []; o_data := o_data (heap s i) |} j) as (A & B & C). { repeat split; auto. }
      repeat split; auto. intros N. unfold no_children. rewrite put_neq by auto. auto. }
  apply name_eqb_neq in E. pose proof (full_name_ne s i I Z E) as F. set (f := full_name s i) in *. cbv zeta.
  set (r1 := fun k => if starts_with k (f ++ [dot]) then None else reg s k).
  assert (SF : starts_with f (f ++ [dot]) = false).
  { destruct (starts_with f (f ++ [dot])) eqn:X; auto. apply starts_ok in X. destruct X as [t X]. apply (f_equal (@length _)) in X. rewrite !app_length in X. simpl in X. lia. }
  assert (I1 : Inv (set_reg s r1)).
  { apply set_reg_Inv; auto. { intros k j. unfold r1. destruct (starts_with k (f ++ [dot])); [discriminate|auto]. }
    intros l w j N NE R. unfold r1 in *. destruct (starts_with (join_on dot (l ++ [w])) _) eqn:X; [discriminate|]. destruct (filter_closed f _ l w F N eq_refl X) as [-> _]. auto. }
  cbn [reg set_reg]. destruct (r1 f) as [z|] eqn:RF; intros H; injection H as <- <-.
  - set (r2 := fun k => if name_eqb k f then None else r1 k).
    assert (I2 : Inv (set_reg (set_reg s r1) r2)).
    { apply set_reg_Inv; auto. { intros k j. unfold r2. destruct (name_eqb k f); [discriminate|auto]. }
      intros l w j N NE R. unfold r2 in *. cbn [reg set_reg]. destruct (name_eqb (join_on dot (l ++ [w])) f) eqn:X; [discriminate|].
      unfold r1 in R. destruct (starts_with (join_on dot (l ++ [w])) _) eqn:Y; [discriminate|]. destruct (filter_closed f _ l w F N eq_refl Y) as [_ Q]. apply name_eqb_neq in Q. rewrite Q. auto. }
    split; [apply no_children_Inv; auto|]. split; auto. split; [|split].
    + intros k j. cbn [reg no_children put set_reg]. unfold r2, r1. destruct (name_eqb k f); [discriminate|]. destruct (starts_with k (f ++ [dot])); [discriminate|auto].
    + intros j. unfold no_children. match goal with |- context[put ?s ?i ?o] => destruct (put_like s i o j) as (A & B & C) end. { repeat split; auto. }
      repeat split; auto. intros NJ. rewrite put_neq by auto. auto.
    + right. right. cbn [reg no_children put set_reg]. unfold r2. rewrite name_eqb_refl. auto.
  - split; auto. split; auto. split; [|split; auto]. intros k j. cbn [reg set_reg]. unfold r1. destruct (starts_with k (f ++ [dot])); [discriminate|auto].
Qed.

(** ** runs *)
Lemma start_Inv : Inv start.
Proof. constructor; simpl; try discriminate; try (intros; lia). Qed.
Lemma step_Inv s o : Inv s -> Inv (fst (step s o)).
Proof.
  intros I. destruct o as [n t l bad|i l|i l v|i]; cbn [step].
  - destruct (get_metric s n t l bad) as [s' r] eqn:E. apply (get_metric_ok _ _ _ _ _ _ _ I E).
  - destruct (i <? size s)%nat eqn:Z; auto. apply Nat.ltb_lt in Z. destruct (set_level s i l) as [s' r] eqn:E. apply (set_level_ok _ _ _ _ _ I Z E).
  - destruct (i <? size s)%nat eqn:Z; auto. apply Nat.ltb_lt in Z. destruct (handle s i l v) as [s' r] eqn:E. apply (handle_ok _ _ _ _ _ _ I Z E).
  - destruct (i <? size s)%nat eqn:Z; auto. apply Nat.ltb_lt in Z. destruct (reset s i) as [s' r] eqn:E. apply (reset_ok _ _ _ _ I Z E).
Qed.
Lemma run_snoc ops o : run (ops ++ [o]) = fst (step (run ops) o).
Proof. unfold run. rewrite fold_left_app. auto. Qed.
Lemma run_Inv : forall ops, Inv (run ops).
Proof. induction ops as [|o ops IH] using rev_ind; [apply start_Inv|]. rewrite run_snoc. apply step_Inv. auto. Qed.
Lemma step_ext s o : Inv s -> (forall i, o <> Reset i) -> ext s (fst (step s o)).
Proof.
  intros I NR. destruct o as [n t l bad|i l|i l v|i]; cbn [step].
  - destruct (get_metric s n t l bad) as [s' r] eqn:E. apply (get_metric_ok _ _ _ _ _ _ _ I E).
  - destruct (i <? size s)%nat eqn:Z; [|apply ext_refl]. apply Nat.ltb_lt in Z. destruct (set_level s i l) as [s' r] eqn:E. apply (set_level_ok _ _ _ _ _ I Z E).
  - destruct (i <? size s)%nat eqn:Z; [|apply ext_refl]. apply Nat.ltb_lt in Z. destruct (handle s i l v) as [s' r] eqn:E. apply (handle_ok _ _ _ _ _ _ I Z E).
  - destruct (NR i eq_refl).
Qed.
Lemma run_ext ops : forall more, no_resets more -> ext (run ops) (run (ops ++ more)).
Proof.
  induction more as [|o more IH] using rev_ind; intros N. { rewrite app_nil_r. apply ext_refl. }
  rewrite app_assoc, run_snoc. eapply ext_trans. { apply IH. intros i H. apply (N i). apply in_or_app. auto. }
  apply step_ext; [apply run_Inv|]. intros i ->. apply (N i). apply in_or_app. simpl. auto.
Qed.

(** ** a registered metric is found again *)
Lemma prefix_registered s : Inv s -> forall b a, nodots (a ++ b) -> reg s (join_on dot (a ++ b)) <> None -> exists q, reg s (join_on dot a) = Some q.
Proof.
  intros I. induction b as [|w b IH] using rev_ind; intros a N R.
  - rewrite app_nil_r in R. destruct (reg s (join_on dot a)) as [q|]; [eauto|congruence].
  - rewrite app_assoc in N, R. destruct (reg s (join_on dot ((a ++ b) ++ [w]))) as [i|] eqn:E; [|congruence].
    destruct (list_eq_dec ascii_dec (join_on dot ((a ++ b) ++ [w])) []) as [X|X].
    + destruct (join_snoc_nil _ _ X) as [Y ->]. apply app_eq_nil in Y. destruct Y as [-> ->]. simpl in E. eauto.
    + destruct (i_link s I _ _ _ N X E) as (q & A & _). apply (IH a). { apply nodots_app in N. tauto. } congruence.
Qed.
Lemma process_all_found full t l bad s : Inv s -> forall rest done root m, nodots (done ++ rest) -> reg s (join_on dot (done ++ rest)) = Some m ->
  reg s (join_on dot done) = Some root -> process_all s full done rest root t l bad = (s, Ok m).
Proof.
  intros I. induction rest as [|part rest IH]; intros done root m N R RD; cbn [process_all]. { rewrite app_nil_r in R. congruence. }
  replace (done ++ part :: rest) with ((done ++ [part]) ++ rest) in * by (rewrite <- app_assoc; auto).
  destruct (prefix_registered s I rest (done ++ [part]) N) as [q Q]; [congruence|]. unfold process. rewrite Q. apply IH; auto.
Qed.
Lemma get_found s n t l bad m : Inv s -> forallb allowed n = true -> reg s n = Some m ->
  get_metric s n t l bad = if String.eqb (o_class (heap s m)) t
    then match l with None => (s, Ok m) | Some l => match set_level s m l with (s', Ok _) => (s', Ok m) | (s', Err e) => (s', Err e) end end
    else (s, Err AlreadyExists).
Proof.
  intros I A R. unfold get_metric. rewrite A, R. cbn [negb]. destruct (String.eqb (o_class (heap s m)) t); cbn [negb]; auto.
  assert (ND : nodots ([] ++ split_on dot n)) by apply split_nodots. assert (FJ : join_on dot ([] ++ split_on dot n) = n) by apply join_split.
  destruct (prefix_registered s I (split_on dot n) [] ND) as [r Q]; [cbn [app]; rewrite join_split; congruence|]. cbn [join_on] in Q. unfold process. rewrite Q.
  rewrite (process_all_found n t l bad s I (split_on dot n) [] r m ND); auto. cbn [app]. rewrite join_split. auto.
Qed.

Lemma step_get s n t l bad : step s (Get n t l bad) = (fst (get_metric s n t l bad), out_of OMetric (snd (get_metric s n t l bad))).
Proof. cbn [step]. destruct (get_metric s n t l bad); auto. Qed.
Lemma got s n t l bad i : Inv s -> snd (step s (Get n t l bad)) = OMetric i ->
  let s' := fst (step s (Get n t l bad)) in Inv s' /\ reg s' n = Some i /\ (o_class (heap s' i) = if name_eqb n [] then "base"%string else t) /\ forallb allowed n = true.
Proof.
  intros I. rewrite step_get. cbn [fst snd]. destruct (get_metric s n t l bad) as [s' [m|e]] eqn:E; cbn [fst snd out_of]; [|discriminate].
  intros H. injection H as <-. destruct (get_metric_ok _ _ _ _ _ _ _ I E) as (I' & _ & _ & R & C & A). split; auto. split; auto. split; [|eapply A; eauto].
  destruct (list_eq_dec ascii_dec n []) as [->|N].
  - rewrite name_eqb_refl. apply (i_top s' I'). apply R. auto.
  - destruct (C m eq_refl) as [<-|]; [|congruence]. apply name_eqb_neq in N. rewrite N. auto.
Qed.
Lemma same_again ops n t l bad i more t' l' bad' : no_resets more -> l' <> Some INHERIT ->
  snd (step (run ops) (Get n t l bad)) = OMetric i ->
  snd (step (run (ops ++ Get n t l bad :: more)) (Get n t' l' bad')) =
    if String.eqb (if name_eqb n [] then "base"%string else t) t' then OMetric i else ORaised AlreadyExists.
Proof.
  intros NR LI G. destruct (got _ _ _ _ _ _ (run_Inv ops) G) as (I1 & R1 & C1 & A1). rewrite <- run_snoc in I1, R1, C1.
  replace (ops ++ Get n t l bad :: more) with ((ops ++ [Get n t l bad]) ++ more) by (rewrite <- app_assoc; auto).
  pose proof (run_ext (ops ++ [Get n t l bad]) more NR) as X. set (s1 := run (ops ++ [Get n t l bad])) in *. set (s2 := run ((ops ++ [Get n t l bad]) ++ more)) in *.
  assert (I2 : Inv s2) by apply run_Inv. pose proof (e_reg _ _ X _ _ R1) as R2.
  assert (C2 : o_class (heap s2 i) = if name_eqb n [] then "base"%string else t).
  { destruct (e_obj _ _ X i) as (_ & _ & -> & _); auto. apply (i_reg s1 I1 _ _ R1). }
  rewrite step_get, (get_found s2 n t' l' bad' i I2 A1 R2), C2. cbn [snd]. destruct (String.eqb _ t'); [|auto].
  destruct l' as [l'|]; [|auto]. unfold set_level. replace (is_inherit l') with false; [auto|destruct l'; auto; congruence].
Qed.
Lemma wrong_type ops n t l bad i more t' l' bad' : no_resets more -> String.eqb (if name_eqb n [] then "base"%string else t) t' = false ->
  snd (step (run ops) (Get n t l bad)) = OMetric i ->
  fst (step (run (ops ++ Get n t l bad :: more)) (Get n t' l' bad')) = run (ops ++ Get n t l bad :: more).
Proof.
  intros NR LI G. destruct (got _ _ _ _ _ _ (run_Inv ops) G) as (I1 & R1 & C1 & A1). rewrite <- run_snoc in I1, R1, C1.
  replace (ops ++ Get n t l bad :: more) with ((ops ++ [Get n t l bad]) ++ more) by (rewrite <- app_assoc; auto).
  pose proof (run_ext (ops ++ [Get n t l bad]) more NR) as X. set (s1 := run (ops ++ [Get n t l bad])) in *. set (s2 := run ((ops ++ [Get n t l bad]) ++ more)) in *.
  assert (I2 : Inv s2) by apply run_Inv. pose proof (e_reg _ _ X _ _ R1) as R2.
  assert (C2 : o_class (heap s2 i) = if name_eqb n [] then "base"%string else t).
  { destruct (e_obj _ _ X i) as (_ & _ & -> & _); auto. apply (i_reg s1 I1 _ _ R1). }
  rewrite step_get, (get_found s2 n t' l' bad' i I2 A1 R2), C2, LI. auto.
Qed.

(** ** ancestors *)
Lemma lineage_ok s : Inv s -> forall parts i, nodots parts -> reg s (join_on dot parts) = Some i -> lineage s parts i.
Proof.
  intros I. induction parts as [|w parts IH] using rev_ind; intros i N R. { simpl in R. destruct (i_top s I i R). apply at_root; auto. }
  destruct (list_eq_dec ascii_dec (join_on dot (parts ++ [w])) []) as [X|X].
  - destruct (join_snoc_nil _ _ X) as [-> ->]. apply at_root_again. simpl in *. destruct (i_top s I i R). apply at_root; auto.
  - destruct (i_link s I _ _ _ N X R) as (q & A & B & C). apply nodots_app in N. eapply at_child; eauto; [apply IH; tauto|].
    intros E. rewrite E in X. simpl in X. congruence.
Qed.
Lemma get_lineage ops n t l bad i : snd (step (run ops) (Get n t l bad)) = OMetric i -> lineage (run (ops ++ [Get n t l bad])) (split_on dot n) i.
Proof.
  intros G. destruct (got _ _ _ _ _ _ (run_Inv ops) G) as (I1 & R1 & _). rewrite <- run_snoc in I1, R1. apply lineage_ok; auto; [apply split_nodots|]. rewrite join_split. auto.
Qed.

(** ** handle *)
Lemma handle_exact ops i l v own : effective (run ops) i own -> i < size (run ops) ->
  let s := run ops in let (s', o) := step s (Handle i l v) in
  if (rank l <=? rank own)%nat
  then match kind_of (o_class (heap s i)) with
       | Some KLeaf => o = OHandled true /\ o_data (heap s' i) = o_data (heap s i) ++ [v] /\ (forall j, j <> i -> heap s' j = heap s j)
       | Some KEmpty => o = OHandled true /\ s' = s
       | _ => o = ORaised TypeError /\ s' = s
       end
  else o = OHandled false /\ s' = s.
Proof.
  intros E Z. cbv zeta. cbn [step]. destruct (Nat.ltb_spec i (size (run ops))) as [_|]; [|lia].
  apply (level_iff _ _ _ (run_Inv ops) Z) in E. unfold handle. rewrite E, rank_leb. destruct (rank l <=? rank own)%nat; [|auto].
  destruct (kind_of (o_class (heap (run ops) i))) as [[| |]|]; auto. split; auto. rewrite put_eq. split; auto. intros j J. apply put_neq. auto.
Qed.

(** ** exports *)
Lemma kind_base c : kind_of c = Some KBase -> c = "base"%string.
Proof.
  unfold kind_of. destruct (String.eqb_spec c "base"); auto. destruct (String.eqb c "empty"); [discriminate|]. destruct (existsb _ _); discriminate.
Qed.
Lemma collect_ok s : Inv s -> forall fuel i n o, size s - i <= fuel -> i < size s -> In (n, o) (collect fuel s i) <-> exports s i n o.
Proof.
  intros I. induction fuel as [|fuel IH]; intros i n o F Z; [lia|]. cbn [collect].
  pose proof (i_kind s I i Z) as KN. destruct (kind_of (o_class (heap s i))) as [[| |]|] eqn:K; [| | |congruence].
  - pose proof (kind_base _ K) as B. split.
    + intros H. apply in_map_iff in H. destruct H as ([n' o'] & E & H). injection E as <- <-. apply in_flat_map in H. destruct H as (c & C & H).
      destruct (i_child s I i c Z C) as [CZ CP]. pose proof (i_older s I c i CZ CP). destruct (not_above s c i) eqn:A; [|destruct H].
      apply (not_above_ok s c i I CZ Z) in A. apply IH in H; auto; [|lia]. eapply exports_child; eauto.
    + intros H. inversion H as [? LF|? c n' ? CT C S X]; subst. { unfold leaf in LF. congruence. }
      apply in_map_iff. exists (n', o). split; auto. apply in_flat_map. exists c. split; auto.
      destruct (i_child s I i c Z C) as [CZ CP]. pose proof (i_older s I c i CZ CP). apply (not_above_ok s c i I CZ Z) in S. rewrite S. apply IH; auto. lia.
  - split; [intros []|]. intros H. inversion H as [? LF|? c n' ? CT C S X]; subst; [unfold leaf in LF; congruence|unfold container in CT; rewrite CT in K; discriminate].
  - split.
    + intros [H|[]]. injection H as <- <-. apply exports_leaf. auto.
    + intros H. inversion H as [? LF|? c n' ? CT C S X]; subst; [simpl; auto|unfold container in CT; rewrite CT in K; discriminate].
Qed.
Lemma export_ok ops i n o : i < size (run ops) -> In (n, o) (export (run ops) i) <-> exports (run ops) i n o.
Proof. intros Z. apply collect_ok; auto. apply run_Inv. Qed.

(** ** proper names *)
Lemma proper_split k : proper k -> k <> [] -> ~ In [] (split_on dot k).
Proof. intros [->|P] N; [congruence|auto]. Qed.
Lemma climb_names_fuel s : Inv s -> forall n m i, i < size s -> i < n -> i < m -> climb_names n s i = climb_names m s i.
Proof.
  intros I. induction n as [|n IH]; intros [|m] i Z A B; try lia. cbn [climb_names]. destruct (o_parent (heap s i)) as [p|] eqn:P; auto.
  pose proof (i_older s I i p Z P). f_equal. apply IH; lia.
Qed.
Lemma names_ok s : Inv s -> Pk s -> forall parts i, nodots parts -> ~ In [] parts -> reg s (join_on dot parts) = Some i -> climb_names (S i) s i = parts.
Proof.
  intros I PK. induction parts as [|w parts IH] using rev_ind; intros i N E R; cbn [climb_names].
  { simpl in R. destruct (i_top s I i R) as [-> _]. auto. }
  assert (X : join_on dot (parts ++ [w]) <> []). { intros X. destruct (join_snoc_nil _ _ X) as [_ ->]. apply E. apply in_or_app. simpl; auto. }
  destruct (i_link s I _ _ _ N X R) as (q & A & -> & ->). f_equal. pose proof (i_reg s I _ _ A) as QZ. pose proof (i_reg s I _ _ R) as IZ.
  destruct (i_link s I _ _ _ N X R) as (q' & A' & P & _). rewrite A in A'. injection A' as <-. pose proof (i_older s I i q IZ P).
  rewrite (climb_names_fuel s I i (S q) q) by lia. apply IH; auto. { apply nodots_app in N. tauto. } intros Y. apply E. apply in_or_app; auto.
Qed.
Lemma full_name_ok s k i : Inv s -> Pk s -> reg s k = Some i -> full_name s i = k.
Proof.
  intros I PK R. unfold full_name. destruct (list_eq_dec ascii_dec k []) as [->|N].
  - rewrite (names_ok s I PK [] i); auto. intros w [].
  - rewrite (names_ok s I PK (split_on dot k) i); [apply join_split|apply split_nodots|apply proper_split; auto; eapply PK; eauto|]. rewrite join_split. auto.
Qed.
Lemma key_parts s k i : Inv s -> Pk s -> reg s k = Some i -> k <> [] -> exists l w q, k = join_on dot (l ++ [w]) /\ nodots (l ++ [w]) /\ ~ In [] (l ++ [w]) /\
  reg s (join_on dot l) = Some q /\ o_parent (heap s i) = Some q /\ o_name (heap s i) = w /\ k = prefix_name (join_on dot l) w.
Proof.
  intros I PK R N. pose proof (proper_split k (PK k i R) N) as E. destruct (exists_last (split_on_ne dot k)) as (l & w & X). pose proof (split_nodots k) as ND. rewrite X in E, ND.
  assert (K : k = join_on dot (l ++ [w])) by (rewrite <- X, join_split; auto).
  assert (R' := R). rewrite K in R'. destruct (i_link s I l w i ND) as (q & A & B & C); [intros Y; apply N; etransitivity; [exact K|exact Y]|exact R'|]. exists l, w, q. repeat split; auto.
  rewrite K. unfold prefix_name. destruct l as [|v l]; [auto|]. rewrite join_snoc by discriminate.
  destruct (name_eqb (join_on dot (v :: l)) []) eqn:Y; auto. apply name_eqb_eq in Y. exfalso.
  destruct (exists_last (l := v :: l)) as (l' & w' & Z); [discriminate|]. rewrite Z in Y, E. destruct (join_snoc_nil _ _ Y) as [_ ->]. apply E. apply in_or_app. left. apply in_or_app. simpl; auto.
Qed.
Lemma prefix_assoc a b c : a <> [] -> prefix_name a (prefix_name b c) = if name_eqb b [] then prefix_name a c else prefix_name (prefix_name a b) c.
Proof.
  intros A. unfold prefix_name at 2. destruct (name_eqb b []) eqn:B; auto. unfold prefix_name. apply name_eqb_neq in A. rewrite A.
  replace (name_eqb (a ++ dot :: b) []) with false. { rewrite <- app_assoc. auto. } symmetry. apply name_eqb_neq. destruct a; discriminate.
Qed.
Lemma reset_keeps s i : Inv s -> i < size s -> Pk s -> Ch s -> Pk (fst (reset s i)) /\ Ch (fst (reset s i)).
Proof.
  intros I Z PK CH. destruct (reset s i) as [s' r] eqn:E. destruct (reset_ok _ _ _ _ I Z E) as (I' & SZ & SUB & OB & RS). cbn [fst].
  assert (PK' : Pk s') by (intros k j R; eapply PK; eauto). split; auto.
  intros k c q R P K. destruct (OB c) as (_ & P' & _). destruct (OB q) as (_ & _ & K' & C'). rewrite P' in P. rewrite K' in K. pose proof (CH k c q (SUB _ _ R) P K) as H.
  destruct (Nat.eq_dec q i) as [->|N]; [|rewrite C'; auto]. destruct RS as [->|[RS|RS]]; auto. { rewrite RS in R. discriminate. }
  exfalso. assert (KN : k <> []). { intros ->. destruct (i_top s' I' c R) as [X _]. congruence. }
  destruct (key_parts s' k c I' PK' R KN) as (l & w & q & _ & _ & _ & Q & PQ & _). rewrite P', P in PQ. injection PQ as <-.
  pose proof (full_name_ok s _ _ I PK (SUB _ _ Q)) as F. rewrite F in RS. congruence.
Qed.
Lemma proper_run : forall ops, proper_names ops -> Pk (run ops) /\ Ch (run ops).
Proof.
  induction ops as [|o ops IH] using rev_ind; intros P. { split; intros k; simpl; discriminate. }
  destruct IH as [A B]. { intros n t l bad H. apply (P n t l bad). apply in_or_app; auto. }
  rewrite run_snoc. pose proof (run_Inv ops) as I. set (s := run ops) in *. destruct o as [n t l bad|i l|i l v|i]; cbn [step].
  - destruct (get_metric s n t l bad) as [s' r] eqn:E. destruct (get_metric_ok _ _ _ _ _ _ _ I E) as (_ & _ & (K1 & K2 & _) & _). cbn [fst]. split; auto. apply K1; auto.
    apply (P n t l bad). apply in_or_app; simpl; auto.
  - destruct (i <? size s)%nat; auto. destruct (set_level_keeps [] s i l) as (K1 & K2 & _). destruct (set_level s i l). cbn [fst] in *. split; auto. apply K1; auto. left. auto.
  - destruct (i <? size s)%nat; auto. destruct (handle_keeps [] s i l v) as (K1 & K2 & _). destruct (handle s i l v). cbn [fst] in *. split; auto. apply K1; auto. left. auto.
  - destruct (i <? size s)%nat eqn:Z; auto. apply Nat.ltb_lt in Z. destruct (reset_keeps s i I Z A B). destruct (reset s i). auto.
Qed.
Lemma all_run : forall ops, no_resets ops -> All (run ops).
Proof.
  induction ops as [|o ops IH] using rev_ind; intros P. { intros i Z. simpl in Z. lia. }
  assert (A : All (run ops)). { apply IH. intros i H. apply (P i). apply in_or_app; auto. }
  rewrite run_snoc. pose proof (run_Inv ops) as I. set (s := run ops) in *. destruct o as [n t l bad|i l|i l v|i]; cbn [step].
  - destruct (get_metric s n t l bad) as [s' r] eqn:E. destruct (get_metric_ok _ _ _ _ _ _ _ I E) as (_ & _ & (_ & _ & K) & _). auto.
  - destruct (i <? size s)%nat; auto. destruct (set_level_keeps [] s i l) as (_ & _ & K). destruct (set_level s i l). auto.
  - destruct (i <? size s)%nat; auto. destruct (handle_keeps [] s i l v) as (_ & _ & K). destruct (handle s i l v). auto.
  - exfalso. apply (P i). apply in_or_app. simpl. auto.
Qed.
Lemma child_ok ops k c q : proper_names ops -> reg (run ops) k = Some c -> o_parent (heap (run ops) c) = Some q -> container (run ops) q -> In c (o_children (heap (run ops) q)).
Proof. intros P R PQ CT. apply (proj2 (proper_run ops P) k c q R PQ). rewrite CT. discriminate. Qed.

Lemma exported_under s r : Inv s -> Pk s -> Ch s -> reg s [] = Some r -> forall c, shown_from s r c ->
  forall k, reg s k = Some c -> forall n x, exports s c n x -> exists p, (k = [] -> exports s r n x) /\
    (k <> [] -> k = prefix_name p (o_name (heap s c)) /\ exports s r (prefix_name p n) x).
Proof.
  intros I PK CH RR. induction 1 as [|p c H IH CT P SH]; intros k R n x EX.
  { exists []. split; auto. intros N. exfalso. destruct (key_parts s k r I PK R N) as (l & w & q & _ & _ & _ & _ & B & _). destruct (i_top s I r RR) as [X _]. congruence. }
  assert (KN : k <> []). { intros ->. destruct (i_top s I c R) as [X _]. congruence. }
  destruct (key_parts s k c I PK R KN) as (l & w & q & K & ND & NE & RQ & PQ & NM & PR). assert (q = p) by congruence. subst q.
  exists (join_on dot l). split; [congruence|]. intros _. split; [congruence|].
  assert (EP : exports s p (prefix_name (o_name (heap s p)) n) x).
  { eapply exports_child; eauto. apply (CH k c p R P). rewrite CT. discriminate. }
  destruct (IH (join_on dot l) RQ _ _ EP) as (pp & A & B). destruct (list_eq_dec ascii_dec (join_on dot l) []) as [Y|Y].
  - rewrite Y. unfold prefix_name at 1. rewrite name_eqb_refl. specialize (A Y).
    assert (p = r) by congruence. subst p. destruct (i_top s I r RR) as [TP _]. destruct (i_root s I r (i_reg s I _ _ RR) TP) as [_ NR].
    rewrite NR in A. exact A.
  - destruct (B Y) as [K2 E2]. destruct (list_eq_dec ascii_dec pp []) as [->|PN].
    + unfold prefix_name at 1 in E2. rewrite name_eqb_refl in E2. unfold prefix_name at 1 in K2. rewrite name_eqb_refl in K2. rewrite K2. auto.
    + rewrite prefix_assoc in E2 by auto. destruct (key_parts s _ p I PK RQ Y) as (l' & w' & q' & K' & _ & NE' & _ & _ & NM' & _).
      replace (name_eqb (o_name (heap s p)) []) with false in E2. { rewrite K2. auto. }
      symmetry. apply name_eqb_neq. rewrite NM'. intros ->. apply NE'. apply in_or_app; simpl; auto.
Qed.
Lemma registered_exported ops r q o : proper_names ops -> reg (run ops) [] = Some r -> reg (run ops) q = Some o -> leaf (run ops) o -> shown_from (run ops) r o ->
  In (q, o) (export (run ops) r).
Proof.
  intros P RR R L S. destruct (proper_run ops P) as [PK CH]. pose proof (run_Inv ops) as I. apply export_ok. { apply (i_reg _ I _ _ RR). }
  destruct (exported_under _ r I PK CH RR o S q R _ _ (exports_leaf _ o L)) as (p & _ & B).
  destruct B as [-> E]; auto. intros ->. destruct (i_top _ I o R) as [_ C]. unfold leaf in L. rewrite C in L. discriminate.
Qed.
Lemma exported_registered_gen s : Inv s -> Pk s -> All s -> forall i n x, exports s i n x -> i < size s ->
  leaf s x /\ shown_from s i x /\ forall k, reg s k = Some i -> exists p, (k = [] -> reg s n = Some x) /\
   (k <> [] -> k = prefix_name p (o_name (heap s i)) /\ reg s (prefix_name p n) = Some x).
Proof.
  intros I PK AL. induction 1 as [i L|i c n o CT C SH EX IH]; intros Z.
  - split; auto. split; [apply shown_self|]. intros k R. destruct (list_eq_dec ascii_dec k []) as [->|N].
    + destruct (i_top s I i R) as [_ X]. unfold leaf in L. rewrite X in L. discriminate.
    + destruct (key_parts s k i I PK R N) as (l & w & q & _ & _ & _ & _ & _ & NM & PR). exists (join_on dot l). split; [congruence|]. intros _. rewrite NM. split; congruence.
  - destruct (i_child s I i c Z C) as [CZ CP]. destruct (IH CZ) as (L & SF & KEYS). split; auto. split.
    + clear - SF SH CT CP. induction SF as [|p c' SF IH CT' P S']; [|eapply shown_below; eauto]. eapply shown_below; eauto. apply shown_self.
    + intros k R. destruct (AL c CZ) as [kc RC]. assert (KN : kc <> []). { intros ->. destruct (i_top s I c RC) as [X _]. congruence. }
      destruct (key_parts s kc c I PK RC KN) as (l & w & q & K & ND & NE & RQ & PQ & NM & PR). assert (q = i) by congruence. subst q.
      assert (KL : join_on dot l = k). { rewrite <- (full_name_ok s _ _ I PK RQ), <- (full_name_ok s _ _ I PK R). auto. }
      destruct (KEYS kc RC) as (pp & _ & B). destruct (B KN) as [K2 E2].
      assert (PP : pp = k).
      { rewrite PR, KL, NM in K2. clear - K2 NE. assert (WN : w <> []) by (intros ->; apply NE; apply in_or_app; simpl; auto). unfold prefix_name in K2. destruct (name_eqb k []) eqn:A, (name_eqb pp []) eqn:B.
        - apply name_eqb_eq in A, B. congruence.
        - exfalso. apply (f_equal (@length _)) in K2. rewrite app_length in K2. simpl in K2. lia.
        - exfalso. apply (f_equal (@length _)) in K2. rewrite app_length in K2. simpl in K2. lia.
        - apply app_inv_tail in K2. auto. }
      subst pp. destruct (list_eq_dec ascii_dec k []) as [->|N].
      * exists []. split; [|congruence]. intros _. destruct (i_top s I i R) as [TP _]. destruct (i_root s I i Z TP) as [_ ->]. unfold prefix_name in *. rewrite name_eqb_refl in *. auto.
      * destruct (key_parts s k i I PK R N) as (l' & w' & q' & _ & _ & NE' & _ & _ & NM' & PR'). exists (join_on dot l'). split; [congruence|]. intros _. split; [congruence|].
        assert (WN : o_name (heap s i) <> []) by (rewrite NM'; intros ->; apply NE'; apply in_or_app; simpl; auto).
        destruct (list_eq_dec ascii_dec (join_on dot l') []) as [Y|Y].
        -- rewrite Y in *. unfold prefix_name in PR' at 1. rewrite name_eqb_refl in PR'. unfold prefix_name at 1. rewrite name_eqb_refl. rewrite NM', <- PR'. auto.
        -- rewrite prefix_assoc by auto. apply name_eqb_neq in WN. rewrite WN, NM', <- PR'. auto.
Qed.
Lemma exported_registered ops r q o : proper_names ops -> no_resets ops -> reg (run ops) [] = Some r -> In (q, o) (export (run ops) r) ->
  reg (run ops) q = Some o /\ leaf (run ops) o /\ shown_from (run ops) r o.
Proof.
  intros P N RR H. destruct (proper_run ops P) as [PK CH]. pose proof (run_Inv ops) as I. pose proof (i_reg _ I _ _ RR) as Z. apply export_ok in H; auto.
  destruct (exported_registered_gen _ I PK (all_run ops N) r q o H Z) as (L & S & K). destruct (K [] RR) as (p & A & _). auto.
Qed.

(** ** what a reset leaves *)
Lemma reset_exact ops f i : proper_names ops -> reg (run ops) f = Some i -> let (s', o) := step (run ops) (Reset i) in
  o = ODone /\ o_children (heap s' i) = [] /\ (forall j, j <> i -> heap s' j = heap (run ops) j) /\
  (f = [] -> forall k, reg s' k = None) /\
  (f <> [] -> forall k, (at_or_below f k -> reg s' k = None) /\ (~ at_or_below f k -> reg s' k = reg (run ops) k)).
Proof.
  intros P R. destruct (proper_run ops P) as [PK _]. pose proof (run_Inv ops) as I. set (s := run ops) in *. pose proof (i_reg s I _ _ R) as Z.
  cbn [step]. destruct (Nat.ltb_spec i (size s)) as [_|]; [|lia]. unfold reset. destruct (list_eq_dec ascii_dec f []) as [->|N].
  - destruct (i_top s I i R) as [TP _]. destruct (i_root s I i Z TP) as [_ NM]. rewrite NM, name_eqb_refl. cbn [out_of]. split; auto.
    unfold no_children. rewrite put_eq. split; auto. split; [intros j J; rewrite put_neq by auto; auto|]. split; [auto|congruence].
  - destruct (key_parts s f i I PK R N) as (l & w & q & _ & _ & NE & _ & _ & NM & _).
    assert (WN : name_eqb (o_name (heap s i)) [] = false). { apply name_eqb_neq. rewrite NM. intros ->. apply NE. apply in_or_app; simpl; auto. }
    rewrite WN. cbv zeta. rewrite (full_name_ok s f i I PK R). cbn [reg set_reg].
    assert (SF : starts_with f (f ++ [dot]) = false).
    { destruct (starts_with f (f ++ [dot])) eqn:X; auto. apply starts_ok in X. destruct X as [t X]. apply (f_equal (@length _)) in X. rewrite !app_length in X. simpl in X. lia. }
    rewrite SF, R. cbn [out_of]. split; auto. unfold no_children. rewrite put_eq. split; auto. split; [intros j J; rewrite put_neq by auto; auto|].
    split; [congruence|]. intros _ k. cbn [reg put set_reg]. destruct (name_eqb k f) eqn:E.
    + apply name_eqb_eq in E. split; auto. intros H. destruct H. left. auto.
    + apply name_eqb_neq in E. destruct (starts_with k (f ++ [dot])) eqn:X.
      * split; auto. intros H. destruct H. right. apply starts_ok in X. destruct X as [r ->]. exists r. rewrite <- app_assoc. auto.
      * split; auto. intros [H|[r H]]; [congruence|]. subst k. replace (f ++ dot :: r) with ((f ++ [dot]) ++ r) in X by (rewrite <- app_assoc; auto). rewrite starts_app in X. discriminate.
Qed.
