From Verif Require Import Prelude PreludeFacts MoreFacts PySeq_Model SortedList_Proofs Hooks_Model Hooks_Spec.

(** * Sorting *)
Lemma precedes_cons : forall l x a b, precedes l a b -> precedes (x :: l) a b.
Proof. intros l x a b (l1 & l2 & l3 & E). exists (x :: l1), l2, l3. rewrite E. reflexivity. Qed.
Lemma precedes_head : forall l x b, In b l -> precedes (x :: l) x b.
Proof. intros l x b I. apply in_split in I. destruct I as (l2 & l3 & ->). exists [], l2, l3. reflexivity. Qed.

Lemma FOP_impl : forall (R R' : nat -> nat -> Prop) l, (forall a b, R a b -> R' a b) -> ForallOrdPairs R l -> ForallOrdPairs R' l.
Proof. intros R R' l H F. induction F as [|a l FA _ IH]; constructor; auto. eapply Forall_impl; [|exact FA]. auto. Qed.

Lemma insert_FOP : forall (p : nat -> Z) (R : nat -> nat -> Prop) x l,
  ForallOrdPairs R l -> (forall a, In a l -> (p a < p x)%Z -> R a x) -> (forall a, In a l -> (p x <= p a)%Z -> R x a) ->
  (forall a b, R a b -> In a l -> In b l -> (p a <= p b)%Z) ->
  ForallOrdPairs R (py_insert (fun a b => Z.ltb (p a) (p b)) x l).
Proof.
  intros p R x. induction l as [|y t IH]; intros F A B M; simpl.
  - constructor; constructor.
  - inversion F as [|y' t' FY FT]; subst. destruct (Z.ltb_spec (p y) (p x)) as [L|L].
    + constructor.
      * rewrite Forall_forall in *. intros z Z0. apply (Permutation_in z (py_insert_perm _ x t)) in Z0. destruct Z0 as [<-|Z0]; auto. apply A; auto. left; auto.
      * apply IH; auto. { intros; apply A; auto; right; auto. } { intros; apply B; auto; right; auto. } { intros; apply M; auto; right; auto. }
    + constructor; auto. rewrite Forall_forall in *. intros z [<-|Z0].
      * apply B; auto. left; auto.
      * apply B; [right; auto|]. specialize (FY _ Z0). apply M in FY; [|left; auto|right; auto]. lia.
Qed.

Lemma sorted_ok : forall (p : nat -> Z) l, by_priority p l (py_sorted (fun a b => Z.ltb (p a) (p b)) l).
Proof.
  intros p l. split; [apply py_sorted_perm|]. induction l as [|x t IH]; simpl; [constructor|].
  pose proof (py_sorted_perm (fun a b => Z.ltb (p a) (p b)) t) as P. apply insert_FOP.
  - eapply FOP_impl; [|exact IH]. intros a b [H|[H K]]; auto. right. split; auto. apply precedes_cons; auto.
  - auto.
  - intros a I H. apply (Permutation_in a P) in I. destruct (Z.eq_dec (p x) (p a)); [right|left; lia]. split; auto. apply precedes_head; auto.
  - intros a b [H|[H _]] _ _; lia.
Qed.

(** * The chain *)
Lemma any_true : forall l, any l = true <-> In true l.
Proof.
  intros l. unfold any. rewrite existsb_exists. split; [intros (b & I & E); subst; auto|intros I; eauto].
Qed.
Lemma any_false : forall l, any l = false <-> ~ In true l.
Proof. intros l. rewrite <- any_true. destruct (any l); split; intros; congruence. Qed.

Definition eff (v : verdict) : effect := match v with VTrue => Stops | VFalse => Passes | VRaise _ => Fails | VExit e => Aborts e end.
Lemma handle_does : forall x h k r, does x h k r (fst (handle x h k r)) (eff (snd (handle x h k r))).
Proof.
  intros x h k r. destruct k as [| |s]; simpl.
  - destruct (system_exit x) eqn:E; simpl; [constructor; auto|]. destruct r as [[|]|l|e|e]; simpl; try (constructor; auto; fail).
    destruct (any l) eqn:A; simpl; [apply any_true in A|apply any_false in A]; constructor; auto.
  - destruct r as [[|]|[|b l]|e|e]; simpl; constructor.
  - destruct (memory_error x) eqn:E; simpl; [|constructor; auto]. destruct r as [[|]|l|e|e]; simpl; try (constructor; auto; fail).
    destruct (any l) eqn:A; simpl; [apply any_true in A|apply any_false in A]; constructor; auto.
Qed.

Lemma loop_chain : forall s x r hs, chain (ignore_failed s) x (kindof s) r hs (fst (loop s x r hs)) (snd (loop s x r hs)).
Proof.
  induction hs as [|h t IH]; simpl; [constructor|].
  pose proof (handle_does x h (kindof s h) (r h)) as D. destruct (handle x h (kindof s h) (r h)) as [a v]. simpl in D.
  destruct v; simpl in *.
  - apply chain_stop; auto.
  - destruct (loop s x r t) as [b o]. simpl in *. apply chain_pass; auto.
  - destruct (ignore_failed s) eqn:I; [|apply chain_give_up; auto]. destruct (loop s x r t) as [b o]. simpl in *. apply chain_fail; auto.
  - apply chain_abort; auto.
Qed.

Lemma handled : forall s x r, exists order, by_priority (priority s) (installed s ++ [0]) order /\
  chain (ignore_failed s) x (kindof s) r order (fst (except_handle s x r)) (snd (except_handle s x r)).
Proof. intros. eexists. split; [apply sorted_ok|]. apply loop_chain. Qed.

(** a chain with one outcome only *)
Lemma does_det : forall x h k r a e a' e', does x h k r a e -> does x h k r a' e' -> a = a' /\ e = e'.
Proof. intros x h k r a e a' e' D D'. destruct D; inversion D'; subst; try congruence; auto; tauto. Qed.
(** ** Whose code runs *)
Lemma ran_app : forall a b, ran (a ++ b) = ran a ++ ran b.
Proof. induction a as [|[h| |h] a IH]; intros; simpl; rewrite ?IH; auto. Qed.
Lemma does_ran : forall x h k r a e, does x h k r a e -> ran a = [h] \/ ran a = [].
Proof. intros x h k r a e D. destruct D; auto. Qed.

Lemma chain_ran_incl : forall i x k r l a o, chain i x k r l a o -> forall h, In h (ran a) -> In h l.
Proof.
  intros i x k r l a o C. induction C; intros g I; simpl in *; auto;
    match goal with D : does _ _ _ _ _ _ |- _ => apply does_ran in D; destruct D as [E|E] end;
    rewrite ?ran_app, ?E in I; simpl in I; tauto || (rewrite ?in_app_iff in I; simpl in I; intuition).
Qed.
Lemma chain_ran_once : forall i x k r l a o, chain i x k r l a o -> NoDup l -> NoDup (ran a).
Proof.
  intros i x k r l a o C.
  assert (Add : forall h t a0 e b, does x h (k h) (r h) a0 e -> NoDup (h :: t) -> NoDup (ran b) -> (forall g, In g (ran b) -> In g t) -> NoDup (ran (a0 ++ b))).
  { intros h t a0 e b D N NB I. rewrite ran_app. inversion N; subst. destruct (does_ran _ _ _ _ _ _ D) as [E|E]; rewrite E; simpl; auto. constructor; auto. }
  induction C; intros N.
  - constructor.
  - eapply Add; eauto. { apply IHC. inversion N; auto. } eapply chain_ran_incl; eauto.
  - rewrite <- (app_nil_r a). eapply Add; eauto; [constructor|intros g []].
  - eapply Add; eauto. { apply IHC. inversion N; auto. } intros g G. eapply chain_ran_incl; eauto.
  - eapply Add; eauto; [constructor|intros g []].
  - rewrite <- (app_nil_r a). eapply Add; eauto; [constructor|intros g []].
Qed.

(** with failures ignored and nobody aborting, a handler is consulted unless one before it stops the exception *)
Lemma chain_consulted : forall x k r l a o, chain true x k r l a o ->
  (forall h, In h l -> forall e b, ~ does x h (k h) (r h) b (Aborts e)) ->
  o = Ok tt /\ forall h, In h (ran a) <->
    exists l1 l2 b e, l = l1 ++ h :: l2 /\ does x h (k h) (r h) b e /\ In h (ran b) /\ forall g c, In g l1 -> ~ does x g (k g) (r g) c Stops.
Proof.
  intros x k r l a o C NA.
  assert (Step : forall h t a0 b0 e0 ex, (ran ex = [] ) -> does x h (k h) (r h) a0 e0 -> e0 <> Stops ->
    (forall g, In g (ran b0) <-> exists l1 l2 b e, t = l1 ++ g :: l2 /\ does x g (k g) (r g) b e /\ In g (ran b) /\ forall g' c, In g' l1 -> ~ does x g' (k g') (r g') c Stops) ->
    forall g, In g (ran (a0 ++ ex ++ b0)) <-> exists l1 l2 b e, h :: t = l1 ++ g :: l2 /\ does x g (k g) (r g) b e /\ In g (ran b) /\ forall g' c, In g' l1 -> ~ does x g' (k g') (r g') c Stops).
  { intros h t a0 b0 e0 ex EX D NS IH g. rewrite !ran_app, EX. simpl. rewrite in_app_iff, IH. split.
    - intros [I|(l1 & l2 & b & e & -> & D' & R & F)].
      + assert (g = h) as ->. { destruct (does_ran _ _ _ _ _ _ D) as [E|E]; rewrite E in I; simpl in I; intuition. }
        exists [], t, a0, e0. repeat split; auto.
      + exists (h :: l1), l2, b, e. repeat split; auto. intros g' c [<-|I] DS; [|exact (F _ _ I DS)].
        destruct (does_det _ _ _ _ _ _ _ _ D DS). congruence.
    - intros ([|y l1] & l2 & b & e & E & D' & R & F); simpl in E; injection E as E1 E2; subst.
      + left. destruct (does_det _ _ _ _ _ _ _ _ D D') as [-> _]. auto.
      + right. exists l1, l2, b, e. repeat split; auto. intros g' c I. apply F. right; auto. }
  remember true as i eqn:Ei. induction C; subst.
  - split; auto. intros h. split; [intros []|]. intros (l1 & l2 & b & e & E & _). destruct l1; discriminate.
  - destruct IHC as [-> IH]; auto. { intros; apply NA; right; auto. } split; auto. intros g.
    apply (Step h t a b Passes []); auto. discriminate.
  - split; auto. intros g. split.
    + intros I. assert (g = h) as ->. { destruct (does_ran _ _ _ _ _ _ H) as [E|E]; rewrite E in I; simpl in I; intuition. }
      exists [], t, a, Stops. repeat split; auto.
    + intros ([|y l1] & l2 & b & e & E & D' & R & F); simpl in E; injection E as E1 E2; subst.
      * destruct (does_det _ _ _ _ _ _ _ _ H D') as [-> _]. auto.
      * exfalso. exact (F _ _ (or_introl eq_refl) H).
  - destruct IHC as [-> IH]; auto. { intros; apply NA; right; auto. } split; auto. intros g.
    apply (Step h t a b Fails [Complain h]); auto. discriminate.
  - discriminate.
  - exfalso. apply (NA h (or_introl eq_refl) e a H).
Qed.

(** * What is registered *)
Definition good (h : list op) (s : state) : Prop := length (objs s) = next h /\ NoDup (installed s) /\ (forall i, In i (installed s) <-> registered h i).

Lemma registered_app : forall h o i, registered (h ++ [o]) i <-> (registered h i /\ o <> Remove i) \/ adds h o i.
Proof.
  intros h o i. split.
  - intros (h1 & p & h2 & E & A & N). idtac.
    all: destruct (@exists_last _ (p :: h2)) as (l & z & Z); [discriminate|].
    all: rewrite Z in E; rewrite app_assoc in E; apply app_inj_tail in E; destruct E as [-> ->].
    all: destruct l as [|y l]; simpl in Z; injection Z as -> ->.
    all: try (right; rewrite app_nil_r; exact A).
    all: left; split; [exists h1, y, l; repeat split; auto; intros I; apply N, in_app_iff; auto|].
    all: intros ->; apply N, in_app_iff; right; left; auto.
  - intros [[(h1 & p & h2 & -> & A & N) NR]|A].
    + exists h1, p, (h2 ++ [o]). rewrite <- app_assoc. repeat split; auto. intros I. apply in_app_iff in I. destruct I as [I|[I|[]]]; auto.
    + exists h, o, []. repeat split; auto.
Qed.

Lemma next_app : forall h o, next (h ++ [o]) = next h + makes o.
Proof. intros. unfold next. rewrite map_app, list_sum_app. simpl. lia. Qed.

Lemma remove_first_in : forall l x y, NoDup l -> (In y (remove_first Nat.eqb x l) <-> In y l /\ y <> x).
Proof.
  induction l as [|z l IH]; intros x y N; simpl; [tauto|]. inversion N; subst. destruct (Nat.eqb_spec z x) as [->|NE].
  - split; [intros I; split; auto; intros ->; auto|]. intros [[->|I] D]; auto. congruence.
  - simpl. rewrite IH by auto. intuition; subst; auto.
Qed.
Lemma remove_first_NoDup : forall l x, NoDup l -> NoDup (remove_first Nat.eqb x l).
Proof.
  induction l as [|z l IH]; intros x N; simpl; auto. inversion N; subst. destruct (Nat.eqb_spec z x); auto. constructor; auto.
  rewrite remove_first_in by auto. tauto.
Qed.

Lemma good_add : forall h o s i, length (objs s) = next h + makes o -> NoDup (installed s) ->
  (forall j, In j (installed s) <-> registered h j) -> adds h o i -> (forall j, adds h o j -> j = i) -> (forall j, o <> Remove j) -> good (h ++ [o]) (add s i).
Proof.
  intros h o s i L N R A U NR. unfold good. rewrite next_app. unfold add. destruct (memb Nat.eqb i (installed s)) eqn:M.
  - split; [|split]; auto. intros j. rewrite registered_app, R. split; [intros; left; auto|]. intros [[I _]|I]; auto.
    rewrite (U _ I). apply R. apply (memb_In nateqb_ok). auto.
  - cbn [objs installed]. split; [|split]; auto.
    + apply NoDup_app_intro; auto; [constructor; [intros []|constructor]|]. intros y I [<-|[]]. apply (memb_In nateqb_ok) in I. congruence.
    + intros j. rewrite registered_app, in_app_iff, R. simpl. split; [intros [I|[<-|[]]]; auto|]. intros [[I _]|I]; auto. right. left. symmetry. apply U; auto.
Qed.

Lemma good_same : forall h o s s', good h s -> objs s' = objs s \/ length (objs s') = length (objs s) -> installed s' = installed s -> makes o = 0 ->
  (forall i, ~ adds h o i) -> (forall i, o = Remove i -> ~ In i (installed s)) -> good (h ++ [o]) s'.
Proof.
  intros h o s s' (L & N & R) EL EI M NA NR. unfold good. rewrite next_app, M, Nat.add_0_r, EI. split; [|split]; auto.
  - destruct EL as [-> | -> ]; auto.
  - intros i. rewrite registered_app, R. split; [|intros [[I _]|A]; auto; destruct (NA _ A)]. intros I. left. split; auto.
    intros ->. apply (NR i eq_refl), R, I.
Qed.

Lemma good_step : forall h s o, good h s -> good (h ++ [o]) (fst (step s o)).
Proof.
  intros h s o G. pose proof G as (L & N & R). destruct o as [p k| |i|i|i p|b|x r|x e r]; simpl.
  - unfold good. rewrite next_app. cbn [objs installed makes]. rewrite app_length, L. split; [reflexivity|]. split; auto.
    intros i. rewrite registered_app, R. simpl. split; [intros; left; split; auto; discriminate|tauto].
  - apply good_add; auto; simpl; try tauto; try discriminate; auto. rewrite app_length, L. reflexivity. intros j ->. auto.
  - apply good_add; auto; try discriminate; simpl; auto. rewrite Nat.add_0_r. exact L.
  - destruct (memb Nat.eqb i (installed s)) eqn:M.
    + unfold good. rewrite next_app. cbn [fst objs installed makes]. rewrite Nat.add_0_r. split; auto. split; [apply remove_first_NoDup; auto|].
      intros j. rewrite remove_first_in, registered_app, R by auto. simpl. split; [intros [I D]; left; split; auto; intros E; injection E; auto|].
      intros [[I D]|[]]. split; congruence || auto.
    + apply (good_same h _ s s); simpl; auto. intros j E. injection E as <-. intros I. apply (memb_In nateqb_ok) in I. congruence.
  - destruct (nth_error (objs s) i) as [o|] eqn:E; apply (good_same h _ s); simpl; auto; try discriminate. right. apply upd_length.
  - apply (good_same h _ s); simpl; auto; discriminate.
  - destruct (except_handle s x r). apply (good_same h _ s); simpl; auto; discriminate.
  - destruct (an_exception x); [destruct (except_handle s x r)|]; apply (good_same h _ s); simpl; auto; discriminate.
Qed.

Lemma run_snoc : forall h o s, fst (run s (h ++ [o])) = fst (step (fst (run s h)) o) /\ snd (run s (h ++ [o])) = snd (run s h) ++ [snd (step (fst (run s h)) o)].
Proof.
  induction h as [|p h IH]; intros o s; simpl; [destruct (step s o); auto|]. destruct (step s p) as [s1 x]. destruct (IH o s1) as [A B].
  destruct (run s1 h) as [s2 xs]. destruct (run s1 (h ++ [o])) as [s3 ys]. simpl in *. subst. auto.
Qed.

Lemma good_run : forall h, good h (fst (run begin h)).
Proof.
  induction h as [|o h IH] using rev_ind.
  - repeat split; simpl; auto; [constructor|intros []|]. intros (h1 & o & h2 & E & _). destruct h1; discriminate.
  - destruct (run_snoc h o begin) as [-> _]. apply good_step, IH.
Qed.

Lemma once : forall h x r, (forall h1 h2, h <> h1 ++ Add 0 :: h2) ->
  NoDup (ran (fst (except_handle (fst (run begin h)) x r))).
Proof.
  intros h x r N0. destruct (good_run h) as (L & N & R). destruct (handled (fst (run begin h)) x r) as (order & [P _] & C).
  eapply chain_ran_once; eauto. eapply Permutation_NoDup; [symmetry; exact P|]. apply NoDup_app_intro; auto; [constructor; [intros []|constructor]|].
  intros y I [<-|[]]. apply R in I. destruct I as (h1 & o & h2 & E & A & _). destruct o; simpl in A; try tauto.
  - discriminate A.
  - subst h0. exact (N0 _ _ E).
Qed.

Lemma uncaught_handled : forall h x r, let s := fst (run begin h) in exists acts res,
  snd (step s (Uncaught x r)) = OHandled acts res /\ fst (step s (Uncaught x r)) = s /\
  exists order, by_priority (priority s) (installed s ++ [0]) order /\ chain (ignore_failed s) x (kindof s) r order acts res.
Proof.
  intros h x r s. destruct (handled s x r) as (order & B & C). simpl. destruct (except_handle s x r) as [a v]. exists a, v. simpl in *. eauto 6.
Qed.

Lemma thread_handled : forall h x e r, let s := fst (run begin h) in
  (an_exception x = false -> snd (step s (InThread x e r)) = OHandled [] (Err e)) /\
  (an_exception x = true -> exists acts res, snd (step s (Uncaught x r)) = OHandled acts res /\
    snd (step s (InThread x e r)) = OHandled acts (match res with Ok _ => Err e | Err f => Err f end)).
Proof.
  intros h x e r s. simpl. split; intros ->; auto. destruct (except_handle s x r) as [a v]. simpl. eauto.
Qed.

Lemma consulted : forall h x r, let s := fst (run begin h) in ignore_failed s = true ->
  (forall i e b, ~ does x i (kindof s i) (r i) b (Aborts e)) ->
  exists acts, snd (step s (Uncaught x r)) = OHandled acts (Ok tt) /\
  exists order, by_priority (priority s) (installed s ++ [0]) order /\
  forall i, In i (ran acts) <->
    exists l1 l2 b e, order = l1 ++ i :: l2 /\ does x i (kindof s i) (r i) b e /\ In i (ran b) /\ forall g c, In g l1 -> ~ does x g (kindof s g) (r g) c Stops.
Proof.
  intros h x r s I NA. destruct (handled s x r) as (order & B & C). rewrite I in C. simpl. destruct (except_handle s x r) as [a v]. simpl in C.
  destruct (chain_consulted x (kindof s) r order a v C (fun i _ e b => NA i e b)) as [-> E]. exists a. split; auto. exists order. auto.
Qed.
