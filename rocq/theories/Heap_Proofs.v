From Verif Require Import Prelude PreludeFacts Order_Spec Heapq_Model Heapq_Proofs Heap_Model Heap_Spec.

Set Implicit Arguments.

Section HeapProofs.
  Context {A : Type}.
  Variable lt : A -> A -> bool.
  Variable eqb : A -> A -> bool.
  Hypothesis Hord : total_preorder lt.
  Hypothesis Heqb : eqb_ok eqb.
  Local Notation heapFrom := (heapFrom lt).

  Lemma heap_drain_spec fuel h :
    length h <= fuel -> heapFrom 0 h ->
    Permutation (heap_drain lt fuel h) h /\ ascending lt (heap_drain lt fuel h).
  Proof.
    revert h. induction fuel as [|f IH]; intros h Hl HF; simpl.
    - destruct h; simpl in *; [|lia]. split; auto. apply ascending_nil.
    - destruct (heappop lt h) as [[x h']|] eqn:E.
      + destruct (heappop_spec Hord HF E) as (P & HF' & Hmin & _).
        pose proof (Permutation_length P) as HL. simpl in HL.
        destruct (IH h') as [P2 S2]; auto; [lia|]. split.
        * rewrite P2. symmetry. exact P.
        * apply ascending_cons; auto. split; auto.
          intros y Hy. apply Hmin. rewrite P. right. rewrite <- P2. exact Hy.
      + apply (heappop_None lt) in E. subst. split; auto. apply ascending_nil.
  Qed.

  Lemma filter_true (l : list A) : filter (fun _ => true) l = l.
  Proof. induction l as [|x l IH]; simpl; congruence. Qed.

  Lemma filter_map_eq (b : list A) f g :
    match g with None => match f with None => b | Some p => filter p b end
               | Some m => map m match f with None => b | Some p => filter p b end end
    = map (match g with Some m => m | None => fun x => x end)
          (filter (match f with Some p => p | None => fun _ => true end) b).
  Proof.
    assert (Hf : forall l : list A, filter (fun _ => true) l = l)
      by (induction l as [|x l IH]; simpl; congruence).
    destruct f, g; rewrite ?Hf, ?map_id; auto.
  Qed.

  Lemma Permutation_filter (p : A -> bool) l l' :
    Permutation l l' -> Permutation (filter p l) (filter p l').
  Proof.
    induction 1; simpl; auto.
    - destruct (p x); auto.
    - destruct (p y), (p x); auto. apply perm_swap.
    - etransitivity; eauto.
  Qed.

  Lemma heap_step_ok b h o :
    Permutation b h -> heapFrom 0 h ->
    let '(h', out) := heap_step lt eqb h o in
    bag_step lt b o out h' /\ heapFrom 0 h'.
  Proof.
    intros P HF. destruct o as [x|xs| |x|f g| | |x| | | | ]; simpl.
    - destruct (heappush_spec Hord x HF) as [P1 HF1]. split; auto. constructor.
      unfold heap_push. rewrite P1, P. reflexivity.
    - destruct (heapify_spec Hord (h ++ xs)) as [P1 HF1]. split; auto. constructor.
      unfold heap_push_many. rewrite P1, P. apply Permutation_app_comm.
    - unfold heap_pop. destruct (heappop lt h) as [[m h']|] eqn:E; simpl.
      + destruct (heappop_spec Hord HF E) as (P1 & HF1 & Hm & _). split; auto. constructor.
        * rewrite P; auto.
        * apply minimum_of_perm with h; auto. symmetry; auto.
      + apply (heappop_None lt) in E. subst h. symmetry in P. apply Permutation_nil in P.
        split; auto. constructor; auto.
    - unfold heap_pop_item. destruct (memb eqb x h) eqn:E; simpl.
      + apply (memb_In Heqb) in E. destruct (heapify_spec Hord (remove_first eqb x h)) as [P1 HF1].
        split; auto. constructor. rewrite P1. rewrite (remove_first_perm Heqb); auto.
      + apply (memb_false Heqb) in E. split; auto. constructor.
        * intros Hin. apply E. rewrite <- P; auto.
        * symmetry; auto.
    - unfold heap_filter_map.
      match goal with |- context [heapify lt ?l] => destruct (heapify_spec Hord l) as [P1 HF1] end.
      split; auto. constructor. rewrite P1.
      rewrite filter_map_eq. apply Permutation_map. apply Permutation_filter. symmetry; auto.
    - destruct (@heap_drain_spec (length h) h) as [P1 S1]; auto. split; auto. constructor; auto.
      + unfold heap_iter_ascending. rewrite P1. symmetry; auto.
      + symmetry; auto.
    - destruct (@heap_drain_spec (length h) h) as [P1 S1]; auto. split; auto. constructor.
      + unfold heap_iter_descending. rewrite <- Permutation_rev. unfold heap_iter_ascending.
        rewrite P1. symmetry; auto.
      + unfold heap_iter_descending. rewrite rev_involutive. exact S1.
      + symmetry; auto.
    - split; auto. constructor; [|symmetry; auto]. unfold heap_contains.
      rewrite (memb_In Heqb). split; intros; [rewrite P|rewrite <- P]; auto.
    - split; auto. unfold heap_len. rewrite <- (Permutation_length P). constructor. symmetry; auto.
    - split; auto. constructor; [|symmetry; auto]. unfold heap_bool. rewrite Nat.ltb_lt.
      rewrite <- (Permutation_length P). destruct b; simpl; split; intros; try congruence; lia.
    - split; auto. constructor; symmetry; auto.
    - unfold heap_copy, heap_init. destruct (heapify_spec Hord h) as [P1 HF1].
      split; auto. constructor. rewrite P1. symmetry; auto.
  Qed.

  Lemma heap_run_ok ops : forall b h,
    Permutation b h -> heapFrom 0 h ->
    exists b', bag_session lt b ops (fst (heap_run lt eqb h ops)) b' /\
               Permutation b' (snd (heap_run lt eqb h ops)).
  Proof.
    induction ops as [|o t IH]; intros b h P HF; simpl.
    - exists b. split; auto. constructor.
    - pose proof (@heap_step_ok b h o P HF) as Hs.
      destruct (heap_step lt eqb h o) as [h1 out]. destruct Hs as [Hs HF1].
      destruct (IH h1 h1 (Permutation_refl _) HF1) as (b' & Hr & Pr).
      destruct (heap_run lt eqb h1 t) as [outs h2] eqn:E. simpl in *.
      exists b'. split; auto. econstructor; eauto.
  Qed.

  Lemma heap_session_refines xs ops :
    exists b', bag_session lt xs ops (fst (heap_run lt eqb (heap_init lt xs) ops)) b' /\
               Permutation b' (snd (heap_run lt eqb (heap_init lt xs) ops)).
  Proof.
    destruct (heapify_spec Hord xs) as [P HF].
    apply heap_run_ok; auto. unfold heap_init. symmetry; auto.
  Qed.

  (** the spec itself forces heap sort *)
  Lemma bag_pops_sorted n : forall b outs b',
    length b = n -> bag_session lt b (pops n) outs b' ->
    exists l, outs = map (fun x => OItem x) l /\ Permutation l b /\ ascending lt l /\ b' = [].
  Proof.
    induction n as [|n IH]; intros b outs b' Hl H; inversion H; subst.
    - exists []. destruct b'; simpl in Hl; [|discriminate]. split; auto. split; auto.
      split; auto. apply ascending_nil.
    - match goal with H : bag_step _ _ _ _ _ |- _ => inversion H; subst end.
      + simpl in Hl. discriminate.
      + match goal with P : Permutation b (m :: _) |- _ =>
          pose proof (Permutation_length P) as HL; simpl in HL end.
        destruct (IH b1 outs0 b') as (l & -> & Pl & Sl & ->); auto; [lia|].
        exists (m :: l). split; auto. split; [|split; auto].
        * rewrite Pl. symmetry; auto.
        * apply ascending_cons; auto. split; auto.
          intros y Hy. match goal with M : minimum_of _ m b |- _ => apply M end.
          match goal with P : Permutation b (m :: _) |- _ => rewrite P end.
          right. rewrite <- Pl. exact Hy.
  Qed.

  Lemma heap_sorts xs :
    exists l, fst (heap_run lt eqb (heap_init lt xs) (pops (length xs))) = map (fun x => OItem x) l /\
              Permutation l xs /\ ascending lt l /\
              snd (heap_run lt eqb (heap_init lt xs) (pops (length xs))) = [].
  Proof.
    destruct (heap_session_refines xs (pops (length xs))) as (b' & Hs & P).
    destruct (@bag_pops_sorted (length xs) xs _ b' eq_refl Hs) as (l & E & Pl & Sl & ->).
    exists l. repeat split; auto. apply Permutation_nil in P. exact P.
  Qed.

  (** ** SetHeap *)
  Lemma mkset_In_aux l : forall s x,
    In x (fold_left (fun s x => if memb eqb x s then s else s ++ [x]) l s) <-> In x s \/ In x l.
  Proof.
    induction l as [|y l IH]; simpl; intros s x; [tauto|]. rewrite IH.
    destruct (memb eqb y s) eqn:E.
    - apply (memb_In Heqb) in E. split; [tauto|]. intros [H|[<-|H]]; auto.
    - rewrite in_app_iff. simpl. tauto.
  Qed.
  Lemma mkset_In l x : In x (mkset eqb l) <-> In x l.
  Proof. unfold mkset. rewrite mkset_In_aux. simpl. tauto. Qed.

  Lemma mkset_NoDup_aux l : forall s, NoDup s ->
    NoDup (fold_left (fun s x => if memb eqb x s then s else s ++ [x]) l s).
  Proof.
    induction l as [|y l IH]; simpl; intros s Hs; auto. apply IH.
    destruct (memb eqb y s) eqn:E; auto. apply (memb_false Heqb) in E.
    apply NoDup_Add with (a := y) (l := s); [|split; auto].
    rewrite <- (app_nil_r s) at 1. apply Add_app.
  Qed.
  Lemma mkset_NoDup l : NoDup (mkset eqb l).
  Proof. apply mkset_NoDup_aux. constructor. Qed.

  Definition shInv (s : setheap A) : Prop :=
    heapFrom 0 (sh_data s) /\ NoDup (sh_data s) /\ NoDup (sh_set s) /\ (forall x, In x (sh_set s) <-> In x (sh_data s)).

  Lemma mk_shInv d : heapFrom 0 d -> NoDup d -> shInv {| sh_data := d; sh_set := mkset eqb d |}.
  Proof.
    intros H1 H2. split; [auto|split; [auto|split; [apply mkset_NoDup|]]].
    intros x. simpl. apply mkset_In.
  Qed.

  Lemma sh_push_inv s x : shInv s -> shInv (sh_push lt eqb s x) /\
    ((In x (sh_data s) /\ sh_push lt eqb s x = s) \/
     (~ In x (sh_data s) /\ Permutation (sh_data (sh_push lt eqb s x)) (x :: sh_data s))).
  Proof.
    intros (H1 & H2 & H3 & H4). unfold sh_push. destruct (memb eqb x (sh_set s)) eqn:E.
    - apply (memb_In Heqb) in E. split; [repeat split; auto; apply H4|]. left. split; auto. apply H4; auto.
    - apply (memb_false Heqb) in E. destruct (heappush_spec Hord x H1) as [P HF].
      assert (Hx : ~ In x (sh_data s)) by (rewrite <- H4; auto).
      split; [|right; split; auto].
      split; [auto|split; [|split]]; simpl.
      + apply Permutation_NoDup with (x :: sh_data s); [symmetry; apply P|constructor; auto].
      + apply NoDup_Add with (a := x) (l := sh_set s); [|split; auto].
        rewrite <- (app_nil_r (sh_set s)) at 1. apply Add_app.
      + intros y. rewrite in_app_iff. simpl. unfold heap_push. rewrite P. simpl. rewrite H4. tauto.
  Qed.

  Lemma sh_push_many_inv xs : forall s, shInv s -> shInv (sh_push_many lt eqb s xs) /\
    (forall y, In y (sh_data (sh_push_many lt eqb s xs)) <-> In y xs \/ In y (sh_data s)).
  Proof.
    induction xs as [|x xs IH]; simpl; intros s Hs.
    - split; auto. tauto.
    - destruct (sh_push_inv x Hs) as [Hs1 Hp]. destruct (IH _ Hs1) as [Hs2 H2].
      split; auto. intros y. rewrite H2. destruct Hp as [[Hin ->]|[Hnin P]].
      + split; [tauto|]. intros [[<-|H]|H]; auto.
      + rewrite P. simpl. tauto.
  Qed.

  Lemma NoDup_filter' (p : A -> bool) l : NoDup l -> NoDup (filter p l).
  Proof. apply NoDup_filter. Qed.

  Lemma sh_step_ok b s o :
    set_safe_op o = true -> Permutation b (sh_data s) -> shInv s ->
    let '(s', out) := sh_step lt eqb s o in
    set_step lt b o out (sh_data s') /\ shInv s'.
  Proof.
    intros Hsafe P Hs. pose proof Hs as (HF & ND & NDs & Hiff).
    destruct o as [x|xs| |x|f g| | |x| | | | ]; simpl; try discriminate Hsafe.
    - destruct (sh_push_inv x Hs) as [Hs1 [[Hin ->]|[Hnin P1]]].
      + split; auto. apply set_push_old; [rewrite P; auto|symmetry; auto].
      + split; auto. apply set_push_new; [rewrite P; auto|]. rewrite P1, P. reflexivity.
    - destruct (sh_push_many_inv xs Hs) as [Hs1 H1]. split; auto. constructor.
      + apply Hs1.
      + intros y. rewrite H1, P. tauto.
    - unfold sh_pop. destruct (heappop lt (sh_data s)) as [[m d]|] eqn:E.
      + destruct (heappop_spec Hord HF E) as (P1 & HF1 & Hm & _).
        assert (Hmin : In m (sh_set s)) by (rewrite Hiff, P1; left; auto).
        assert (NDm : NoDup (m :: d)) by (apply Permutation_NoDup with (sh_data s); auto).
        inversion NDm; subst.
        rewrite (proj2 (memb_In Heqb m (sh_set s)) Hmin). simpl. split.
        * constructor; [rewrite P; auto|]. apply minimum_of_perm with (sh_data s); auto. symmetry; auto.
        * split; [auto|split; [auto|split]]; simpl.
          -- apply NoDup_remove_first; auto.
          -- intros y. rewrite (In_remove_first Heqb) by auto. rewrite Hiff, P1. simpl.
             split; [intros [[->|H] Hn]; tauto|]. intros H. split; auto. intros ->. contradiction.
      + apply (heappop_None lt) in E. simpl. split; auto.
        rewrite E in *. constructor; auto. symmetry in P. apply Permutation_nil in P. auto.
    - destruct g; [discriminate|]. unfold sh_filter_map, heap_filter_map.
      match goal with |- context [heapify lt ?l] => destruct (heapify_spec Hord l) as [P1 HF1] end.
      simpl.
      assert (Ef : match f with None => sh_data s | Some p => filter p (sh_data s) end
             = filter (match f with Some p => p | None => fun _ => true end) (sh_data s)).
      { destruct f; auto. rewrite filter_true. reflexivity. }
      rewrite Ef in *. split.
      + constructor.
        * eapply Permutation_NoDup; [symmetry; apply P1|]. apply NoDup_filter; auto.
        * intros y. rewrite P1. rewrite filter_In. rewrite <- P. split.
          -- intros [H1 H2]. exists y. split; auto. split; auto. destruct f; auto.
          -- intros (x & H1 & H2 & ->). split; auto. destruct f; auto.
      + apply mk_shInv; auto. eapply Permutation_NoDup; [symmetry; apply P1|].
        apply NoDup_filter; auto.
    - destruct (@heap_drain_spec (length (sh_data s)) (sh_data s)) as [P1 S1]; auto.
      split; auto. constructor; auto.
      + unfold heap_iter_ascending. rewrite P1. symmetry; auto.
      + symmetry; auto.
    - destruct (@heap_drain_spec (length (sh_data s)) (sh_data s)) as [P1 S1]; auto.
      split; auto. constructor.
      + unfold heap_iter_descending. rewrite <- Permutation_rev. unfold heap_iter_ascending.
        rewrite P1. symmetry; auto.
      + unfold heap_iter_descending. rewrite rev_involutive. exact S1.
      + symmetry; auto.
    - split; auto. constructor; [|symmetry; auto]. unfold sh_contains.
      rewrite (memb_In Heqb), Hiff. split; intros; [rewrite P|rewrite <- P]; auto.
    - split; auto. unfold heap_len. rewrite <- (Permutation_length P). constructor. symmetry; auto.
    - split; auto. constructor; [|symmetry; auto]. unfold heap_bool. rewrite Nat.ltb_lt.
      rewrite <- (Permutation_length P). destruct b; simpl; split; intros; try congruence; lia.
    - split; auto. constructor; symmetry; auto.
    - unfold sh_init, heap_init. destruct (heapify_spec Hord (sh_data s)) as [P1 HF1]. simpl.
      split.
      + constructor. rewrite P1. symmetry; auto.
      + apply mk_shInv; auto. eapply Permutation_NoDup; [symmetry; apply P1|]; auto.
  Qed.

  Lemma sh_run_ok ops : forall b s,
    forallb set_safe_op ops = true -> Permutation b (sh_data s) -> shInv s ->
    exists b', set_session lt b ops (fst (sh_run lt eqb s ops)) b' /\
               Permutation b' (sh_data (snd (sh_run lt eqb s ops))).
  Proof.
    induction ops as [|o t IH]; intros b s Hsafe P HI; simpl in *.
    - exists b. split; auto. constructor.
    - apply andb_true_iff in Hsafe. destruct Hsafe as [Hs1 Hs2].
      pose proof (@sh_step_ok b s o Hs1 P HI) as Hs.
      destruct (sh_step lt eqb s o) as [s1 out]. destruct Hs as [Hs HI1].
      destruct (IH (sh_data s1) s1 Hs2 (Permutation_refl _) HI1) as (b' & Hr & Pr).
      destruct (sh_run lt eqb s1 t) as [outs s2] eqn:E. simpl in *.
      exists b'. split; auto. econstructor; eauto. apply HI1.
  Qed.

  Lemma setheap_session_refines xs ops :
    NoDup xs -> forallb set_safe_op ops = true ->
    exists b', set_session lt xs ops (fst (sh_run lt eqb (sh_init lt eqb xs) ops)) b' /\
               Permutation b' (sh_data (snd (sh_run lt eqb (sh_init lt eqb xs) ops))).
  Proof.
    intros ND Hs. destruct (heapify_spec Hord xs) as [P HF].
    apply sh_run_ok; auto.
    - simpl. unfold heap_init. symmetry; auto.
    - apply mk_shInv; auto. eapply Permutation_NoDup; [symmetry; apply P|]; auto.
  Qed.
End HeapProofs.
