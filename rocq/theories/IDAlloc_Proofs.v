From Verif Require Import Prelude PreludeFacts IDAlloc_Model IDAlloc_Spec MoreFacts.
Open Scope Z_scope.

Lemma si_run_issued ops : forall start prev,
  (forall y, In y prev -> y < start) -> issued prev ops (fst (si_run start ops)).
Proof.
  induction ops as [|o t IH]; intros start prev Hp; simpl; auto.
  destruct (si_step start o) as [x s1] eqn:E.
  destruct (si_run s1 t) as [xs s'] eqn:R. simpl.
  assert (H : start <= x /\ s1 = x + 1 /\ match o with IIssue => True | INoLessThan n => n <= x end).
  { destruct o; simpl in E; unfold si_issue, si_no_less_than in E.
    - inversion E; subst. repeat split; lia.
    - destruct (n <? start) eqn:L; inversion E; subst;
        [apply Z.ltb_lt in L|apply Z.ltb_ge in L]; repeat split; lia. }
  destruct H as (H1 & H2 & H3). split; [|split; [exact H3|]].
  - intros y Hy. specialize (Hp y Hy). lia.
  - specialize (IH s1 (prev ++ [x])). rewrite R in IH. apply IH.
    intros y Hy. apply in_app_or in Hy. destruct Hy as [Hy|[Hy|[]]]; [specialize (Hp y Hy)|]; lia.
Qed.

Lemma si_run_tight ops : forall start, issued_tightly start ops (fst (si_run start ops)).
Proof.
  induction ops as [|o t IH]; intros start; simpl; auto.
  destruct (si_step start o) as [x s1] eqn:E.
  destruct (si_run s1 t) as [xs s'] eqn:R. simpl.
  assert (H : s1 = x + 1 /\ x = match o with IIssue => start | INoLessThan n => Z.max n start end).
  { destruct o; simpl in E; unfold si_issue, si_no_less_than in E.
    - inversion E; subst. split; lia.
    - destruct (n <? start) eqn:L; inversion E; subst;
        [apply Z.ltb_lt in L|apply Z.ltb_ge in L]; split; lia. }
  destruct H as (H1 & H2). split; [exact H2|].
  subst s1. specialize (IH (x + 1)). rewrite R in IH. exact IH.
Qed.

(** ** IDAllocator *)
Lemma In_range a b x : In x (range a b) <-> a <= x < b.
Proof.
  unfold range. rewrite in_map_iff. split.
  - intros (i & <- & Hi). apply in_seq in Hi. lia.
  - intros H. exists (Z.to_nat (x - a)). split; [lia|]. apply in_seq. lia.
Qed.

Lemma length_range a b : length (range a b) = Z.to_nat (b - a).
Proof. unfold range. rewrite map_length, seq_length. reflexivity. Qed.

Lemma In_set_add l x y : In y (set_add l x) <-> y = x \/ In y l.
Proof.
  unfold set_add. destruct (memb Z.eqb x l) eqn:E.
  - apply (memb_In zeqb_ok) in E. split; [auto|]. intros [->|H]; auto.
  - rewrite in_app_iff. simpl. intuition congruence.
Qed.

Lemma NoDup_set_add l x : NoDup l -> NoDup (set_add l x).
Proof.
  unfold set_add. destruct (memb Z.eqb x l) eqn:E; auto.
  intros H. apply NoDup_app_intro; auto.
  - constructor; [simpl; tauto|constructor].
  - intros y Hy [->|[]]. apply (memb_false zeqb_ok) in E. auto.
Qed.

Lemma In_fold_add new : forall l y, In y (fold_left set_add new l) <-> In y new \/ In y l.
Proof.
  induction new as [|h t IH]; intros l y; simpl; [tauto|].
  rewrite IH, In_set_add. intuition congruence.
Qed.

Lemma NoDup_fold_add new : forall l, NoDup l -> NoDup (fold_left set_add new l).
Proof. induction new as [|h t IH]; intros l H; simpl; auto using NoDup_set_add. Qed.

Section IDA.
  Variables (start_at : Z) (top_limit : option Z).
  Notation top := (ia_top top_limit).

  Definition ia_bound_ok (b : Z) : Prop :=
    match top with None => 0 <= b | Some t => 0 <= b <= Z.max 0 t \/ b = t end.
  Definition ia_inv (s : ida) : Prop :=
    NoDup (ia_alloc s) /\ NoDup (ia_free s) /\
    (forall x, In x (ia_alloc s) -> ~ In x (ia_free s)) /\
    (forall x, In x (ia_alloc s) \/ In x (ia_free s) <-> 0 <= x < ia_bound s) /\
    ia_bound_ok (ia_bound s).

  Lemma ia_extend_ok s x n s' :
    ia_inv s -> ia_bound s <= x -> 0 <= x -> ia_extend top_limit s x = (n, s') ->
    ia_inv s' /\ ia_alloc s' = ia_alloc s /\
    ia_bound s' = match top with Some t => Z.min t x | None => x end /\
    n = Z.to_nat (ia_bound s' - ia_bound s).
  Proof.
    intros (A & F & D & P & B) Hx H0 E. unfold ia_extend in E.
    set (x' := match top with Some t => if t <? x then t else x | None => x end) in *.
    assert (X : x' = match top with Some t => Z.min t x | None => x end).
    { unfold x'. destruct top as [t|]; auto. destruct (t <? x) eqn:L;
      [apply Z.ltb_lt in L|apply Z.ltb_ge in L]; lia. }
    inversion E; subst n s'. clear E. simpl. rewrite length_range.
    split; [|repeat split; auto].
    assert (BX : (0 <= ia_bound s <= x' \/ (x' < 0 /\ (ia_bound s = 0 \/ ia_bound s = x'))) /\ ia_bound_ok x').
    { unfold ia_bound_ok in *. rewrite X. destruct top as [t|]; lia. }
    destruct BX as [BX BO].
    unfold ia_inv; simpl. repeat split; auto.
    - apply NoDup_fold_add; auto.
    - intros y Hy. rewrite In_fold_add, In_range. intros [Hr|Hf]; [|exact (D y Hy Hf)].
      assert (0 <= y < ia_bound s) by (apply P; auto). lia.
    - rewrite In_fold_add, In_range in H. destruct H as [H|[H|H]];
        [assert (0 <= x0 < ia_bound s) by (apply P; auto)| |assert (0 <= x0 < ia_bound s) by (apply P; auto)]; lia.
    - rewrite In_fold_add, In_range in H. destruct H as [H|[H|H]];
        [assert (0 <= x0 < ia_bound s) by (apply P; auto)| |assert (0 <= x0 < ia_bound s) by (apply P; auto)]; lia.
    - intros H. rewrite In_fold_add, In_range.
      destruct (Z_lt_dec x0 (ia_bound s)) as [L|L].
      + assert (C : In x0 (ia_alloc s) \/ In x0 (ia_free s)) by (apply P; lia). tauto.
      + right. left. lia.
  Qed.

  (** moving x from the free to the allocated *)
  Lemma ia_moved s x :
    ia_inv s -> In x (ia_free s) ->
    ia_inv {| ia_alloc := set_add (ia_alloc s) x; ia_free := remove_first Z.eqb x (ia_free s);
              ia_bound := ia_bound s |}.
  Proof.
    intros (A & F & D & P & B) Hx. unfold ia_inv; simpl.
    assert (R : forall y, In y (remove_first Z.eqb x (ia_free s)) <-> In y (ia_free s) /\ y <> x)
      by (intros y; apply (In_remove_first zeqb_ok); auto).
    split; [apply NoDup_set_add; auto|]. split; [apply NoDup_remove_first; auto|].
    split; [|split; [|exact B]].
    - intros y. rewrite In_set_add, R. intros [->|H]; [tauto|]. specialize (D y H). tauto.
    - intros y. rewrite In_set_add, R, <- P.
      destruct (Z.eq_dec y x) as [->|N]; tauto.
  Qed.

  Definition holds (s : ida) (held : held_set) : Prop := forall y, held y <-> In (y - start_at) (ia_alloc s).

  Lemma holds_take s x held f b :
    holds s held ->
    holds {| ia_alloc := set_add (ia_alloc s) (x - start_at); ia_free := f; ia_bound := b |} (take x held).
  Proof.
    intros H y. unfold take. simpl. rewrite In_set_add, (H y).
    split; (intros [E|E]; [left; lia|auto]).
  Qed.

  (** What each call does, in terms of offsets from start_at. *)
  Inductive ia_case (s : ida) : ida_op -> ida -> ida_out -> Prop :=
  | IAlloc pick s' x :
      In (x - start_at) (ia_alloc s') -> ~ In (x - start_at) (ia_alloc s) ->
      (forall held, holds s held -> holds s' (take x held)) ->
      0 <= x - start_at ->
      match top with Some t => x - start_at < t | None => True end ->
      ia_case s (AAllocate pick) s' (AOId x)
  | IEmpty pick s' t :
      ia_alloc s' = ia_alloc s -> top = Some t ->
      (forall x, 0 <= x < t -> In x (ia_alloc s)) ->
      ia_case s (AAllocate pick) s' (AORaise EmptyExn)
  | IMark x s' :
      start_at <= x -> match top with Some t => x < t | None => True end ->
      ~ In (x - start_at) (ia_alloc s) ->
      (forall held, holds s held -> holds s' (take x held)) ->
      ia_case s (AMarkAllocated x) s' AONone
  | IMarkHeld x s' :
      start_at <= x -> match top with Some t => x < t | None => True end ->
      In (x - start_at) (ia_alloc s) -> ia_alloc s' = ia_alloc s ->
      ia_case s (AMarkAllocated x) s' (AORaise AlreadyAllocated)
  | IMarkBad x s' :
      ~ (start_at <= x /\ match top with Some t => x < t | None => True end) ->
      ia_alloc s' = ia_alloc s ->
      ia_case s (AMarkAllocated x) s' (AORaise ValueError)
  | IMarkKey x s' t :
      start_at <= x -> top = Some t -> t <= x - start_at -> x < t -> ia_alloc s' = ia_alloc s ->
      ia_case s (AMarkAllocated x) s' (AORaise KeyError)
  | IFree x s' :
      In (x - start_at) (ia_alloc s) ->
      (forall held, holds s held -> holds s' (drop x held)) ->
      ia_case s (AMarkFree x) s' AONone
  | IFreeBad x : ~ In (x - start_at) (ia_alloc s) -> ia_case s (AMarkFree x) s (AORaise ValueError).

  Lemma ia_pop_ok s0 s pick :
    ia_inv s -> ia_alloc s = ia_alloc s0 -> ia_free s <> [] ->
    match (match nth_error (ia_free s) (pick mod length (ia_free s)) with
      | None => (s, Err KeyError)
      | Some x => ({| ia_alloc := set_add (ia_alloc s) x;
                      ia_free := remove_first Z.eqb x (ia_free s); ia_bound := ia_bound s |}, Ok (x + start_at))
      end) with
    | (s', Ok x) => ia_inv s' /\ ia_case s0 (AAllocate pick) s' (AOId x)
    | (s', Err e) => False
    end.
  Proof.
    intros I A N.
    destruct (nth_error (ia_free s) (pick mod length (ia_free s))) as [x|] eqn:E.
    - apply nth_error_In in E. split; [apply ia_moved; auto|].
      destruct I as (_ & _ & D & P & B).
      assert (H : 0 <= x < ia_bound s) by (apply P; auto).
      assert (X : x + start_at - start_at = x) by lia.
      apply IAlloc; rewrite ?X; simpl.
      + apply In_set_add; auto.
      + rewrite <- A. intros H1. exact (D x H1 E).
      + intros held Hh. rewrite <- X at 1. apply holds_take.
        intros y. rewrite A. apply Hh.
      + lia.
      + unfold ia_bound_ok in B. destruct top as [t|]; auto. lia.
    - apply nth_error_None in E.
      assert (length (ia_free s) <> 0)%nat by (destruct (ia_free s); simpl; congruence).
      pose proof (Nat.mod_upper_bound pick (length (ia_free s)) H). lia.
  Qed.

  Lemma ia_take_ok s0 s x :
    ia_inv s -> ia_alloc s = ia_alloc s0 ->
    start_at <= x -> match top with Some t => x < t | None => True end ->
    In (x - start_at) (ia_free s) ->
    let p := ao_unit (ia_take s (x - start_at)) in
    ia_inv (fst p) /\ ia_case s0 (AMarkAllocated x) (fst p) (snd p).
  Proof.
    intros I A H1 H2 F. unfold ia_take.
    rewrite (proj2 (memb_In zeqb_ok _ _) F). simpl. split; [apply ia_moved; auto|].
    destruct I as (_ & _ & D & _). apply IMark; auto.
    - rewrite <- A. intros H. exact (D _ H F).
    - intros held Hh. apply holds_take. intros y. rewrite A. apply Hh.
  Qed.

  Lemma ia_step_ok s o : ia_inv s ->
    ia_inv (fst (ida_step start_at top_limit s o)) /\
    ia_case s o (fst (ida_step start_at top_limit s o)) (snd (ida_step start_at top_limit s o)).
  Proof.
    intros I. destruct o as [pick|x|x]; cbn [ida_step].
    - unfold ia_allocate. destruct (ia_free s) as [|f0 ft] eqn:F.
      + destruct (ia_extend top_limit s (ia_bound s + 10)) as [n s'] eqn:E.
        assert (J : ia_inv s' /\ ia_alloc s' = ia_alloc s /\
                    n = Z.to_nat (ia_bound s' - ia_bound s) /\
                    (n = O -> exists t, top = Some t /\ (forall x, 0 <= x < t -> In x (ia_alloc s)))).
        { pose proof I as (A & FF & D & P & B).
          assert (FA : forall x, 0 <= x < ia_bound s -> In x (ia_alloc s)).
          { intros x Hx. apply P in Hx. rewrite F in Hx. simpl in Hx. tauto. }
          destruct (Z_le_dec 0 (ia_bound s + 10)) as [L|L].
          - destruct (ia_extend_ok s (ia_bound s + 10) n s' I) as (I' & A' & B' & N); auto; [lia|].
            split; [exact I'|]. split; [exact A'|]. split; [exact N|]. intros N0. subst n.
            destruct top as [t|] eqn:T; [|lia].
            exists t. split; auto. intros x Hx. apply FA. lia.
          - (* only a negative limit leaves the bound this low *)
            unfold ia_bound_ok in B. destruct top as [t|] eqn:T; [|lia].
            unfold ia_extend in E. rewrite T in E.
            assert (BT : ia_bound s = t) by lia.
            assert (LT : t <? ia_bound s + 10 = true) by (apply Z.ltb_lt; lia).
            rewrite LT in E.
            assert (RN : range (ia_bound s) t = []).
            { unfold range. replace (Z.to_nat (t - ia_bound s)) with O by lia. reflexivity. }
            rewrite RN in E. simpl in E. inversion E; subst n s'. simpl.
            split; [|split; [reflexivity|split; [lia|]]].
            + unfold ia_inv; simpl. rewrite <- BT. unfold ia_bound_ok. rewrite T.
              repeat (split; [assumption|]). auto.
            + intros _. exists t. split; auto. intros x Hx. lia. }
        destruct J as (I' & A' & N & Z0). destruct n as [|n].
        * destruct (Z0 eq_refl) as (t & T & H). simpl. split; auto. eapply IEmpty; eauto.
        * assert (FN : ia_free s' <> []).
          { destruct I' as (_ & _ & _ & P' & _). destruct I as (_ & _ & _ & P & B).
            intros FN.
            assert (BB : 0 <= ia_bound s).
            { unfold ia_bound_ok in B.
              destruct (Z_le_dec 0 (ia_bound s)); auto. exfalso.
              unfold ia_extend in E. destruct top as [t|]; [|lia].
              assert (BT : ia_bound s = t) by lia.
              assert (LT : t <? ia_bound s + 10 = true) by (apply Z.ltb_lt; lia).
              rewrite LT in E. inversion E; subst s'. simpl in N. lia. }
            assert (C : In (ia_bound s) (ia_alloc s') \/ In (ia_bound s) (ia_free s')) by (apply P'; lia).
            rewrite FN, A' in C. destruct C as [C|[]].
            assert (0 <= ia_bound s < ia_bound s) by (apply P; auto). lia. }
          pose proof (ia_pop_ok s s' pick I' A' FN) as K.
          destruct (nth_error (ia_free s') (pick mod length (ia_free s'))) eqn:EN; [|destruct K].
          simpl. exact K.
      + rewrite <- F.
        assert (FN : ia_free s <> []) by congruence.
        pose proof (ia_pop_ok s s pick I eq_refl FN) as K.
        destruct (nth_error (ia_free s) (pick mod length (ia_free s))) eqn:EN; [|destruct K].
        simpl. exact K.
    - unfold ia_mark_allocated.
      destruct (x <? start_at) eqn:L; [apply Z.ltb_lt in L; simpl; split; auto; apply IMarkBad; auto; lia|].
      apply Z.ltb_ge in L.
      destruct (match top with Some t => t <=? x | None => false end) eqn:LT.
      { simpl. split; auto. apply IMarkBad; auto. destruct top as [t|]; [|discriminate].
        apply Z.leb_le in LT. lia. }
      assert (HT : match top with Some t => x < t | None => True end).
      { destruct top as [t|]; auto. apply Z.leb_gt in LT. exact LT. }
      destruct (ia_bound s <=? x - start_at) eqn:LB.
      + apply Z.leb_le in LB.
        destruct (ia_extend top_limit s (x - start_at + 1)) as [n s'] eqn:E. simpl snd.
        destruct (ia_extend_ok s (x - start_at + 1) n s' I) as (I' & A' & B' & _); auto; try lia.
        destruct (memb Z.eqb (x - start_at) (ia_free s')) eqn:M.
        * apply (memb_In zeqb_ok) in M. apply ia_take_ok; auto.
        * unfold ia_take. rewrite M. simpl. split; auto.
          apply (memb_false zeqb_ok) in M.
          destruct I as (_ & _ & _ & P & _). destruct I' as (_ & _ & _ & P' & _).
          destruct top as [t|] eqn:T.
          -- apply IMarkKey with t; auto.
             destruct (Z_lt_dec (x - start_at) t) as [K|K]; [|lia]. exfalso.
             assert (C : In (x - start_at) (ia_alloc s') \/ In (x - start_at) (ia_free s')) by (apply P'; lia).
             rewrite A' in C. destruct C as [C|C]; [|auto].
             assert (0 <= x - start_at < ia_bound s) by (apply P; auto). lia.
          -- exfalso.
             assert (C : In (x - start_at) (ia_alloc s') \/ In (x - start_at) (ia_free s')) by (apply P'; lia).
             rewrite A' in C. destruct C as [C|C]; [|auto].
             assert (0 <= x - start_at < ia_bound s) by (apply P; auto). lia.
      + apply Z.leb_gt in LB.
        destruct (memb Z.eqb (x - start_at) (ia_alloc s)) eqn:M.
        * apply (memb_In zeqb_ok) in M. simpl. split; auto. apply IMarkHeld; auto.
        * apply (memb_false zeqb_ok) in M. apply ia_take_ok; auto.
          destruct I as (_ & _ & _ & P & _).
          assert (C : In (x - start_at) (ia_alloc s) \/ In (x - start_at) (ia_free s)) by (apply P; lia). tauto.
    - unfold ia_mark_free. pose proof I as (A & F & D & P & B).
      destruct (x <? start_at) eqn:L.
      { apply Z.ltb_lt in L. simpl. split; auto. apply IFreeBad. intros H.
        assert (0 <= x - start_at < ia_bound s) by (apply P; auto). lia. }
      destruct (memb Z.eqb (x - start_at) (ia_alloc s)) eqn:M.
      + apply (memb_In zeqb_ok) in M.
        assert (R : forall y, In y (remove_first Z.eqb (x - start_at) (ia_alloc s)) <-> In y (ia_alloc s) /\ y <> x - start_at)
          by (intros y; apply (In_remove_first zeqb_ok); auto).
        simpl. split.
        * unfold ia_inv; simpl. split; [apply NoDup_remove_first; auto|].
          split; [apply NoDup_set_add; auto|]. split; [|split; [|exact B]].
          -- intros y. rewrite R, In_set_add. intros [H1 H2] [H3|H3]; [congruence|]. exact (D y H1 H3).
          -- intros y. rewrite R, In_set_add, <- P. destruct (Z.eq_dec y (x - start_at)) as [->|N]; tauto.
        * apply IFree; auto. intros held Hh y. unfold drop. simpl. rewrite R, (Hh y).
          split; intros [H1 H2]; split; auto; lia.
      + apply (memb_false zeqb_ok) in M. simpl. split; auto. apply IFreeBad; auto.
  Qed.

  Lemma ia_init_inv : ia_inv ia_init.
  Proof.
    unfold ia_inv; simpl. repeat split; try constructor; try tauto; try lia.
    unfold ia_bound_ok. destruct top as [t|]; lia.
  Qed.

  Lemma top_None : top <> None -> top_limit <> None.
  Proof. unfold ia_top. destruct top_limit; congruence. Qed.

  Lemma same_holds s s' held : ia_alloc s' = ia_alloc s -> holds s held -> holds s' held.
  Proof. intros E H y. rewrite E. apply H. Qed.

  Lemma ident_session_ok ops : forall s held,
    ia_inv s -> holds s held ->
    ida_session (ident_call start_at top_limit) held ops (fst (ida_run start_at top_limit s ops)).
  Proof.
    induction ops as [|o t IH]; intros s held I H; [constructor|]. cbn [ida_run].
    destruct (ia_step_ok s o I) as [I1 C].
    destruct (ida_step start_at top_limit s o) as [s1 out]. cbn [fst snd] in *.
    specialize (IH s1).
    destruct (ida_run start_at top_limit s1 t) as [outs s']. cbn [fst] in *.
    inversion C; subst.
    - apply AS_cons with (take x held); [apply ICAlloc; [lia|rewrite (H x); auto]|]. auto.
    - apply AS_cons with held; [|apply IH; auto; eapply same_holds; eauto].
      apply ICRefuse. apply top_None. congruence.
    - apply AS_cons with (take x held); [apply ICMark; [lia|rewrite (H x); auto]|]. auto.
    - apply AS_cons with held; [|apply IH; auto; eapply same_holds; eauto].
      apply ICMarkHeld. apply H; auto.
    - apply AS_cons with held; [|apply IH; auto; eapply same_holds; eauto].
      apply ICMarkRefuse; auto. destruct (Z_lt_dec x start_at) as [|K]; auto. right.
      apply top_None. intros T. rewrite T in *. lia.
    - apply AS_cons with held; [|apply IH; auto; eapply same_holds; eauto].
      apply ICMarkRefuse; auto. right. apply top_None. congruence.
    - apply AS_cons with (drop x held); [apply ICFree; apply H; auto|]. auto.
    - apply AS_cons with held; [apply ICFreeBad; rewrite (H x); auto|]. auto.
  Qed.

  Lemma full_session_ok ops :
    top_limit = None \/ (start_at = 0 /\ top_limit <> Some 0) ->
    forall s held, ia_inv s -> holds s held ->
    ida_session (call start_at top_limit) held ops (fst (ida_run start_at top_limit s ops)).
  Proof.
    intros HL.
    assert (T : top = top_limit).
    { unfold ia_top. destruct HL as [->|[_ N]]; auto. destruct top_limit as [t|]; auto.
      destruct (t =? 0) eqn:E; auto. apply Z.eqb_eq in E. congruence. }
    induction ops as [|o t IH]; intros s held I H; [constructor|]. cbn [ida_run].
    destruct (ia_step_ok s o I) as [I1 C].
    destruct (ida_step start_at top_limit s o) as [s1 out]. cbn [fst snd] in *.
    specialize (IH s1).
    destruct (ida_run start_at top_limit s1 t) as [outs s']. cbn [fst] in *.
    assert (AL : forall x, allowed start_at top_limit x <->
              start_at <= x /\ match top with Some t => x < t | None => True end)
      by (intros; rewrite T; reflexivity).
    inversion C; subst.
    - apply AS_cons with (take x held); auto. apply CAlloc; [|rewrite (H x); auto].
      apply AL. split; [lia|]. destruct top; auto.
      destruct HL as [L|[L _]]; [rewrite L in T; discriminate|]. lia.
    - apply AS_cons with held; [|apply IH; auto; eapply same_holds; eauto].
      apply CEmpty; [congruence|]. intros x Hx. apply H, H2.
      destruct HL as [L|[L _]]; [congruence|]. apply AL in Hx. rewrite H1 in Hx. lia.
    - apply AS_cons with (take x held); auto. apply CMark; [apply AL; auto|rewrite (H x); auto].
    - apply AS_cons with held; [|apply IH; auto; eapply same_holds; eauto].
      apply CMarkHeld; [apply AL; auto|apply H; auto].
    - apply AS_cons with held; [|apply IH; auto; eapply same_holds; eauto].
      apply CMarkBad. rewrite AL. auto.
    - exfalso. destruct HL as [L|[L _]]; [congruence|]. lia.
    - apply AS_cons with (drop x held); auto. apply CFree. apply H; auto.
    - apply AS_cons with held; auto. apply CFreeBad. rewrite (H x); auto.
  Qed.
End IDA.
