From Verif Require Import Prelude PreludeFacts MoreFacts Thread_Model Thread_Spec.

Lemma entries_app : forall l m, entries (l ++ m) = entries l ++ entries m.
Proof. intros; unfold entries; now rewrite flat_map_app. Qed.
Lemma exits_app : forall l m, exits (l ++ m) = exits l ++ exits m.
Proof. intros; unfold exits; now rewrite flat_map_app. Qed.
Lemma loops_app : forall l m, loops (l ++ m) = loops l + loops m.
Proof. intros; unfold loops; now rewrite entries_app, filter_app, app_length. Qed.

Section T.
  Variable interval : option Z.
  Variable ton : nat -> option bool.
  Notation step := (tstep interval ton).
  Notation exec := (texec interval ton).

  Lemma exec_snoc : forall es c e, exec c (es ++ [e]) = step (exec c es) e.
  Proof. induction es; simpl; intros; auto. Qed.
  Lemma exec_ind : forall (P : tstate -> Prop) (Q : event -> Prop), P tnew -> (forall c e, Q e -> P c -> P (step c e)) -> forall es, Forall Q es -> P (exec tnew es).
  Proof.
    intros P Q H0 Hs es; induction es using rev_ind; simpl; intros F; auto. rewrite exec_snoc. apply Forall_app in F as [F1 F2]. inversion F2; subst. auto.
  Qed.
  Lemma exec_ind' : forall (P : tstate -> Prop), P tnew -> (forall c e, P c -> P (step c e)) -> forall es, P (exec tnew es).
  Proof. intros P H0 Hs es. apply (exec_ind P (fun _ => True)); auto. apply Forall_forall; auto. Qed.

  (** the calls made so far, by place *)
  Definition body_so_far (l : list method) : Prop := exists body, l = Prepare :: body /\ Forall in_body body.
  Definition shape (p : place) (l : list method) : Prop :=
    match p with
    | NotStarted | AtTop => l = []
    | Inside Prepare => l = [Prepare]
    | Cleaning _ => whole_life l
    | Ended _ => l = [] \/ body_so_far l \/ whole_life l
    | _ => body_so_far l
    end.
  Lemma body_start : body_so_far [Prepare].
  Proof. exists []; split; auto. Qed.
  Lemma body_snoc : forall l m, body_so_far l -> in_body m -> body_so_far (l ++ [m]).
  Proof. intros l m (b & -> & F) I. exists (b ++ [m]); split; auto. apply Forall_app; auto. Qed.
  Lemma body_clean : forall l, body_so_far l -> whole_life (l ++ [Cleanup]).
  Proof. intros l (b & -> & F). exists b; auto. Qed.
  Definition not_clean (p : place) : Prop := p <> Inside Cleanup.
  Definition InvS (c : tstate) : Prop := shape (at_ c) (entries (trace c)) /\ not_clean (at_ c).
  Ltac places := repeat match goal with
    | |- context [match ?x with _ => _ end] => destruct x eqn:?
    | |- context [if ?x then _ else _] => destruct x eqn:?
    end.
  Ltac app := repeat rewrite entries_app; simpl; rewrite ?app_nil_r.
  Lemma InvS_step : forall c e, InvS c -> InvS (step c e).
  Proof.
    intros [f i p tr] e [H N]. unfold InvS in *; simpl in *.
    destruct e as [|o ms|force|]; cbn [tstep].
    - unfold tgo, out_with; simpl. destruct p as [ | |m| ex | | | | d | d | d | d | | o | o | o]; simpl in *; places; simpl; app;
        (split; [ | try discriminate; auto ]); auto using body_start, body_clean;
        try (subst; rewrite ?H; auto using body_start; fail); try (apply body_snoc; auto; unfold in_body; auto; fail).
    - unfold tends, out_with; simpl. destruct p as [ | |m| ex | | | | d | d | d | d | | oo | oo | oo]; simpl in *; auto.
      + destruct m; simpl in H; try (exfalso; apply N; reflexivity); places; simpl; app; (split; [ | try discriminate; auto ]); auto; rewrite ?H; auto using body_start.
      + places; simpl; app; split; auto; discriminate.
    - unfold tterminate; simpl. app. auto.
    - unfold tsurface; simpl. destruct i; auto. destruct p as [ | |m| ex | | | | d | d | d | d | | oo | oo | oo]; simpl in *; unfold out_with; simpl; auto; split; auto; discriminate.
  Qed.
  Lemma InvS_exec : forall es, InvS (exec tnew es).
  Proof. apply exec_ind'. - split; [reflexivity|discriminate]. - exact InvS_step. Qed.
  Lemma life_parts : forall es, part_of_life (entries (trace (exec tnew es))).
  Proof.
    intros es. destruct (InvS_exec es) as [H _]. revert H. generalize (entries (trace (exec tnew es))) as l; intros l H.
    assert (W : l = [] \/ body_so_far l \/ whole_life l).
    { destruct (at_ (exec tnew es)) as [ | |m| ex | | | | d | d | d | d | | o | o | o]; simpl in H; auto. destruct m; auto. subst; right; left; apply body_start. }
    destruct W as [-> | [W | W]].
    - exists [Prepare; Cleanup], []; simpl; auto.
    - exists [Cleanup]. now apply body_clean.
    - exists []. now rewrite app_nil_r.
  Qed.

  (** without force *)
  Definition InvU (c : tstate) : Prop := injected c = false /\ InvS c /\ (forall o, at_ c = Ended o -> whole_life (entries (trace c))).
  Lemma InvU_step : forall c e, unforced e -> InvU c -> InvU (step c e).
  Proof.
    intros [f i p tr] e U (I & S & H). unfold InvU. split; [|split]; [| now apply InvS_step |].
    - simpl in I; subst. destruct e; simpl; auto.
      + unfold tgo; simpl. destruct p; simpl; places; auto.
      + unfold tends; simpl. destruct p; simpl; places; auto.
      + simpl in U; subst; auto.
    - simpl in I; subst i. intros oo E. destruct S as [S N]. simpl in S, N, H. destruct e as [|o ms|force|]; cbn [tstep] in *.
      + unfold tgo, out_with in *; simpl in *. destruct p as [ | |m| ex | | | | d | d | d | d | | o | o | o]; simpl in *;
          repeat match goal with
          | H : context [match ?x with _ => _ end] |- _ => destruct x eqn:?
          | H : context [if ?x then _ else _] |- _ => destruct x eqn:?
          end; simpl in *; try discriminate; eauto.
      + unfold tends, out_with in *; simpl in *. destruct p as [ | |m| ex | | | | d | d | d | d | | o' | o' | o']; simpl in *; try discriminate.
        * destruct m, o as [|[]], interval; simpl in *; discriminate.
        * clear E. app. exact S.
        * eauto.
      + simpl in *. app. eauto.
      + eauto.
  Qed.
  Lemma InvU_exec : forall es, Forall unforced es -> InvU (exec tnew es).
  Proof. apply exec_ind. - repeat split; try discriminate. - exact InvU_step. Qed.
  Lemma whole_when_ended : forall es o, Forall unforced es -> at_ (exec tnew es) = Ended o -> whole_life (entries (trace (exec tnew es))).
  Proof. intros es o F E. destruct (InvU_exec es F) as (_ & _ & H). eauto. Qed.

  (** one at a time *)
  Fixpoint current (cur : option method) (l : list act) : option method :=
    match l with
    | [] => cur
    | Enters m :: rest => current (Some m) rest
    | Leaves _ _ :: rest => current None rest
    | _ :: rest => current cur rest
    end.
  Lemma current_app : forall l m cur, current cur (l ++ m) = current (current cur l) m.
  Proof. induction l as [|a l IH]; simpl; intros; auto. destruct a; auto. Qed.
  Lemma oaat_app : forall l m cur, one_at_a_time cur (l ++ m) <-> one_at_a_time cur l /\ one_at_a_time (current cur l) m.
  Proof. induction l as [|a l IH]; simpl; intros. - tauto. - destruct a; rewrite ?IH; tauto. Qed.
  Definition open_at (p : place) : option method := match p with Inside m => Some m | Cleaning _ => Some Cleanup | _ => None end.
  Definition InvO (c : tstate) : Prop := one_at_a_time None (trace c) /\ current None (trace c) = open_at (at_ c).
  Lemma InvO_step : forall c e, InvO c -> InvO (step c e).
  Proof.
    intros [f i p tr] e [H C]. unfold InvO in *; simpl in *.
    destruct e as [|o ms|force|]; cbn [tstep].
    - unfold tgo, out_with; simpl. destruct p as [ | |m| ex | | | | d | d | d | d | | o | o | o]; simpl in *; places; simpl;
        rewrite ?oaat_app, ?current_app, ?C; simpl; rewrite ?C; auto.
    - unfold tends, out_with; simpl. destruct p as [ | |m| ex | | | | d | d | d | d | | oo | oo | oo]; simpl in *; auto; places; simpl;
        rewrite ?oaat_app, ?current_app, ?C; simpl; rewrite ?C; auto.
    - unfold tterminate; simpl. rewrite oaat_app, current_app; simpl. auto.
    - unfold tsurface; simpl. destruct i; auto. destruct p as [ | |m| ex | | | | d | d | d | d | | oo | oo | oo]; simpl in *; auto.
  Qed.
  Lemma never_overlap : forall es, one_at_a_time None (trace (exec tnew es)).
  Proof. intros es. apply (exec_ind' InvO). - split; reflexivity. - exact InvO_step. Qed.

  (** after the flag was seen *)
  Definition goes_down (p : place) : Prop := match p with SleepLast | AtFinally _ | Cleaning _ | Ended _ => True | _ => False end.
  Definition calm (l : list act) : Prop := forall l1 l2 m, l = l1 ++ Saw true :: l2 -> In (Enters m) l2 -> m = Cleanup.
  Lemma calm_snoc : forall l a, calm l -> (forall m, a = Enters m -> In (Saw true) l -> m = Cleanup) -> calm (l ++ [a]).
  Proof.
    intros l a C H l1 l2 m E I. destruct l2 as [|b l2 _] using rev_ind; [destruct I|]. rewrite app_comm_cons, app_assoc in E. apply app_inj_tail in E as [E1 E2]. subst b.
    apply in_app_or in I as [I|I]. - eapply C; eauto. - destruct I as [I|[]]. apply (H m); auto. rewrite E1. apply in_or_app; right; now left.
  Qed.
  Definition InvC (c : tstate) : Prop := calm (trace c) /\ (In (Saw true) (trace c) -> flag c = true /\ goes_down (at_ c)).
  Lemma calm_nil : calm [].
  Proof. intros l1 l2 m E. destruct l1; discriminate. Qed.
  Ltac seen := repeat match goal with H : In _ (_ ++ _) |- _ => apply in_app_or in H as [H|H] end.
  Ltac fin S := repeat match goal with
      | |- calm (_ ++ []) => rewrite app_nil_r
      | |- calm (_ ++ [?a; ?b]) => change [a; b] with ([a] ++ [b]); rewrite app_assoc
      | |- calm (_ ++ [_]) => apply calm_snoc
      end; auto.
  Lemma InvC_step : forall c e, InvC c -> InvC (step c e).
  Proof.
    intros [f i p tr] e [H S]. unfold InvC in *; simpl in *.
    assert (NT : forall b, In (Saw true) (tr ++ [Saw b]) -> In (Saw true) tr \/ b = true).
    { intros b J. apply in_app_or in J as [J|[J|[]]]; auto. inversion J; auto. }
    assert (N0 : ~ goes_down p -> ~ In (Saw true) tr) by tauto.
    destruct e as [|o ms|force|]; cbn [tstep].
    - unfold tgo, out_with; simpl. destruct p as [ | |m| ex | | | | d | d | d | d | | o | o | o]; cbn [goes_down] in *; simpl; places; simpl; split; fin S;
        try (intros m0 E0 J0; try discriminate; try (inversion E0; auto; fail); exfalso; tauto);
        try (intros J0; exfalso; seen; simpl in *; intuition discriminate; fail);
        try (intros J0; split; auto; seen; simpl in *; intuition discriminate).
      all: try (intros J0; apply NT in J0 as [J0|J0]; try discriminate; tauto).
    - unfold tends, out_with; simpl. destruct p as [ | |m| ex | | | | d | d | d | d | | oo | oo | oo]; cbn [goes_down] in *; simpl; auto; places; simpl; split; fin S;
        try (intros m0 E0 J0; discriminate);
        try (intros J0; exfalso; seen; simpl in *; intuition discriminate; fail);
        try (intros J0; split; auto; seen; simpl in *; intuition discriminate).
    - unfold tterminate; simpl. split. + fin S. intros; discriminate. + intros J. seen. * split; auto. apply S; auto. * destruct J as [J|[]]; discriminate.
    - unfold tsurface; simpl. destruct i; simpl; auto. destruct p as [ | |m| ex | | | | d | d | d | d | | oo | oo | oo]; simpl in *; split; auto; intros J; split; auto; try apply S; auto.
  Qed.
  Lemma calm_exec : forall es, calm (trace (exec tnew es)).
  Proof. intros es. apply (exec_ind' InvC). - split. + apply calm_nil. + intros []. - exact InvC_step. Qed.

  (** after terminate() *)
  Fixpoint since (l : list act) : option nat :=
    match l with
    | [] => None
    | Terminated :: rest => Some (loops rest)
    | _ :: rest => since rest
    end.
  Lemma since_snoc : forall l a, since (l ++ [a]) = match since l with
    | Some n => Some (n + loops [a])
    | None => match a with Terminated => Some 0 | _ => None end end.
  Proof.
    induction l as [|b l IH]; simpl; intros. - destruct a; reflexivity. - destruct b; try apply IH. f_equal. apply loops_app.
  Qed.
  Lemma since_bound : forall l l1 l2, l = l1 ++ Terminated :: l2 -> exists n, since l = Some n /\ loops l2 <= n.
  Proof.
    intros l l1 l2 ->. induction l1 as [|a l1 IH]; simpl. - exists (loops l2); auto.
    - destruct IH as (n & E & L). destruct a; eauto. exists (loops (l1 ++ Terminated :: l2)). split; auto. rewrite loops_app.
      change (Terminated :: l2) with ([Terminated] ++ l2). rewrite loops_app. lia.
  Qed.
  Definition InvT (c : tstate) : Prop :=
    match since (trace c) with
    | None => flag c = false
    | Some n => flag c = true /\ n <= 1 /\ (at_ c = Entering -> n = 0)
    end.
  Lemma InvT_step : forall c e, InvT c -> InvT (step c e).
  Proof.
    intros [f i p tr] e H. unfold InvT in *; simpl in *.
    destruct e as [|o ms|force|]; cbn [tstep].
    - unfold tgo, out_with; simpl. destruct p as [ | |m| ex | | | | d | d | d | d | | o | o | o]; simpl in *;
        repeat match goal with
        | |- context [if ?x then _ else _] => destruct x eqn:?
        | |- context [match ?x with Ordinary _ => _ | _ => _ end] => destruct x eqn:?
        | |- context [match ton ?x with _ => _ end] => destruct (ton x) as [[]|] eqn:?
        | |- context [match interval with _ => _ end] => destruct interval eqn:?
        end; simpl; rewrite ?app_nil_r, ?since_snoc; auto; destruct (since tr) as [k|]; simpl; auto;
        try (destruct H as (F & L & E)); repeat split; auto; try discriminate; try congruence; try lia;
        try (intros; assert (k = 0) by auto; lia); try (assert (k = 0) by auto; unfold loops; simpl; lia); try (unfold loops; simpl; lia).
      all: try (unfold loops; simpl; intros; assert (k = 0) by auto; lia).
    - unfold tends, out_with; simpl. destruct p as [ | |m| ex | | | | d | d | d | d | | oo | oo | oo]; simpl in *; auto;
        repeat match goal with
        | |- context [match ?x with Returns => _ | _ => _ end] => destruct x eqn:?
        | |- context [match ?x with Prepare => _ | _ => _ end] => destruct x eqn:?
        | |- context [match ?x with Ordinary _ => _ | _ => _ end] => destruct x eqn:?
        | |- context [match interval with _ => _ end] => destruct interval eqn:?
        end; simpl; try match goal with |- context [tr ++ [?a; ?b]] => change [a; b] with ([a] ++ [b]); rewrite app_assoc end; rewrite ?since_snoc;
        destruct (since tr) as [k|]; simpl; auto;
        destruct H as (F & L & E); repeat split; auto; try discriminate; unfold loops; simpl; lia.
    - unfold tterminate; simpl. rewrite since_snoc. destruct (since tr) as [k|]; simpl.
      + destruct H as (F & L & E). repeat split; auto. * unfold loops; simpl; lia. * intros Ep; unfold loops; simpl. rewrite (E Ep); lia.
      + repeat split; auto.
    - unfold tsurface; simpl. destruct i; auto. destruct p as [ | |m| ex | | | | d | d | d | d | | oo | oo | oo]; simpl in *; auto;
        destruct (since tr) as [k|]; auto; destruct H as (F & L & E); repeat split; auto; discriminate.
  Qed.
  Lemma one_more_loop : forall es l1 l2, trace (exec tnew es) = l1 ++ Terminated :: l2 -> loops l2 <= 1.
  Proof.
    intros es l1 l2 E. assert (I : InvT (exec tnew es)). { apply exec_ind'. - reflexivity. - exact InvT_step. }
    unfold InvT in I. destruct (since_bound _ _ _ E) as (n & S & L). rewrite S in I. lia.
  Qed.
  Lemma flag_terminated : forall es, flag (exec tnew es) = true <-> In Terminated (trace (exec tnew es)).
  Proof.
    intros es. assert (I : InvT (exec tnew es)). { apply exec_ind'. - reflexivity. - exact InvT_step. }
    unfold InvT in I. split.
    - intros F. assert (G : forall l, since l <> None -> In Terminated l).
      { induction l as [|a l IH]; simpl; [congruence|]. destruct a; auto. }
      apply G. destruct (since _); congruence.
    - intros J. apply in_split in J as (l1 & l2 & E). destruct (since_bound _ _ _ E) as (n & S & _). rewrite S in I. tauto.
  Qed.

  (** it ends soon *)
  Definition left_to_do (p : place) : nat :=
    match p with
    | NotStarted => 7 | AtTop => 6 | Inside Overrun => 4 | Inside _ => 5 | Handling _ => 4 | AtTerminate => 3 | Checking => 3
    | Entering => 6 | AfterLoop _ => 3 | Deciding _ => 5 | SleepTest _ => 4 | SleepFor _ => 5 | SleepLast => 3
    | AtFinally _ => 2 | Cleaning _ => 1 | Ended _ => 0
    end.
  (** only the interval thread gets to where it sleeps *)
  Definition has_interval (c : tstate) : Prop :=
    match at_ c with AfterLoop _ | Deciding _ => interval <> None | _ => True end.
  Lemma has_interval_step : forall c e, has_interval c -> has_interval (step c e).
  Proof.
    intros [f i p tr] e H. unfold has_interval in *; simpl in *. destruct e as [|o ms|force|]; cbn [tstep]; auto.
    - unfold tgo, out_with; simpl. destruct p as [ | |m| ex | | | | d | d | d | d | | o | o | o]; simpl in *; auto.
      + destruct ex; simpl; auto. destruct (ton n) as [[]|]; simpl; auto.
      + destruct f; simpl; auto.
      + destruct f; simpl; auto.
      + destruct interval; simpl; auto. destruct (_ <? _)%Z; simpl; auto.
      + destruct (_ <? _)%Z, f; simpl; auto.
      + destruct f; simpl; auto.
    - unfold tends, out_with; simpl. destruct p as [ | |m| ex | | | | d | d | d | d | | oo | oo | oo]; simpl in *; auto.
      destruct o as [|[]], m, interval; simpl; auto; discriminate.
    - unfold tsurface; simpl. destruct i; auto. destruct p as [ | |m| ex | | | | d | d | d | d | | oo | oo | oo]; simpl in *; auto.
  Qed.
  Lemma has_interval_exec : forall es, has_interval (exec tnew es).
  Proof. apply exec_ind'. - exact I. - exact has_interval_step. Qed.
  Lemma own_less : forall c o, flag c = true -> has_interval c ->
    let c' := step c (own c o) in flag c' = true /\ left_to_do (at_ c') <= left_to_do (at_ c) - 1.
  Proof.
    intros [f i p tr] o F H. simpl in F; subst f. unfold own, has_interval in *; simpl in *.
    destruct p as [ | |m| ex | | | | d | d | d | d | | oo | oo | oo]; simpl; unfold tgo, tends, out_with in *; simpl.
    all: try (destruct ex; simpl; [destruct (ton n) as [[]|]; simpl | | | ]).
    all: try (destruct m, o as [|[]], interval; simpl).
    all: try (destruct interval; [|congruence]).
    all: repeat match goal with |- context [(?a <? ?b)%Z] => destruct (a <? b)%Z; simpl end.
    all: split; auto; try lia.
  Qed.
  Lemma ends_soon : forall l c, flag c = true -> has_interval c -> left_to_do (at_ c) <= length l -> exists o, at_ (on_its_own interval ton c l) = Ended o.
  Proof.
    induction l as [|o l IH]; simpl; intros c F H L.
    - destruct (at_ c) as [ | |[]| | | | | | | | | | | | ]; simpl in L; try lia; eauto.
    - destruct (own_less c o F H) as [F' L']. apply IH; auto. + now apply has_interval_step. + lia.
  Qed.
  Lemma left_max : forall p, left_to_do p <= 7.
  Proof. destruct p as [ | |[]| | | | | | | | | | | | ]; simpl; lia. Qed.

  (** how it ends *)
  Definition all_return (l : list (method * outcome)) : Prop := Forall (fun x => snd x = Returns) l.
  Definition heading (p : place) (fl : bool) (l : list (method * outcome)) : Prop :=
    match p with
    | NotStarted | AtTop | Inside _ | Checking | Entering | AfterLoop _ | Deciding _ | SleepTest _ | SleepFor _ | SleepLast => all_return l
    | Handling e => exists l' m, l = l' ++ [(m, Raises e)] /\ all_return l' /\ m <> Overrun /\ verdict ton m (Raises e) = match e with
                      | Ordinary n => match ton n with Some true => Returns | Some false => Raises e | None => Raises NotATuple end | _ => Raises e end
    | AtTerminate => exists l' m n, l = l' ++ [(m, Raises (Ordinary n))] /\ all_return l' /\ m <> Overrun /\ ton n = Some true
    | AtFinally o | Cleaning o => exists l' m o1, l = l' ++ [(m, o1)] /\ all_return l' /\ o = verdict ton m o1 /\
                      (o = Returns -> o1 <> Raises SysExit -> fl = true)
    | Ended o => exists l' m o1 o2, l = l' ++ [(m, o1); (Cleanup, o2)] /\ all_return l' /\ o = final ton m o1 o2 /\
                      (verdict ton m o1 = Returns -> o1 <> Raises SysExit -> fl = true)
    end.
  Definition some_call (p : place) (l : list (method * outcome)) : Prop :=
    match p with NotStarted | AtTop | Inside _ => True | _ => l <> [] end.
  Definition InvH (c : tstate) : Prop :=
    injected c = false /\ heading (at_ c) (flag c) (exits (trace c)) /\ some_call (at_ c) (exits (trace c)) /\ at_ c <> Inside Cleanup.
  Lemma all_return_snoc : forall l m, all_return l -> all_return (l ++ [(m, Returns)]).
  Proof. intros; apply Forall_app; split; auto. Qed.
  Lemma snoc_not_nil : forall (l : list (method * outcome)) x, l ++ [x] <> [].
  Proof. intros l x E; destruct l; discriminate. Qed.
  Lemma last_returns : forall l, l <> [] -> all_return l -> exists l' m, l = l' ++ [(m, Returns)] /\ all_return l'.
  Proof.
    intros l N A. destruct l as [|[m o] l _] using rev_ind; [congruence|]. apply Forall_app in A as [A B]. inversion B; subst; simpl in *; subst. eauto.
  Qed.
  Ltac ex := repeat rewrite exits_app; simpl; rewrite ?app_nil_r.
  Lemma down_returns : forall l b, l <> [] -> all_return l -> b = true ->
    exists l' m o1, l = l' ++ [(m, o1)] /\ all_return l' /\ Returns = verdict ton m o1 /\ (Returns = Returns -> o1 <> Raises SysExit -> b = true).
  Proof. intros l b N A B. destruct (last_returns l N A) as (l' & m & E & A'). exists l', m, Returns. auto. Qed.
  Lemma InvH_step : forall c e, unforced e -> InvH c -> InvH (step c e).
  Proof.
    intros [f i p tr] e U (I & H & S & N). unfold InvH in *; simpl in *; subst i.
    destruct e as [|o ms|force|]; cbn [tstep].
    - unfold tgo, out_with; simpl. destruct p as [ | |m| ex | | | | d | d | d | d | | o | o | o]; cbn [heading some_call at_ flag injected trace] in *.
      4: { destruct H as (l' & m & E & A & M & V). destruct ex as [n| |n|]; cbn [verdict] in V.
        - destruct (ton n) as [[]|] eqn:T; simpl; repeat split; ex; auto; try discriminate.
          + exists l', m, n; auto.
          + exists l', m, (Raises (Ordinary n)). repeat split; auto. * simpl. rewrite T. destruct m; auto; congruence. * discriminate.
          + exists l', m, (Raises (Ordinary n)). repeat split; auto. * simpl. rewrite T. destruct m; auto; congruence. * discriminate.
        - simpl; repeat split; ex; auto; try discriminate.
        - simpl; repeat split; ex; auto; try discriminate. exists l', m, (Raises (OtherBase n)). repeat split; auto. discriminate.
        - simpl; repeat split; ex; auto; try discriminate. exists l', m, (Raises NotATuple). repeat split; auto. discriminate. }
      4: { destruct H as (l' & m & n & E & A & M & T). simpl; repeat split; ex; auto; try discriminate. exists l', m, (Raises (Ordinary n)). repeat split; auto.
           simpl. rewrite T. destruct m; auto; congruence. }
      all: repeat match goal with
      | |- context [if ?x then _ else _] => destruct x eqn:?
      | |- context [match interval with _ => _ end] => destruct interval eqn:?
      end; simpl; repeat split; ex; auto; try discriminate; try (apply down_returns; auto; fail).
    - unfold tends, out_with; simpl. destruct p as [ | |m| ex | | | | d | d | d | d | | oo | oo | oo]; cbn [heading some_call at_ flag injected trace] in *; auto.
      + destruct o as [|e].
        * destruct m, interval; simpl; repeat split; ex; auto using all_return_snoc, snoc_not_nil; try discriminate.
        * assert (OUT : verdict ton m (Raises e) = (match e with SysExit => Returns | _ => Raises e end) ->
                     exists l' m0 o1, exits tr ++ [(m, Raises e)] = l' ++ [(m0, o1)] /\ all_return l' /\ (match e with SysExit => Returns | _ => Raises e end) = verdict ton m0 o1 /\
                       ((match e with SysExit => Returns | _ => Raises e end) = Returns -> o1 <> Raises SysExit -> f = true)).
          { intros V. exists (exits tr), m, (Raises e). repeat split; auto. destruct e; simpl; try discriminate; congruence. }
          destruct m, e as [n| |n|]; simpl; repeat split; ex; auto using snoc_not_nil; try discriminate; try (apply OUT; reflexivity);
            exists (exits tr); eexists; repeat split; auto; discriminate.
      + destruct H as (l' & m & o1 & E & A & V & T). simpl; repeat split; ex; try discriminate.
        * exists l', m, o1, o. rewrite E, <- app_assoc. repeat split; auto. -- unfold final; destruct o; auto. -- intros; apply T; auto; congruence.
        * apply snoc_not_nil.
    - simpl in U; subst. unfold tterminate; simpl. ex. split; auto. split; [|auto]. destruct p as [ | |m| ex | | | | d | d | d | d | | oo | oo | oo]; simpl in *; auto.
      + destruct H as (l' & m & o1 & E & A & V & T). exists l', m, o1; auto.
      + destruct H as (l' & m & o1 & E & A & V & T). exists l', m, o1; auto.
      + destruct H as (l' & m & o1 & o2 & E & A & V & T). exists l', m, o1, o2; auto.
    - unfold tsurface; simpl; auto.
  Qed.
  Lemma how_it_ends : forall es o, Forall unforced es -> at_ (exec tnew es) = Ended o ->
    exists l m o1 o2, exits (trace (exec tnew es)) = l ++ [(m, o1); (Cleanup, o2)] /\ Forall (fun x => snd x = Returns) l /\ o = final ton m o1 o2 /\
      (verdict ton m o1 = Returns -> o1 <> Raises SysExit -> flag (exec tnew es) = true).
  Proof.
    intros es o F E. assert (J : InvH (exec tnew es)).
    { revert F. apply (exec_ind InvH). - repeat split; try discriminate. constructor. - exact InvH_step. }
    destruct J as (_ & H & _). rewrite E in H. exact H.
  Qed.
End T.

(** the interval thread is timely *)
Section Interval.
  Variable seconds : Z.
  Variable ton : nat -> option bool.
  Notation step := (tstep (Some seconds) ton).
  Notation exec := (texec (Some seconds) ton).
  Fixpoint owed_after (owed : option Z) (l : list act) : option Z :=
    match l with
    | [] => owed
    | Measured d :: rest => owed_after (Some (seconds - d)%Z) rest
    | Slept d :: rest => owed_after (option_map (fun x => x - d)%Z owed) rest
    | Enters Overrun :: rest | Enters Loop :: rest => owed_after None rest
    | _ :: rest => owed_after owed rest
    end.
  Lemma owed_app : forall l m o, owed_after o (l ++ m) = owed_after (owed_after o l) m.
  Proof. induction l as [|a l IH]; simpl; intros; auto. destruct a as [[]| | | | | ]; auto. Qed.
  Lemma timely_app : forall l m o, timely seconds o (l ++ m) <-> timely seconds o l /\ timely seconds (owed_after o l) m.
  Proof.
    induction l as [|a l IH]; simpl; intros. - tauto. - destruct a as [[]| | | | | ]; simpl; rewrite ?IH; try tauto.
    + destruct o; simpl; rewrite ?IH; tauto.
    + destruct o; simpl; rewrite ?IH; tauto.
  Qed.
  Definition debt (p : place) (fl : bool) (o : option Z) : Prop :=
    match p with
    | AfterLoop d | Deciding d => o = Some (seconds - d)%Z
    | SleepTest d => o = Some d /\ (0 <= d)%Z
    | SleepFor d => o = Some d /\ (0 < d)%Z
    | SleepLast => fl = true \/ o = Some 0%Z
    | NotStarted | AtTop | Inside Prepare | Inside Loop | Inside Overrun => o = None
    | Checking | Entering => o = None \/ o = Some 0%Z
    | _ => True
    end.
  Definition InvD (c : tstate) : Prop := timely seconds None (trace c) /\ debt (at_ c) (flag c) (owed_after None (trace c)) /\ at_ c <> Inside Cleanup.
  Lemma InvD_step : forall c e, InvD c -> InvD (step c e).
  Proof.
    intros [f i p tr] e (H & D & N). unfold InvD in *; simpl in *.
    destruct e as [|o ms|force|]; cbn [tstep].
    - unfold tgo, out_with; simpl. destruct p as [ | |m| ex | | | | d | d | d | d | | o | o | o]; simpl in D |- *.
      1-3, 5-8: try destruct f; simpl; rewrite ?timely_app, ?owed_app; simpl; try (rewrite D; simpl); repeat split; auto; try discriminate.
      + destruct ex; simpl; [destruct (ton n) as [[]|]; simpl | | | ]; rewrite ?timely_app; simpl; repeat split; auto; discriminate.
      + destruct (seconds - d <? 0)%Z eqn:E; simpl; rewrite ?timely_app, ?owed_app, ?D; simpl; repeat split; auto; try discriminate. * now apply Z.ltb_lt. * now apply Z.ltb_ge.
      + destruct D as [D0 D1]. destruct (0 <? d)%Z eqn:E; [apply Z.ltb_lt in E; destruct f|apply Z.ltb_ge in E]; simpl; rewrite ?timely_app, ?owed_app, ?D0; simpl; repeat split; auto; try discriminate.
        right; f_equal; lia.
      + destruct D as [D0 D1]. rewrite timely_app, owed_app, D0; simpl. unfold wake_up_each. repeat split; auto; try discriminate; lia.
      + destruct f; simpl; rewrite ?timely_app, ?owed_app; simpl; repeat split; auto; try discriminate. destruct D; auto; discriminate.
      + rewrite timely_app; simpl. repeat split; auto; discriminate.
      + auto.
      + auto.
    - unfold tends, out_with; simpl. destruct p as [ | |m| ex | | | | d | d | d | d | | oo | oo | oo]; simpl in D |- *; auto.
      + destruct o as [|e]; [destruct m | destruct m, e]; simpl; rewrite ?timely_app, ?owed_app; simpl; repeat split; auto; try discriminate; congruence.
      + rewrite timely_app; simpl; repeat split; auto; discriminate.
    - unfold tterminate; simpl. rewrite timely_app, owed_app; simpl. repeat split; auto. destruct p as [ | |[]| ex | | | | d | d | d | d | | oo | oo | oo]; simpl in *; tauto.
    - unfold tsurface; simpl. destruct i; auto. destruct p as [ | |m| ex | | | | d | d | d | d | | oo | oo | oo]; simpl in *; repeat split; auto; try discriminate; try destruct D; auto.
  Qed.
  Lemma timely_exec : forall es, timely seconds None (trace (exec tnew es)).
  Proof.
    intros es. apply (exec_ind' (Some seconds) ton InvD). - repeat split; discriminate. - exact InvD_step.
  Qed.
End Interval.

(** waiting in pieces *)
Lemma rounds_zero : forall timeout wake, (0 < wake)%Z -> (timeout <= 0)%Z -> rounds timeout wake = 0.
Proof.
  intros. unfold rounds. assert ((timeout + wake - 1) / wake <= 0)%Z. { apply Z.lt_succ_r. apply Z.div_lt_upper_bound; lia. } lia.
Qed.
Lemma rounds_more : forall timeout wake, (0 < wake)%Z -> (0 < timeout)%Z -> rounds timeout wake = S (rounds (timeout - Z.min timeout wake) wake).
Proof.
  intros timeout wake W T. unfold rounds. destruct (Z.le_gt_cases timeout wake).
  - rewrite Z.min_l by lia. replace (timeout - timeout + wake - 1)%Z with (wake - 1)%Z by lia. rewrite (Z.div_small (wake - 1)) by lia.
    replace (timeout + wake - 1)%Z with ((timeout - 1) + 1 * wake)%Z by lia. rewrite Z.div_add by lia. rewrite Z.div_small by lia. reflexivity.
  - rewrite Z.min_r by lia. replace (timeout + wake - 1)%Z with ((timeout - wake + wake - 1) + 1 * wake)%Z by lia. rewrite Z.div_add by lia.
    assert (0 <= (timeout - wake + wake - 1) / wake)%Z by (apply Z.div_pos; lia). lia.
Qed.
Lemma pieces_more : forall timeout wake, (0 < wake)%Z -> (0 < timeout)%Z -> pieces timeout wake = Z.min timeout wake :: pieces (timeout - Z.min timeout wake) wake.
Proof.
  intros timeout wake W T. unfold pieces at 1. rewrite (rounds_more timeout wake W T). unfold pieces.
  destruct (Z.le_gt_cases timeout wake) as [L|L].
  - rewrite Z.min_l by lia. rewrite rounds_zero by lia. simpl. f_equal. lia.
  - rewrite Z.min_r by lia. rewrite (rounds_more (timeout - wake) wake) by lia. remember (rounds _ wake) as n. rewrite Nat2Z.inj_succ. cbn [repeat app]. f_equal. f_equal. f_equal. ring.
Qed.
Lemma pieces_none : forall timeout wake, (0 < wake)%Z -> (timeout <= 0)%Z -> pieces timeout wake = [].
Proof. intros. unfold pieces. now rewrite rounds_zero. Qed.
Lemma wait_loop_ok : forall looks t timeout wake d, (0 < wake)%Z ->
  wait_loop t timeout wake d looks = (fst (waited (rounds (timeout - t) wake) d looks), firstn (snd (waited (rounds (timeout - t) wake) d looks)) (pieces (timeout - t) wake)).
Proof.
  induction looks as [|[b w] looks IH]; intros t timeout wake d W; simpl.
  - destruct (t <? timeout)%Z eqn:E; [apply Z.ltb_lt in E | apply Z.ltb_ge in E].
    + rewrite rounds_more by lia. reflexivity.
    + rewrite rounds_zero by lia. reflexivity.
  - destruct (t <? timeout)%Z eqn:E; [apply Z.ltb_lt in E | apply Z.ltb_ge in E].
    + rewrite rounds_more, pieces_more by lia. destruct b; auto. destruct w; auto.
      rewrite IH by auto. replace (timeout - (t + Z.min (timeout - t) wake))%Z with (timeout - t - Z.min (timeout - t) wake)%Z by lia. reflexivity.
    + rewrite rounds_zero by lia. reflexivity.
Qed.
Lemma sleep_loop_ok : forall looks t timeout wake last, (0 < wake)%Z ->
  sleep_loop t timeout wake looks last = (fst (slept (rounds (timeout - t) wake) looks last), firstn (snd (slept (rounds (timeout - t) wake) looks last)) (pieces (timeout - t) wake)).
Proof.
  induction looks as [|b looks IH]; intros t timeout wake last W; simpl.
  - destruct (t <? timeout)%Z eqn:E; [apply Z.ltb_lt in E | apply Z.ltb_ge in E].
    + rewrite rounds_more by lia. reflexivity.
    + rewrite rounds_zero by lia. reflexivity.
  - destruct (t <? timeout)%Z eqn:E; [apply Z.ltb_lt in E | apply Z.ltb_ge in E].
    + rewrite rounds_more, pieces_more by lia. destruct b; auto.
      replace (Z.min (timeout - t) wake <? 0)%Z with false by (symmetry; apply Z.ltb_ge; lia).
      rewrite IH by auto. replace (timeout - (t + Z.min (timeout - t) wake))%Z with (timeout - t - Z.min (timeout - t) wake)%Z by lia. reflexivity.
    + rewrite rounds_zero by lia. reflexivity.
Qed.
Lemma pieces_ok_n : forall n timeout wake, rounds timeout wake <= n -> (0 < wake)%Z ->
  Forall (fun d => 0 < d <= wake)%Z (pieces timeout wake) /\ total (pieces timeout wake) = Z.max 0 timeout.
Proof.
  induction n as [|n IH]; intros timeout wake L W.
  - destruct (Z.le_gt_cases timeout 0). + rewrite pieces_none by lia. split; [constructor|simpl; lia]. + rewrite rounds_more in L by lia. lia.
  - destruct (Z.le_gt_cases timeout 0). + rewrite pieces_none by lia. split; [constructor|simpl; lia].
    + rewrite pieces_more by lia. rewrite rounds_more in L by lia. destruct (IH (timeout - Z.min timeout wake)%Z wake) as [A B]; [lia|auto|].
      split. * constructor; auto. lia. * simpl. rewrite B. lia.
Qed.
Lemma pieces_ok : forall timeout wake, (0 < wake)%Z ->
  Forall (fun d => 0 < d <= wake)%Z (pieces timeout wake) /\ total (pieces timeout wake) = Z.max 0 timeout.
Proof. intros. eapply pieces_ok_n; eauto. Qed.
Lemma wait_forever : forall n t timeout wake d, (wake <= 0)%Z -> (t < timeout)%Z ->
  fst (wait_loop t timeout wake d (repeat (false, NotNotified) n)) = StillWaiting.
Proof.
  induction n as [|n IH]; intros t timeout wake d W T; simpl.
  - replace (t <? timeout)%Z with true by (symmetry; now apply Z.ltb_lt). reflexivity.
  - replace (t <? timeout)%Z with true by (symmetry; now apply Z.ltb_lt). destruct (wait_loop _ _ _ _ _) eqn:E. simpl.
    assert (X : (t + Z.min (timeout - t) wake < timeout)%Z) by lia. specialize (IH _ timeout wake d W X). rewrite E in IH. exact IH.
Qed.

(** call_in_separate_thread *)
Lemma fexec_snoc : forall es c e, fexec c (es ++ [e]) = fstep (fexec c es) e.
Proof. induction es; simpl; intros; auto. Qed.
Lemma turns_app : forall l m, turns (l ++ m) = turns l ++ turns m.
Proof. intros; unfold turns; now rewrite flat_map_app. Qed.
Definition InvF (es : list fevent) (c : call) : Prop :=
  match fat c with
  | FStart => turns es = [] /\ calls c = 0 /\ (future c = Pending /\ ~ In Cancel es \/ future c = FCancelled)
  | FCalling => length (turns es) = 1 /\ calls c = 0 /\ future c = Running
  | FDone => future c = FCancelled /\ calls c = 0 /\ In Cancel es /\ 1 <= length (turns es) \/
             calls c = 1 /\ exists o, nth_error (turns es) 1 = Some o /\ future c = match o with FRaises SysExit | FRaises (OtherBase _) => Running | _ => resolved o end
  end.
Lemma InvF_exec : forall es, InvF es (fexec call_start es) /\ (In Cancel es \/ future (fexec call_start es) <> FCancelled).
Proof.
  induction es as [|e es IH] using rev_ind.
  - split; simpl; [|right; discriminate]. unfold InvF; simpl. repeat split; auto.
  - rewrite fexec_snoc. destruct (fexec call_start es) as [fu p n]. unfold InvF in *; simpl in *. destruct IH as [IH C].
    destruct e as [o|]; simpl.
    + rewrite turns_app; simpl. destruct p; simpl in *.
      * destruct IH as (T & N & F). rewrite T; simpl. destruct F as [[-> F]| ->]; simpl.
        -- split; [auto|]. right; discriminate.
        -- assert (I : In Cancel es) by (destruct C as [C|C]; [auto|congruence]). split; [|left; apply in_or_app; auto]. left. repeat split; auto. apply in_or_app; auto.
      * destruct IH as (T & N & F). subst. destruct (turns es) as [|x [|y l]] eqn:E; simpl in T; try lia. split.
        -- destruct o as [v|[k| |k|]]; simpl; right; split; auto; eexists; split; reflexivity.
        -- right. destruct o as [v|[k| |k|]]; simpl; discriminate.
      * split.
        -- destruct IH as [(F & N & I & L) | (N & o1 & E & F)].
           ++ left. repeat split; auto. ** apply in_or_app; auto. ** rewrite app_length; lia.
           ++ right. split; auto. exists o1; split; auto. change (nth_error (turns es ++ [o]) 1 = Some o1). change (nth_error (turns es) 1 = Some o1) in E. rewrite nth_error_app1; auto. apply nth_error_Some; congruence.
        -- destruct C; auto. left; apply in_or_app; auto.
    + rewrite turns_app; simpl; rewrite app_nil_r. assert (I : In Cancel (es ++ [Cancel])) by (apply in_or_app; right; left; auto). split; auto.
      destruct p; simpl in *.
      * destruct IH as (T & N & F). destruct F as [[-> F]| ->]; simpl; auto.
      * destruct IH as (T & N & ->); simpl; auto.
      * destruct IH as [(-> & N & J & L) | (N & o1 & E & F)]; simpl; auto 6.
        destruct fu; simpl; try (right; eauto; fail). exfalso. destruct o1 as [v|[k| |k|]]; discriminate.
Qed.
Lemma future_resolved : forall es o, nth_error (turns es) 1 = Some o -> catchable o -> let c := fexec call_start es in
  future c = FCancelled /\ calls c = 0 \/ future c = resolved o /\ calls c = 1.
Proof.
  intros es o E C. destruct (InvF_exec es) as [H _]. unfold InvF in H. cbv zeta. destruct (fat _).
  - destruct H as (T & _). rewrite T in E. discriminate.
  - destruct H as (T & _). assert (1 < length (turns es)) by (apply nth_error_Some; congruence). lia.
  - destruct H as [(F & N & _) | (N & o1 & E1 & F)]; auto. right. split; auto. rewrite E in E1; inversion E1; subst. rewrite F. destruct o1 as [v|[k| |k|]]; simpl in *; tauto.
Qed.
Lemma called_once : forall es, let c := fexec call_start es in calls c <= 1 /\ (future c = FCancelled -> calls c = 0 /\ In Cancel es).
Proof.
  intros es. destruct (InvF_exec es) as [H K]. unfold InvF in H. cbv zeta. destruct (fat _).
  - destruct H as (T & N & F). split; [lia|]. intros; split; auto. destruct K; congruence.
  - destruct H as (T & N & F). split; [lia|]. congruence.
  - destruct H as [(F & N & I & _) | (N & o1 & E1 & F)]; (split; [lia|]); auto. intros X. rewrite X in F. destruct o1 as [v|[k| |k|]]; discriminate.
Qed.
Lemma never_resolved : forall es c, fat c = FDone -> future c = Running -> future (fexec c es) = Running.
Proof.
  induction es as [|[o|] es IH]; simpl; intros c F R; auto; apply IH; unfold fstep; rewrite ?F, ?R; auto.
Qed.
