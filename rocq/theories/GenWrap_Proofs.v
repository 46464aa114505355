(** Proofs about the wrappers of generators. *)
From Coq Require Import Lia.
From Verif Require Import Prelude GenWrap_Model GenWrap_Spec.

Section Generators.
  Variables (S V : Type) (resume : S -> input V -> S * reply V) (gen_exit : exn) (exn_eqb : exn -> exn -> bool).
  Notation r_step := (r_step resume gen_exit exn_eqb).
  Notation r_run := (r_run resume gen_exit exn_eqb).
  Notation direct := (direct resume gen_exit exn_eqb).
  Notation direct_run := (direct_run resume gen_exit exn_eqb).

  Lemma step_direct : forall s o, quiet o -> r_gen (fst (r_step s o)) = fst (direct (r_gen s) o) /\ snd (r_step s o) = snd (direct (r_gen s) o).
  Proof.
    intros s o Q. destruct o as [a| |v|e|]; simpl.
    - destruct (g_resume resume (r_gen s) (INext V)) as (g & [v|e]); simpl; auto. destruct a; [contradiction|]. destruct e; simpl; auto; destruct (r_closed s); auto.
    - destruct (g_resume resume (r_gen s) (INext V)) as (g & r); auto.
    - destruct (g_resume resume (r_gen s) (ISend v)) as (g & r); auto.
    - destruct (g_resume resume (r_gen s) (IThrow V e)) as (g & r); auto.
    - destruct (g_close resume gen_exit exn_eqb (r_gen s)) as (g & r); auto.
  Qed.
  Lemma transparent : forall ops g, Forall (@quiet V) ops ->
    let (s, outs) := r_run (r_begin g) ops in (r_gen s, outs) = direct_run g ops.
  Proof.
    assert (G : forall ops s, Forall (@quiet V) ops -> let (s', outs) := r_run s ops in (r_gen s', outs) = direct_run (r_gen s) ops).
    { induction ops as [|o t IH]; intros s F; simpl; auto. inversion F; subst. destruct (step_direct s o) as (E1 & E2); auto.
      destruct (r_step s o) as (s1 & x). simpl in E1, E2. destruct (direct (r_gen s) o) as (g1 & y). simpl in E1, E2. subst. specialize (IH s1 H2).
      destruct (r_run s1 t) as (s2 & xs). rewrite <- IH. auto. }
    intros ops g F. apply (G ops (r_begin g) F).
  Qed.
  Lemma closed_stays : forall ops s, r_closed s = true -> r_closed (fst (r_run s ops)) = true /\ r_runs (fst (r_run s ops)) = r_runs s.
  Proof.
    induction ops as [|o t IH]; intros s C; simpl; auto.
    assert (K : r_closed (fst (r_step s o)) = true /\ r_runs (fst (r_step s o)) = r_runs s).
    { destruct o as [a| |v|e|]; simpl.
      - destruct (g_resume resume (r_gen s) (INext V)) as (g & [v|e]); simpl; auto. rewrite C. destruct e; simpl; auto.
      - destruct (g_resume resume (r_gen s) (INext V)) as (g & r); auto.
      - destruct (g_resume resume (r_gen s) (ISend v)) as (g & r); auto.
      - destruct (g_resume resume (r_gen s) (IThrow V e)) as (g & r); auto.
      - destruct (g_close resume gen_exit exn_eqb (r_gen s)) as (g & r); auto. }
    destruct (r_step s o) as (s1 & x). simpl in K. destruct K as (K1 & K2). specialize (IH s1 K1). destruct (r_run s1 t) as (s2 & xs). simpl in *. rewrite K2 in IH. auto.
  Qed.
  Lemma runs_counted : forall ops g, Forall (@quiet V) ops -> let (s, outs) := r_run (r_begin g) ops in r_runs s = told_over ops outs.
  Proof.
    assert (G : forall ops s, Forall (@quiet V) ops -> r_closed s = false -> let (s', outs) := r_run s ops in r_runs s' = r_runs s + told_over ops outs).
    { induction ops as [|o t IH]; intros s F C; simpl; auto. inversion F as [|? ? Q F']; subst. destruct o as [a| |v|e|]; simpl.
      - destruct (g_resume resume (r_gen s) (INext V)) as (g & [v|e]); simpl.
        + specialize (IH (mk_r g (r_closed s) (r_runs s)) F' C). destruct (r_run _ t) as (s2 & xs). auto.
        + destruct a; [contradiction|]. destruct e; rewrite ?C; simpl;
            first [specialize (IH (mk_r g false (r_runs s)) F' eq_refl); destruct (r_run _ t) as (s2 & xs); exact IH
                  |specialize (IH (mk_r g false (1 + r_runs s)) F' eq_refl); simpl in IH; destruct (r_run _ t) as (s2 & xs); lia].
      - destruct (g_resume resume (r_gen s) (INext V)) as (g & r). specialize (IH (mk_r g (r_closed s) (r_runs s)) F' C). destruct (r_run _ t) as (s2 & xs). auto.
      - destruct (g_resume resume (r_gen s) (ISend v)) as (g & r). specialize (IH (mk_r g (r_closed s) (r_runs s)) F' C). destruct (r_run _ t) as (s2 & xs). auto.
      - destruct (g_resume resume (r_gen s) (IThrow V e)) as (g & r). specialize (IH (mk_r g (r_closed s) (r_runs s)) F' C). destruct (r_run _ t) as (s2 & xs). auto.
      - destruct (g_close resume gen_exit exn_eqb (r_gen s)) as (g & r). pose proof (closed_stays t (mk_r g true (r_runs s)) eq_refl) as (_ & K). destruct (r_run _ t) as (s2 & xs). simpl in *. lia. }
    intros ops g F. specialize (G ops (r_begin g) F eq_refl). destruct (r_run (r_begin g) ops). auto.
  Qed.
  (** a for loop over the wrapped generator *)
  Lemma for_loop : forall g vs g' e, yields resume g vs g' e -> forall s action, r_gen s = g -> r_closed s = false ->
    r_run s (repeat (RNext V action) (length vs + 1)) =
      (mk_r g' false (r_runs s + match e with None => 1 | Some _ => 0 end),
       map (fun v => OVal (Ok v)) vs ++ [OVal (Err match e with Some x => x | None => match action with Some x => x | None => StopIteration end end)]).
  Proof.
    intros g vs g' e Y. induction Y as [g g' E|g g' e E N|g g1 v vs g' e E Y IH]; intros s action G C; simpl; rewrite G, E, ?C.
    - rewrite Nat.add_comm. destruct action; auto.
    - rewrite Nat.add_0_r. destruct e; auto. contradiction.
    - rewrite (IH (mk_r g1 false (r_runs s)) action eq_refl eq_refl). simpl. auto.
  Qed.

  (** * SelfClosingGenerator *)
  Notation c_step := (c_step resume).
  Notation c_run := (c_run resume).
  Lemma exhaust_yields : forall g vs g' e, yields resume g vs g' e -> forall fuel, length vs < fuel ->
    exhaust resume fuel g = Some (g', match e with None => Ok tt | Some x => Err x end).
  Proof.
    intros g vs g' e Y. induction Y as [g g' E|g g' e E N|g g1 v vs g' e E Y IH]; intros fuel L; (destruct fuel as [|fuel]; [simpl in L; lia|]); simpl; rewrite E; auto.
    - destruct e; auto. contradiction.
    - apply IH. simpl in L. lia.
  Qed.
  Lemma close_completes : forall g vs g', yields resume g vs g' None -> forall fuel more, length vs < fuel ->
    c_run (mk_c g false) (CClose V fuel :: CClose V more :: []) = (mk_c g' true, [CUnit V (Ok tt); CUnit V (Ok tt)]).
  Proof. intros g vs g' Y fuel more L. simpl. rewrite (exhaust_yields _ _ _ _ Y) by auto. simpl. auto. Qed.
  Lemma close_raises : forall g vs g' e, yields resume g vs g' (Some e) -> e <> TypeError -> forall fuel, length vs < fuel ->
    c_step (mk_c g false) (CClose V fuel) = (mk_c g' false, CUnit V (Err e)).
  Proof. intros g vs g' e Y N fuel L. simpl. rewrite (exhaust_yields _ _ _ _ Y) by auto. destruct e; auto. contradiction. Qed.
  Lemma next_direct : forall s, let (s', out) := c_step s (CNext V) in (c_gen s', out) = (let (g, r) := g_resume resume (c_gen s) (INext V) in (g, CVal r)).
  Proof. intros s. simpl. destruct (g_resume resume (c_gen s) (INext V)) as (g & [v|e]); auto. destruct e; auto. Qed.
  Lemma nexts_then_close : forall vs g ws g1 g' , 
    (fix take (vs : list V) (g : gen S) : Prop := match vs with [] => g = g1 | v :: t => exists g2, g_resume resume g (INext V) = (g2, Ok v) /\ take t g2 end) vs g ->
    yields resume g1 ws g' None -> forall fuel, length ws < fuel ->
    c_run (c_begin g) (repeat (CNext V) (length vs) ++ [CClose V fuel]) = (mk_c g' true, map (fun v => CVal (Ok v)) vs ++ [CUnit V (Ok tt)]).
  Proof.
    induction vs as [|v t IH]; intros g ws g1 g' T Y fuel L.
    - subst g. simpl. rewrite (exhaust_yields _ _ _ _ Y) by auto. auto.
    - destruct T as (g2 & E & T). simpl. rewrite E. specialize (IH g2 ws g1 g' T Y fuel L). unfold c_begin in IH. rewrite IH. auto.
  Qed.
  Lemma yields_split : forall g vs g' e, yields resume g vs g' e -> forall ws us, vs = ws ++ us -> exists g1,
    (fix take (vs : list V) (g : gen S) : Prop := match vs with [] => g = g1 | v :: t => exists g2, g_resume resume g (INext V) = (g2, Ok v) /\ take t g2 end) ws g /\ yields resume g1 us g' e.
  Proof.
    intros g vs g' e Y. induction Y as [g g' E|g g' e E N|g g1 v vs g' e E Y IH]; intros ws us Q.
    - symmetry in Q. apply app_eq_nil in Q. destruct Q; subst. exists g. split; [reflexivity|constructor; auto].
    - symmetry in Q. apply app_eq_nil in Q. destruct Q; subst. exists g. split; [reflexivity|eapply Y_raise; eauto].
    - destruct ws as [|w ws]; simpl in Q.
      + subst us. exists g. split; [reflexivity|]. eapply Y_item; eauto.
      + inversion Q; subst. destruct (IH ws us eq_refl) as (g2 & T & Y2). exists g2. split; auto. exists g1. auto.
  Qed.
  Lemma partly_then_close : forall g ws us g', yields resume g (ws ++ us) g' None -> forall fuel, length us < fuel ->
    c_run (c_begin g) (repeat (CNext V) (length ws) ++ [CClose V fuel]) = (mk_c g' true, map (fun v => CVal (Ok v)) ws ++ [CUnit V (Ok tt)]).
  Proof. intros g ws us g' Y fuel L. destruct (yields_split _ _ _ _ Y ws us eq_refl) as (g1 & T & Y1). eapply nexts_then_close; eauto. Qed.
End Generators.

Section Chain.
  Variable V : Type.
  Lemma chain_flat : forall args : list (arg V), Forall (@ends_well V) args -> chain args = (map (@Item V) (flattened args), None).
  Proof.
    induction args as [|a t IH]; intros F; simpl; auto. inversion F as [|? ? E F']; subst. rewrite (IH F').
    destruct a as [v|items [e|]]; simpl; auto; try contradiction. rewrite map_app. auto.
  Qed.
  Lemma chain_raises : forall (before : list (arg V)) items e after, Forall (@ends_well V) before -> e <> TypeError ->
    chain (before ++ Iterable items (Some e) :: after) = (map (@Item V) (flattened before ++ items), Some e).
  Proof.
    induction before as [|a t IH]; intros items e after F N; simpl.
    - destruct e; auto. contradiction.
    - inversion F as [|? ? E F']; subst. rewrite (IH items e after F' N). destruct a as [v|l [x|]]; simpl; auto; try contradiction. rewrite <- app_assoc, (map_app _ l). auto.
  Qed.
End Chain.

Lemma hint_ok : forall length factory h, hint_with_length length factory = Ok h ->
  (exists n, length = Some n /\ factory = None /\ length_hint h = Ok n) \/ exists n, length = None /\ factory = Some n /\ length_hint h = Ok n.
Proof. intros [n|] [m|] h E; inversion E; subst; [left|right]; eauto. Qed.
Lemma hint_call_ok : forall n h, hint_with_length (Some n) None = Ok h -> exists h', hint_call h = Ok h' /\ length_hint h' = Ok n.
Proof. intros n h E. inversion E; subst. eexists. split; reflexivity. Qed.
