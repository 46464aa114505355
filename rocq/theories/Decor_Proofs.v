(* C71: proofs about the argument decorators. *)
From Coq Require Import List Bool Arith ZArith String Lia.
From Verif Require Import Prelude PreludeFacts Args_Model Args_Spec Args_Proofs Decor_Model Decor_Spec.
Import ListNotations.
Local Open Scope nat_scope.
Local Open Scope list_scope.

Notation len := List.length.

Lemma sensible_binding s args kw b : dwf kw -> python_binding s args kw b -> sensible s b.
Proof.
  intros K [V N] p v I G. apply In_nth_error in I. destruct I as [i I].
  rewrite (V i p I) in G. unfold value_of in G. split; intros KK; rewrite KK in G.
  - injection G as <-. eauto.
  - injection G as <-. eexists. split; [reflexivity|]. split.
    + apply filter_wf; auto.
    + intros q Q BN C. unfold dkeys in C. apply in_map_iff in C. destruct C as [[m w] [C1 C2]].
      apply filter_In in C2. destruct C2 as [_ C2]. cbn [fst] in *. subst m.
      apply negb_true_iff in C2. assert (X: existsb (fun q0 => String.eqb (p_name q0) (p_name q)
        && match p_kind q0 with PosOrKw | KwOnly => true | _ => false end) s = true).
      { apply existsb_exists. exists q. split; auto. rewrite String.eqb_refl.
        destruct BN as [BN|BN]; rewrite BN; auto. }
      congruence.
Qed.

Lemma sensible_ext s d d' : (forall p, In p s -> get d' (p_name p) = get d (p_name p)) ->
  sensible s d -> sensible s d'.
Proof. intros H S p v I G. rewrite H in G by auto. eapply S; eauto. Qed.

Lemma py_bind_accepted s args kw : writable s -> python_accepts s args kw ->
  exists r, py_bind s args kw = Ok r /\ python_binding s args kw r /\ dkeys r = map p_name s.
Proof.
  intros W A. destruct (writable_shaped _ W) as [po [pk [vp [ko [vk SH]]]]].
  apply (bind_accepted _ _ _ _ _ _ SH); auto.
Qed.

Lemma call_dict_binds s body d : writable s -> dwf d -> sensible s d ->
  (forall n, In n (dkeys d) <-> In n (map p_name s)) ->
  exists r, call_dict s body d = body r /\ dkeys r = map p_name s /\
    forall p, In p s -> get r (p_name p) = get d (p_name p).
Proof.
  intros W WD SE K.
  assert (F: forall p, In p s -> get d (p_name p) <> None).
  { intros p I C. apply get_None in C. apply C, K. apply in_map; auto. }
  assert (PF: forall p, In p s -> promised d p = get d (p_name p)).
  { intros p I. unfold promised. destruct (get d (p_name p)) eqn:G; auto. exfalso. apply (F p); auto. }
  destruct (call_with_values s d W WD SE) as [a [k [C [A V]]]].
  - intros p I. rewrite PF by auto. apply F; auto.
  - intros n I. apply K; auto.
  - intros [i [j [p [q [_ [I [_ [_ [G _]]]]]]]]]. apply (F p); auto. apply nth_error_In in I; auto.
  - destruct (py_bind_accepted s a k W A) as [r [R [[B _] D]]].
    exists r. unfold call_dict, call. rewrite C, R. split; auto. split; auto.
    intros p I. pose proof I as I'. apply In_nth_error in I. destruct I as [i I].
    rewrite (B i p I), (V i p I). auto.
Qed.

Lemma get_arguments_of_bind s args kw b : writable s -> dwf kw ->
  (forall n, In n reserved -> ~ In n (dkeys kw)) -> ~ named_before_star s args ->
  py_bind s args kw = Ok b ->
  exists d, get_arguments s args kw = Ok d /\ dwf d /\ sensible s d /\
    (forall n, In n (dkeys d) <-> In n (map p_name s)) /\
    forall p, In p s -> get d (p_name p) = get b (p_name p).
Proof.
  intros W K R NB B. destruct (proj1 (call_rule s args kw W) b B) as [A [[V N] D]].
  destruct (get_arguments_binding s args kw W K R A NB) as [d [E [V' N']]].
  exists d. split; auto. split; [apply ga_wf in E; auto|].
  split; [eapply sensible_binding; eauto; split; eauto|].
  assert (G: forall p, In p s -> get d (p_name p) = get b (p_name p)).
  { intros p I. apply In_nth_error in I. destruct I as [i I]. rewrite (V i p I), (V' i p I). auto. }
  split; auto. intros n. split; auto. intros I.
  apply in_map_iff in I. destruct I as [p [<- I]].
  destruct (in_dec string_dec (p_name p) (dkeys d)) as [J|J]; auto. exfalso.
  apply get_None in J. rewrite G in J by auto. apply get_None in J. apply J. rewrite D.
  apply in_map; auto.
Qed.

Lemma bound_full s args kw b p : writable s -> py_bind s args kw = Ok b -> In p s ->
  exists v, get b (p_name p) = Some v.
Proof.
  intros W B I. destruct (proj1 (call_rule s args kw W) b B) as [_ [_ D]].
  destruct (get b (p_name p)) eqn:G; eauto. apply get_None in G. exfalso. apply G. rewrite D.
  apply in_map; auto.
Qed.

Lemma names_dwf s (d : vars) : writable s -> dkeys d = map p_name s -> dwf d.
Proof. intros W K. unfold dwf. rewrite K. apply (wr_names W). Qed.

Lemma same_on s (r w : vars) : writable s -> dkeys r = map p_name s -> dkeys w = map p_name s ->
  (forall p, In p s -> get r (p_name p) = get w (p_name p)) -> r = w.
Proof.
  intros W R K H. apply same_dict; [eapply names_dwf; eauto|congruence|].
  intros n I. rewrite R in I. apply in_map_iff in I. destruct I as [p [<- I]]. auto.
Qed.

Lemma get_cons m (v : val) (d : vars) n :
  get ((m, v) :: d) n = if String.eqb n m then Some v else get d n.
Proof. unfold get. simpl. rewrite ?(String.eqb_sym n m). reflexivity. Qed.

(* ---- transform_arguments ---- *)
Lemma eval_all_get : forall es old new r, eval_all es old new = Ok r -> NoDup (map fst es) ->
  dwf new ->
  dwf r /\
  (forall n, ~ In n (map fst es) -> get r n = get new n) /\
  (forall n e, In (n, e) es -> exists v, e old = Ok v /\ get r n = Some v).
Proof.
  induction es as [|[n e] es IH]; simpl; intros old new r H N W.
  - injection H as <-. split; auto. split; auto. intros n e [].
  - destruct (e old) as [v|] eqn:E; [|discriminate]. simpl in H.
    inversion N as [|x y X Y]; subst.
    destruct (IH _ _ _ H Y) as [W' [O G]]; [apply (dset_wf sok); auto|].
    split; auto. split.
    + intros m M. rewrite O by tauto. apply get_set_neq. intros C; subst; tauto.
    + intros m f [I|I].
      * injection I as <- <-. exists v. split; auto. rewrite O by auto. apply get_set_eq.
      * apply G; auto.
Qed.

Lemma keep_rest_get : forall old new n, dwf old -> dwf new ->
  dwf (keep_rest old new) /\
  get (keep_rest old new) n = match get new n with Some v => Some v | None => get old n end.
Proof.
  unfold keep_rest. induction old as [|[m v] old IH]; cbn [fold_left fst snd]; intros new n W W'.
  - split; auto. destruct (get new n); auto.
  - unfold dwf in W. simpl in W. inversion W as [|x y X Y]; subst.
    assert (O: get old m = None) by (apply get_None; auto).
    destruct (has new m) eqn:H.
    + destruct (IH new n Y W') as [A B]. split; auto. rewrite B.
      destruct (get new n) eqn:G; auto. rewrite get_cons.
      destruct (String.eqb n m) eqn:E; auto. apply String.eqb_eq in E. subst.
      rewrite has_get, G in H. discriminate.
    + destruct (IH (set new m v) n Y) as [A B]; [apply (dset_wf sok); auto|]. split; auto. rewrite B.
      rewrite has_get in H. rewrite get_cons.
      destruct (String.eqb n m) eqn:E.
      * apply String.eqb_eq in E. subst. rewrite get_set_eq.
        destruct (get new m); [discriminate|]. auto.
      * assert (n <> m) by (intros C; subst; rewrite String.eqb_refl in E; discriminate).
        rewrite get_set_neq by auto. auto.
Qed.

Lemma transform_arguments_ok s body es args b new :
  writable s -> ~ named_before_star s args -> py_bind s args [] = Ok b ->
  NoDup (map fst es) ->
  (forall n e, In (n, e) es -> exists p, In p s /\ p_name p = n /\ p_kind p <> VarPos /\ p_kind p <> VarKw) ->
  (forall old n e, (forall p, In p s -> get old (p_name p) = get b (p_name p)) ->
     In (n, e) es -> exists v, e old = Ok v /\ get new n = Some v) ->
  dkeys new = map p_name s ->
  (forall p, In p s -> ~ In (p_name p) (map fst es) -> get new (p_name p) = get b (p_name p)) ->
  transform_arguments s body es args [] = body new.
Proof.
  intros W NB B N P EV K REST. unfold transform_arguments. simpl. rewrite app_nil_r.
  destruct (get_arguments_of_bind s args [] b W (NoDup_nil _)) as [old [G [WO [SO [KO GO]]]]]; auto.
  rewrite G. simpl.
  assert (E: exists r, eval_all es old [] = Ok r).
  { clear N P REST. generalize (@nil (string * val)) as acc. revert EV.
    induction es as [|[n e] es IH]; simpl; intros EV acc; eauto.
    destruct (EV old n e GO (or_introl eq_refl)) as [v [Ev _]]. rewrite Ev. simpl. apply IH; auto. }
  destruct E as [r E]. rewrite E. simpl.
  destruct (eval_all_get es old [] r E N (NoDup_nil _)) as [WR [OUT IN]].
  assert (GET: forall p, In p s -> get (keep_rest old r) (p_name p) = get new (p_name p)).
  { intros p I. rewrite (proj2 (keep_rest_get old r (p_name p) WO WR)).
    destruct (in_dec string_dec (p_name p) (map fst es)) as [J|J].
    - apply in_map_iff in J. destruct J as [[n e] [J1 J2]]. simpl in J1. subst n.
      destruct (IN _ _ J2) as [v [Ev Gv]]. rewrite Gv.
      destruct (EV old _ _ GO J2) as [v' [Ev' Gv']]. congruence.
    - rewrite OUT by auto. simpl. rewrite GO by auto. rewrite REST; auto. }
  assert (WK: dwf (keep_rest old r)) by (apply (keep_rest_get old r ""%string WO WR)).
  destruct (call_dict_binds s body (keep_rest old r) W WK) as [x [C [D Gx]]].
  - intros p v I Gv. split; intros KK.
    + assert (J: ~ In (p_name p) (map fst es)).
      { intros J. apply in_map_iff in J. destruct J as [[n e] [J1 J2]]. simpl in J1. subst n.
        destruct (P _ _ J2) as [q [Q1 [Q2 [Q3 Q4]]]].
        destruct (writable_shaped _ W) as [po [pk [vp [ko [vk SH]]]]].
        rewrite (same_name _ _ _ _ _ _ SH q p Q1 I Q2) in Q3. auto. }
      rewrite (proj2 (keep_rest_get old r (p_name p) WO WR)), OUT in Gv by auto.
      apply (SO p v I Gv); auto.
    + assert (J: ~ In (p_name p) (map fst es)).
      { intros J. apply in_map_iff in J. destruct J as [[n e] [J1 J2]]. simpl in J1. subst n.
        destruct (P _ _ J2) as [q [Q1 [Q2 [Q3 Q4]]]].
        destruct (writable_shaped _ W) as [po [pk [vp [ko [vk SH]]]]].
        rewrite (same_name _ _ _ _ _ _ SH q p Q1 I Q2) in Q4. auto. }
      rewrite (proj2 (keep_rest_get old r (p_name p) WO WR)), OUT in Gv by auto.
      apply (SO p v I Gv); auto.
  - intros n. split.
    + intros I. destruct (get (keep_rest old r) n) as [v|] eqn:Gn; [|apply get_None in Gn; tauto].
      rewrite (proj2 (keep_rest_get old r n WO WR)) in Gn.
      destruct (get r n) eqn:Gr.
      * destruct (in_dec string_dec n (map fst es)) as [J|J].
        -- apply in_map_iff in J. destruct J as [[m e] [J1 J2]]. simpl in J1. subst m.
           destruct (P _ _ J2) as [q [Q1 [Q2 _]]]. subst n. apply in_map; auto.
        -- rewrite OUT in Gr by auto. discriminate.
      * apply KO. destruct (in_dec string_dec n (dkeys old)) as [J|J]; auto. apply get_None in J. congruence.
    + intros I. apply in_map_iff in I. destruct I as [p [<- I]].
      destruct (in_dec string_dec (p_name p) (dkeys (keep_rest old r))) as [J|J]; auto.
      apply get_None in J. rewrite GET in J by auto. apply get_None in J. exfalso. apply J.
      rewrite K. apply in_map; auto.
  - rewrite C. f_equal. apply (same_on s); auto. intros p I. rewrite Gx, GET; auto.
Qed.

(* ---- replace_argument_if ---- *)
Lemma replace_none s body arg st inst args kw b p : writable s -> dwf kw ->
  (forall n, In n reserved -> ~ In n (dkeys kw)) -> ~ named_before_star s args ->
  py_bind s args kw = Ok b -> In p s -> p_name p = arg ->
  p_kind p <> VarPos -> p_kind p <> VarKw ->
  (forall v, get b arg = Some v -> inst v = false -> 
     replace_argument_if s body arg st inst None args kw = body b) /\
  (forall v w new, get b arg = Some v -> inst v = true -> st v = Ok w ->
     dkeys new = map p_name s -> get new arg = Some w ->
     (forall q, In q s -> q <> p -> get new (p_name q) = get b (p_name q)) ->
     replace_argument_if s body arg st inst None args kw = body new).
Proof.
  intros W K R NB B I E K1 K2. subst arg.
  destruct (get_arguments_of_bind s args kw b W K R NB B) as [d [G [WD [SD [KD GD]]]]].
  unfold replace_argument_if. rewrite G. simpl. rewrite GD by auto. split.
  - intros v V N. rewrite V, N. unfold call. rewrite B. auto.
  - intros v w new V N S KN GN ON. rewrite V, N, S. simpl.
    destruct (writable_shaped _ W) as [po [pk [vp [ko [vk SH]]]]].
    assert (NE: forall q, In q s -> q <> p -> p_name q <> p_name p).
    { intros q Q C D. apply C. apply (same_name _ _ _ _ _ _ SH q p); auto. }
    assert (DEC: forall q, In q s -> q = p \/ q <> p).
    { intros q Q. destruct (string_dec (p_name q) (p_name p)) as [X|X].
      - left. apply (same_name _ _ _ _ _ _ SH q p); auto.
      - right. intros C; subst; auto. }
    assert (GET: forall q, In q s -> get (set d (p_name p) w) (p_name q) = get new (p_name q)).
    { intros q Q. destruct (DEC q Q) as [->|C].
      - rewrite get_set_eq. auto.
      - rewrite get_set_neq by auto. rewrite GD by auto. rewrite ON; auto. }
    destruct (call_dict_binds s body (set d (p_name p) w) W) as [x [C [D Gx]]].
    + apply (dset_wf sok); auto.
    + intros q u Q Gu. destruct (DEC q Q) as [->|C]; [split; intros; congruence|].
      rewrite get_set_neq in Gu by auto. apply (SD q u Q Gu).
    + intros n. unfold set. rewrite (dset_In_keys sok), KD. split; auto.
      intros [->|X]; auto. apply in_map; auto.
    + rewrite C. f_equal. apply (same_on s); auto. intros q Q. rewrite Gx; auto.
Qed.

(* ---- attach_arguments ---- *)
Lemma update_get : forall e d n, dwf d -> dwf e ->
  dwf (update d e) /\
  get (update d e) n = match get e n with Some v => Some v | None => get d n end.
Proof.
  unfold update. induction e as [|[m v] e IH]; cbn [fold_left fst snd]; intros d n W WE; auto.
  unfold dwf in WE. simpl in WE. inversion WE as [|x y X Y]; subst.
  destruct (IH (set d m v) n) as [A B]; auto; [apply (dset_wf sok); auto|]. split; auto.
  rewrite B. rewrite get_cons. destruct (String.eqb n m) eqn:E.
  - apply String.eqb_eq in E. subst. rewrite (proj2 (get_None e m) X). rewrite get_set_eq. auto.
  - destruct (get e n) eqn:G; auto. apply get_set_neq.
    intros C; subst; rewrite String.eqb_refl in E; discriminate.
Qed.

(* ---- the operations of for_argument, looked up ---- *)
Lemma sp_gp : forall ps args lv al i p, NoDup (map p_name ps) -> nth_error ps i = Some p ->
  (forall n, In n (map p_name ps) -> get lv n = None) ->
  match nth_error args i with
  | Some v => get (fst (ga_positionals true ps args lv al)) (p_name p) = Some v
  | None => get (fst (ga_positionals true ps args lv al)) (p_name p) = None \/
            get (fst (ga_positionals true ps args lv al)) (p_name p) = p_default p
  end.
Proof.
  assert (OUT: forall ps args lv al n, ~ In n (map p_name ps) ->
    get (fst (ga_positionals true ps args lv al)) n = get lv n).
  { induction ps as [|p ps IH]; intros args lv al n H; auto. cbn [ga_positionals].
    rewrite andb_false_r. simpl in H.
    assert (p_name p <> n /\ ~ In n (map p_name ps)) as [H1 H2] by tauto.
    destruct args.
    - destruct (p_default p); auto. rewrite IH by auto. apply get_set_neq; auto.
    - rewrite IH by auto. apply get_set_neq; auto. }
  induction ps as [|q ps IH]; intros args lv al i p N A F; [destruct i; discriminate|].
  simpl in N. inversion N as [|x y X Y]; subst. cbn [ga_positionals]. rewrite andb_false_r.
  assert (F': forall v n, In n (map p_name ps) -> get (set lv (p_name q) v) n = None).
  { intros v n I. rewrite get_set_neq; [apply F; right; auto|]. intros C; subst; auto. }
  destruct args as [|a args].
  - destruct i as [|i]; simpl in A.
    + injection A as <-. cbn [nth_error]. right. destruct (p_default q) as [d|] eqn:D.
      * rewrite OUT by auto. apply get_set_eq.
      * simpl. apply F. left; auto.
    + cbn [nth_error]. destruct (p_default q) as [d|].
      * specialize (IH [] (set lv (p_name q) d) al i p Y A (F' d)).
        replace (nth_error (@nil val) i) with (@None val) in IH by (destruct i; auto). auto.
      * left. simpl. apply F. right. apply in_map. apply nth_error_In in A; auto.
  - destruct i as [|i]; simpl in A.
    + injection A as <-. cbn [nth_error]. rewrite OUT by auto. apply get_set_eq.
    + cbn [nth_error]. apply IH; auto.
Qed.

Lemma sp_gp_out : forall ps args lv al n, ~ In n (map p_name ps) ->
    get (fst (ga_positionals true ps args lv al)) n = get lv n.
Proof.
  induction ps as [|p ps IH]; intros args lv al n H; auto. cbn [ga_positionals].
  rewrite andb_false_r. simpl in H.
  assert (p_name p <> n /\ ~ In n (map p_name ps)) as [H1 H2] by tauto.
  destruct args.
  - destruct (p_default p); auto. rewrite IH by auto. apply get_set_neq; auto.
  - rewrite IH by auto. apply get_set_neq; auto.
Qed.

Lemma sp_al : forall ps args lv al n,
  In n (snd (ga_positionals true ps args lv al)) <->
  In n al /\ ~ In n (map p_name (firstn (len args) ps)).
Proof.
  induction ps as [|q ps IH]; intros args lv al n.
  - rewrite firstn_nil. simpl. tauto.
  - cbn [ga_positionals]. rewrite andb_false_r.
    destruct args as [|a args].
    + simpl. destruct (p_default q) as [d|].
      * rewrite IH. simpl. tauto.
      * simpl. tauto.
    + rewrite IH. simpl. split.
      * intros [A B]. apply in_remove in A. destruct A. split; auto. intros [C|C]; auto.
      * intros [A B]. split; [apply in_in_remove|]; auto.
Qed.

Lemma sp_gk : forall ks kw lv k, NoDup (map p_name ks) ->
  (In k ks -> get (ga_keywords true ks kw lv) (p_name k) =
    Some match get kw (p_name k) with
    | Some v => v
    | None => match p_default k with Some d => d | None => PyNone end
    end) /\
  (~ In (p_name k) (map p_name ks) -> get (ga_keywords true ks kw lv) (p_name k) = get lv (p_name k)).
Proof.
  induction ks as [|k0 ks IH]; intros kw lv k N; [split; [intros []|auto]|].
  cbn [ga_keywords]. rewrite andb_false_r. simpl in N. inversion N as [|x y X Y]; subst. split.
  - intros [I|I].
    + subst k0. destruct (get kw (p_name k)) as [v|].
      * rewrite (proj2 (IH _ _ k Y)) by auto. apply get_set_eq.
      * destruct (p_default k); rewrite (proj2 (IH _ _ k Y)) by auto; apply get_set_eq.
    + assert (NE: p_name k <> p_name k0).
      { intros C. apply X. rewrite <- C. apply in_map; auto. }
      destruct (get kw (p_name k0)) as [v|].
      * rewrite (proj1 (IH _ _ k Y)) by auto. rewrite get_del_neq by auto. auto.
      * destruct (p_default k0); rewrite (proj1 (IH _ _ k Y)) by auto; auto.
  - simpl. intros H. assert (H1: p_name k <> p_name k0) by (intros C; apply H; auto).
    assert (H2: ~ In (p_name k) (map p_name ks)) by tauto.
    destruct (get kw (p_name k0)) as [v|].
    + rewrite (proj2 (IH _ _ k Y)) by auto. apply get_set_neq; auto.
    + destruct (p_default k0); rewrite (proj2 (IH _ _ k Y)) by auto; apply get_set_neq; auto.
Qed.

Lemma sp_rest : forall ps lv, exists r, ga_rest true ps lv = Ok r /\
  forall n, (forall v, get lv n = Some v -> get r n = Some v) /\
            (get lv n = None -> get r n = None \/ get r n = Some PyNone) /\
            (In n (map p_name ps) -> get r n <> None).
Proof.
  induction ps as [|p ps IH]; intros lv; simpl.
  - exists lv. repeat split; auto.
  - rewrite has_get. destruct (get lv (p_name p)) as [v|] eqn:G.
    + destruct (IH lv) as [r [R H]]. exists r. split; auto. intros n. destruct (H n) as [A [B C]].
      repeat split; auto. intros [<-|I]; auto. rewrite (A v G). congruence.
    + destruct (IH (set lv (p_name p) PyNone)) as [r [R H]]. exists r. split; auto.
      intros n. destruct (H n) as [A [B C]]. destruct (string_dec n (p_name p)) as [->|NE].
      * specialize (A PyNone (get_set_eq _ _ _)). repeat split; auto; try congruence.
      * rewrite get_set_neq in A, B by auto. repeat split; auto. intros [E|I]; [congruence|auto].
Qed.

Lemma index_of_positional s po pk vp ko vk : shaped s po pk vp ko vk ->
  forall i p, nth_error s i = Some p ->
  (p_kind p = PosOnly \/ p_kind p = PosOrKw -> i < slots s /\ nth_error (po ++ pk) i = Some p) /\
  (~ (p_kind p = PosOnly \/ p_kind p = PosOrKw) -> slots s <= i).
Proof.
  intros SH i p A. rewrite (slots_ps _ _ _ _ _ _ SH). split.
  - intros K. assert (X: nth_error (po ++ pk) i = Some p) by (apply (nth_ps _ _ _ _ _ _ SH); auto).
    split; auto. apply nth_error_Some. congruence.
  - intros K. destruct (Nat.lt_ge_cases i (len (po ++ pk))) as [L|L]; auto. exfalso. apply K.
    rewrite (sh_s _ _ _ _ _ _ SH) in A. rewrite nth_error_app1 in A by auto.
    apply nth_error_In in A. apply (ps_kind _ _ _ _ _ _ SH) in A. auto.
Qed.

Lemma ops_lookup s ops kwops : writable s -> attachable s ops kwops ->
  exists D, get_arguments_ true s ops kwops = Ok D /\
  forall i p, nth_error s i = Some p -> exists o, get D (p_name p) = Some o /\
    match attached ops kwops i p with
    | Some f => o = f
    | None => o = PyNone \/ p_default p = Some o
    end.
Proof.
  intros W [AP AN]. destruct (writable_shaped _ W) as [po [pk [vp [ko [vk SH]]]]].
  unfold get_arguments_. rewrite (filter_takes_positional _ _ _ _ _ _ SH).
  set (gp := ga_positionals true ((po ++ pk) ++ vp) ops [] (map p_name s)).
  rewrite (surjective_pairing gp).
  set (ks := filter (fun p => takes_keyword p && memb String.eqb (p_name p) (snd gp)) s).
  destruct (sp_rest s (ga_keywords true ks kwops (fst gp))) as [D [E H]].
  exists D. split; auto. intros i p A. pose proof (nth_error_In _ _ A) as I.
  pose proof (psvp_nodup _ _ _ _ _ _ SH) as ND.
  assert (KN: NoDup (map p_name ks)).
  { apply filter_map_nodup. apply (names_nodup _ _ _ _ _ _ SH). }
  destruct (H (p_name p)) as [H1 [H2 H3]]. specialize (H3 (in_map p_name s p I)).
  assert (KIN: In p ks <-> takes_keyword p = true /\ ~ In p (firstn (len ops) ((po ++ pk) ++ vp))).
  { unfold ks. rewrite filter_In, andb_true_iff, (memb_In sok). unfold gp. rewrite sp_al. split.
    - intros [_ [T [_ N]]]. split; auto. intros C. apply N. apply in_map; auto.
    - intros [T N]. split; auto. split; auto. split; [apply in_map; auto|].
      intros C. apply in_map_iff in C. destruct C as [q [Q1 Q2]]. apply N.
      rewrite <- (same_name _ _ _ _ _ _ SH q p); auto. rewrite (sh_s _ _ _ _ _ _ SH), app_assoc.
      apply in_or_app. left. rewrite <- (firstn_skipn (len ops) ((po ++ pk) ++ vp)).
      apply in_or_app; auto. }
  assert (KOUT: ~ In p ks -> ~ In (p_name p) (map p_name ks)).
  { intros N C. apply in_map_iff in C. destruct C as [q [Q1 Q2]]. apply N.
    rewrite <- (same_name _ _ _ _ _ _ SH q p); auto. unfold ks in Q2. apply filter_In in Q2. tauto. }
  (* a parameter not reached by any operation *)
  assert (NONE: forall g, get (ga_keywords true ks kwops (fst gp)) (p_name p) = g ->
     g = None \/ g = p_default p \/ g = Some PyNone ->
     exists o, get D (p_name p) = Some o /\ (o = PyNone \/ p_default p = Some o)).
  { intros g G C. destruct g as [o|].
    - exists o. split; [apply H1; auto|]. destruct C as [C|[C|C]]; [discriminate|right; congruence|left; congruence].
    - destruct (H2 G) as [X|X]; [congruence|]. exists PyNone. auto. }
  destruct (index_of_positional _ _ _ _ _ _ SH i p A) as [IP IO].
  unfold attached.
  assert (KW: In p ks -> get (ga_keywords true ks kwops (fst gp)) (p_name p) =
     Some match get kwops (p_name p) with
    | Some v => v | None => match p_default p with Some d => d | None => PyNone end end).
  { intros K. apply (proj1 (sp_gk ks kwops (fst gp) p KN)); auto. }
  assert (NKW: ~ In p ks -> get (ga_keywords true ks kwops (fst gp)) (p_name p) = get (fst gp) (p_name p)).
  { intros K. apply (proj2 (sp_gk ks kwops (fst gp) p KN)); auto. }
  assert (KDEF: In p ks -> get kwops (p_name p) = None ->
      exists o, get D (p_name p) = Some o /\ (o = PyNone \/ p_default p = Some o)).
  { intros K G. specialize (KW K). rewrite G in KW. eapply NONE; eauto.
    destruct (p_default p); auto. }
  assert (PS: forall q, nth_error (po ++ pk) i = Some q -> nth_error ((po ++ pk) ++ vp) i = Some q).
  { intros q Q. rewrite nth_error_app1; auto. apply nth_error_Some. congruence. }
  assert (FIRST: nth_error ((po ++ pk) ++ vp) i = Some p ->
     (In p (firstn (len ops) ((po ++ pk) ++ vp)) <-> i < len ops)).
  { intros Q. split.
    - intros F. apply In_nth_error in F. destruct F as [j J].
      assert (JL: j < len (firstn (len ops) ((po ++ pk) ++ vp))) by (apply nth_error_Some; congruence).
      rewrite firstn_length in JL.
      assert (J': nth_error s j = Some p).
      { rewrite (sh_s _ _ _ _ _ _ SH), app_assoc. rewrite nth_error_app1 by lia.
        rewrite <- (firstn_skipn (len ops) ((po ++ pk) ++ vp)). rewrite nth_error_app1; auto.
        apply nth_error_Some. congruence. }
      rewrite (nth_s_inj _ _ _ _ _ _ SH i j p A J'). lia.
    - intros L. apply nth_error_In with (n := i).
      rewrite <- (firstn_skipn (len ops) ((po ++ pk) ++ vp)) in Q. rewrite nth_error_app1 in Q; auto.
      assert (i < len ((po ++ pk) ++ vp)).
      { rewrite <- (firstn_skipn (len ops) ((po ++ pk) ++ vp)). apply nth_error_Some. congruence. }
      rewrite firstn_length. lia. }
  assert (GPV: nth_error ((po ++ pk) ++ vp) i = Some p ->
     match nth_error ops i with
     | Some v => get (fst gp) (p_name p) = Some v
     | None => get (fst gp) (p_name p) = None \/ get (fst gp) (p_name p) = p_default p
     end).
  { intros Q. unfold gp. apply sp_gp; auto. }
  destruct (p_kind p) eqn:K.
  - (* positional-only *)
    destruct (IP (or_introl eq_refl)) as [L P]. specialize (GPV (PS p P)).
    assert (NK: ~ In p ks).
    { intros C. apply KIN in C. destruct C as [C _]. unfold takes_keyword in C. rewrite K in C. discriminate. }
    specialize (NKW NK). destruct (nth_error ops i) as [v|].
    + exists v. split; auto. apply H1. congruence.
    + eapply NONE; eauto. destruct GPV as [X|X]; auto.
  - destruct (IP (or_intror eq_refl)) as [L P]. specialize (GPV (PS p P)). specialize (FIRST (PS p P)).
    destruct (nth_error ops i) as [v|] eqn:O.
    + assert (NK: ~ In p ks).
      { intros C. apply KIN in C. destruct C as [_ C]. apply C. apply FIRST.
        apply nth_error_Some. congruence. }
      exists v. split; auto. apply H1. rewrite NKW; auto.
    + assert (YK: In p ks).
      { apply KIN. split; [unfold takes_keyword; rewrite K; auto|]. intros C. apply FIRST in C.
        apply nth_error_Some in C. congruence. }
      destruct (dget String.eqb kwops (p_name p)) as [o|] eqn:G.
      * exists o. split; auto. apply H1. rewrite (KW YK). unfold get. rewrite G. auto.
      * apply KDEF; auto.
  - assert (LI: slots s <= i) by (apply IO; intros [C|C]; discriminate).
    assert (O: nth_error ops i = None) by (apply nth_error_None; lia). rewrite O.
    assert (Q: nth_error ((po ++ pk) ++ vp) i = Some p).
    { pose proof (of_kind _ _ _ _ _ _ SH p I) as OK. rewrite K in OK.
      apply In_nth_error in OK. destruct OK as [j J].
      assert (J': nth_error s (len (po ++ pk) + j) = Some p).
      { rewrite (sh_s _ _ _ _ _ _ SH), app_assoc. rewrite nth_error_app1.
        - rewrite nth_error_app2 by lia. replace (len (po ++ pk) + j - len (po ++ pk)) with j by lia. auto.
        - rewrite (app_length (po ++ pk)). assert (j < len vp) by (apply nth_error_Some; congruence). lia. }
      rewrite (nth_s_inj _ _ _ _ _ _ SH _ _ p A J').
      rewrite nth_error_app2 by lia. replace (len (po ++ pk) + j - len (po ++ pk)) with j by lia. auto. }
    specialize (GPV Q). rewrite O in GPV.
    assert (NK: ~ In p ks).
    { intros C. apply KIN in C. destruct C as [C _]. unfold takes_keyword in C. rewrite K in C. discriminate. }
    eapply NONE; [apply NKW; auto|]. destruct GPV as [X|X]; auto.
  - assert (LI: slots s <= i) by (apply IO; intros [C|C]; discriminate).
    assert (O: nth_error ops i = None) by (apply nth_error_None; lia). rewrite O.
    assert (YK: In p ks).
    { apply KIN. split; [unfold takes_keyword; rewrite K; auto|]. intros C.
      assert (C': In p ((po ++ pk) ++ vp)).
      { rewrite <- (firstn_skipn (len ops) ((po ++ pk) ++ vp)). apply in_or_app; auto. }
      apply in_app_or in C'. destruct C' as [C'|C'].
      - apply (ps_kind _ _ _ _ _ _ SH) in C'. destruct C'; congruence.
      - apply (vp_kind _ _ _ _ _ _ SH) in C'. congruence. }
    destruct (dget String.eqb kwops (p_name p)) as [o|] eqn:G.
    + exists o. split; auto. apply H1. rewrite (KW YK). unfold get. rewrite G. auto.
    + apply KDEF; auto.
  - assert (LI: slots s <= i) by (apply IO; intros [C|C]; discriminate).
    assert (O: nth_error ops i = None) by (apply nth_error_None; lia). rewrite O.
    assert (YK: In p ks).
    { apply KIN. split; [unfold takes_keyword; rewrite K; auto|]. intros C.
      assert (C': In p ((po ++ pk) ++ vp)).
      { rewrite <- (firstn_skipn (len ops) ((po ++ pk) ++ vp)). apply in_or_app; auto. }
      apply in_app_or in C'. destruct C' as [C'|C'].
      - apply (ps_kind _ _ _ _ _ _ SH) in C'. destruct C'; congruence.
      - apply (vp_kind _ _ _ _ _ _ SH) in C'. congruence. }
    apply KDEF; auto. apply get_None. intros C. apply AN in C.
    destruct C as [j [q [Q1 [Q2 [Q3 _]]]]].
    rewrite (same_name _ _ _ _ _ _ SH q p) in Q3; auto; [|apply nth_error_In in Q1; auto].
    destruct Q3; congruence.
Qed.

(* ---- for_argument ---- *)
Section For.
  Variable callable : val -> option (val -> res val).
  Variable s : sig.
  Variable body : vars -> res val.

  Lemma apply_dict_ok : forall D d (w : vars),
    (forall n v, In (n, v) d -> exists u, get w n = Some u /\
       match get D n with
       | Some o => match callable o with Some g => g v = Ok u | None => u = v end
       | None => u = v
       end) ->
    exists d', apply_dict callable D d = Ok d' /\ dkeys d' = dkeys d /\
      (forall n, In n (dkeys d) -> get d' n = get w n).
  Proof.
    intros D d w. induction d as [|[n v] d IH]; intros H.
    - exists []. repeat split; auto. intros n [].
    - destruct (H n v) as [u [U1 U2]]; [left; auto|].
      destruct IH as [d' [E [K G]]]; [intros; apply H; right; auto|].
      exists ((n, u) :: d'). split; [|split].
      + simpl. assert (X: match get D n with
          | Some o => match callable o with Some g => g v | None => Ok v end | None => Ok v end = Ok u).
        { destruct (get D n) as [o|]; [destruct (callable o)|]; congruence. }
        rewrite X. simpl. rewrite E. auto.
      + simpl. f_equal. auto.
      + intros m [M|M].
        * simpl in M. subst. rewrite get_cons, String.eqb_refl. auto.
        * rewrite get_cons. destruct (String.eqb m n) eqn:Q; auto.
          apply String.eqb_eq in Q. subst. auto.
  Qed.

  Lemma for_argument_slow ops kwops args kw b w :
    writable s -> dwf kw -> attachable s ops kwops ->
    (forall n, In n reserved -> ~ In n (dkeys kw)) ->
    (forall n, In n reserved -> ~ In n (dkeys kwops)) -> ~ named_before_star s args ->
    callable PyNone = None ->
    (forall p d, In p s -> p_default p = Some d -> callable d = None) ->
    py_bind s args kw = Ok b -> all_processed callable s ops kwops b w ->
    has_defaults s = true ->
    for_argument s body callable ops kwops args kw = body w.
  Proof.
    intros W K A R1 R2 NB CN CD B [WK WV] HD. unfold for_argument. rewrite HD.
    assert (R: has kwops "function" || has kwops "special_behaviour" = false).
    { apply orb_false_iff. split; rewrite has_get.
      - rewrite (proj2 (get_None kwops "function"%string)); auto. apply R2. simpl; auto.
      - rewrite (proj2 (get_None kwops "special_behaviour"%string)); auto. apply R2. simpl; auto. }
    rewrite R. destruct (ops_lookup s ops kwops W A) as [D [ED HDD]]. rewrite ED. simpl.
    destruct (get_arguments_of_bind s args kw b W K R1 NB B) as [d [G [WD [SD [KD GD]]]]].
    rewrite G. simpl.
    destruct (apply_dict_ok D d w) as [d' [E [K' G']]].
    { intros n v I. assert (In n (map p_name s)).
      { apply KD. apply in_map_iff. exists (n, v). auto. }
      apply in_map_iff in H. destruct H as [p [<- P]]. apply In_nth_error in P. destruct P as [i P].
      pose proof (nth_error_In _ _ P) as PI.
      assert (GV: get b (p_name p) = Some v).
      { rewrite <- GD by auto. apply (In_dget sok); auto. }
      destruct (WV i p v P GV) as [u [U1 U2]]. exists u. split; auto.
      destruct (HDD i p P) as [o [O1 O2]]. rewrite O1. unfold processed in U2.
      destruct (attached ops kwops i p) as [f|].
      - subst f. destruct U2 as [g [C1 C2]]. rewrite C1. auto.
      - subst u. destruct O2 as [->|O2]; [rewrite CN; auto|].
        rewrite (CD p o PI O2). auto. }
    rewrite E. simpl.
    assert (GET: forall p, In p s -> get d' (p_name p) = get w (p_name p)).
    { intros p I. apply G'. apply KD. apply in_map; auto. }
    destruct (call_dict_binds s body d') as [x [C [X Gx]]]; auto.
    - unfold dwf. rewrite K'. auto.
    - intros p u I Gu. rewrite GET in Gu by auto.
      destruct (bound_full s args kw b p W B I) as [v V].
      pose proof I as I'. apply In_nth_error in I'. destruct I' as [i I'].
      destruct (WV i p v I' V) as [u' [U1 U2]]. assert (u' = u) by congruence. subst u'.
      assert (NA: p_kind p = VarPos \/ p_kind p = VarKw -> u = v).
      { intros KK. assert (AN: attached ops kwops i p = None).
        { unfold attached. destruct (nth_error ops i); destruct KK as [KK|KK]; rewrite KK; auto. }
        rewrite AN in U2. exact U2. }
      rewrite <- GD in V by auto.
      split; intros KK; rewrite NA by auto; apply (SD p v I V); auto.
    - intros n. rewrite K'. apply KD.
    - rewrite C. f_equal. apply (same_on s); auto. intros p I. rewrite Gx, GET; auto.
  Qed.

  Lemma apply_list_ok : forall args ops us, len us = len args ->
    (forall i v u, nth_error args i = Some v -> nth_error us i = Some u ->
      match nth_error ops i with
      | Some o => exists g, callable o = Some g /\ g v = Ok u
      | None => u = v
      end) -> apply_list callable ops args = Ok us.
  Proof.
    induction args as [|v args IH]; intros ops us L H.
    - destruct us; [auto|discriminate].
    - destruct us as [|u us]; [discriminate|]. simpl in L. simpl.
      pose proof (H 0 v u eq_refl eq_refl) as H0.
      assert (X: match ops with
        | [] => Ok v | o :: _ => match callable o with Some g => g v | None => Err TypeError end end = Ok u).
      { destruct ops as [|o ops]; simpl in H0; [congruence|]. destruct H0 as [g [C1 C2]]. rewrite C1. auto. }
      rewrite X. simpl. rewrite (IH (tl ops) us); auto.
      intros i v' u' I J. specialize (H (S i) v' u' I J).
      destruct ops; simpl in *; [destruct i|]; auto.
  Qed.

  Lemma apply_kw_ok : forall kw kwops (f : string -> val -> val),
    (forall n v, In (n, v) kw ->
      match get kwops n with
      | Some o => exists g, callable o = Some g /\ g v = Ok (f n v)
      | None => f n v = v
      end) -> apply_kw callable kwops kw = Ok (map (fun e => (fst e, f (fst e) (snd e))) kw).
  Proof.
    induction kw as [|[n v] kw IH]; intros kwops f H; auto. simpl.
    pose proof (H n v (or_introl eq_refl)) as H0.
    assert (X: match get kwops n with
      | Some o => match callable o with Some g => g v | None => Err TypeError end | None => Ok v end = Ok (f n v)).
    { destruct (get kwops n) as [o|]; [|congruence]. destruct H0 as [g [C1 C2]]. rewrite C1. auto. }
    rewrite X. simpl. rewrite (IH kwops f); auto. intros; apply H; right; auto.
  Qed.

  Lemma get_map (f : string -> val -> val) : forall (kw : vars) n,
    get (map (fun e => (fst e, f (fst e) (snd e))) kw) n =
    match get kw n with Some v => Some (f n v) | None => None end.
  Proof.
    induction kw as [|[m v] kw IH]; intros n; auto. cbn [map fst snd]. rewrite !get_cons.
    destruct (String.eqb n m) eqn:E; auto. apply String.eqb_eq in E. subst. auto.
  Qed.

  Lemma keys_map (f : string -> val -> val) (kw : vars) :
    dkeys (map (fun e => (fst e, f (fst e) (snd e))) kw) = dkeys kw.
  Proof. unfold dkeys. rewrite map_map. auto. Qed.

  Lemma same_shape_value args kw args' kw' i p :
    len args' = len args -> dkeys kw' = dkeys kw ->
    (value_of s args' kw' i p = None <-> value_of s args kw i p = None).
  Proof.
    intros L K. unfold value_of.
    assert (N: nth_error args' i = None <-> nth_error args i = None).
    { rewrite !nth_error_None. rewrite L. tauto. }
    assert (G: dget String.eqb kw' (p_name p) = None <-> dget String.eqb kw (p_name p) = None).
    { pose proof (get_None kw' (p_name p)) as G1. pose proof (get_None kw (p_name p)) as G2.
      unfold get in *. rewrite G1, G2, K. tauto. }
    destruct (p_kind p); destruct (nth_error args' i), (nth_error args i);
      destruct (dget String.eqb kw' (p_name p)), (dget String.eqb kw (p_name p));
      try tauto;
      try (exfalso; destruct N as [N1 N2]; first [discriminate (N1 eq_refl)|discriminate (N2 eq_refl)]);
      try (exfalso; destruct G as [N1 N2]; first [discriminate (N1 eq_refl)|discriminate (N2 eq_refl)]);
      split; intros; discriminate.
  Qed.

  Lemma same_shape_accepts args kw args' kw' :
    len args' = len args -> dkeys kw' = dkeys kw ->
    python_accepts s args kw -> python_accepts s args' kw'.
  Proof.
    intros L K [A1 A2]. split.
    - intros [i [p [P V]]]. apply A1. exists i, p. split; auto.
      apply (same_shape_value args kw args' kw' i p L K); auto.
    - intros T. apply A2. unfold too_many in *. rewrite L, K in T. exact T.
  Qed.

  Lemma no_defaults : has_defaults s = false -> forall p, In p s -> p_default p = None.
  Proof.
    intros H p I. destruct (p_default p) eqn:E; auto. exfalso.
    assert (has_defaults s = true); [|congruence].
    unfold has_defaults. apply existsb_exists. exists p. rewrite E. auto.
  Qed.

  Lemma for_argument_fast ops kwops args kw b w :
    writable s -> dwf kw -> attachable s ops kwops -> passed_alike s ops kwops args ->
    py_bind s args kw = Ok b -> all_processed callable s ops kwops b w ->
    has_defaults s = false ->
    for_argument s body callable ops kwops args kw = body w.
  Proof.
    intros W K [AP AN] [PP PN] B [WK WV] HD. unfold for_argument. rewrite HD.
    rewrite (proj2 (Nat.leb_le (len ops) (len args)) PP).
    pose proof (no_defaults HD) as ND.
    destruct (proj1 (call_rule s args kw W) b B) as [ACC [[BV BN] BK]].
    destruct (writable_shaped _ W) as [po [pk [vp [ko [vk SH]]]]].
    pose proof (slots_ps _ _ _ _ _ _ SH) as SL.
    set (ps := po ++ pk) in *.
    set (val_of := fun p => match get w (p_name p) with Some u => u | None => PyNone end).
    set (us := map val_of (firstn (len args) ps) ++ skipn (slots s) args).
    set (f := fun n v => match get kwops n with
                         | Some _ => match get w n with Some u => u | None => v end
                         | None => v end).
    (* values by position *)
    assert (ARG: forall i p, nth_error s i = Some p -> p_kind p = PosOnly \/ p_kind p = PosOrKw ->
       forall v, nth_error args i = Some v ->
       exists u, get w (p_name p) = Some u /\
         match nth_error ops i with
         | Some o => exists g, callable o = Some g /\ g v = Ok u
         | None => u = v end).
    { intros i p P PK v V.
      assert (GB: get b (p_name p) = Some v).
      { rewrite (BV i p P). unfold value_of. destruct PK as [PK|PK]; rewrite PK, V; auto. }
      destruct (WV i p v P GB) as [u [U1 U2]]. exists u. split; auto.
      unfold attached in U2. destruct (nth_error ops i) as [o|].
      - destruct PK as [PK|PK]; rewrite PK in U2; exact U2.
      - destruct PK as [PK|PK]; rewrite PK in U2; [exact U2|].
        destruct (dget String.eqb kwops (p_name p)) as [o|] eqn:G; [|exact U2].
        exfalso. assert (I: In (p_name p) (map fst kwops)).
        { apply (dget_In sok) in G. apply in_map_iff. exists (p_name p, o). auto. }
        destruct (PN i p P I); congruence. }
    assert (USL: len us = len args).
    { unfold us. rewrite app_length, map_length, firstn_length, skipn_length, SL. lia. }
    assert (USN: forall i, i < slots s -> forall p, nth_error s i = Some p -> i < len args ->
       nth_error us i = Some (val_of p)).
    { intros i L p P LA.
      assert (PP': nth_error ps i = Some p).
      { rewrite (sh_s _ _ _ _ _ _ SH) in P. rewrite nth_error_app1 in P; auto. fold ps. lia. }
      unfold us. rewrite nth_error_app1.
      - rewrite nth_error_map.
        rewrite <- (firstn_skipn (len args) ps) in PP'. rewrite nth_error_app1 in PP'.
        + rewrite PP'. auto.
        + rewrite firstn_length. lia.
      - rewrite map_length, firstn_length. lia. }
    assert (USS: skipn (slots s) us = skipn (slots s) args).
    { destruct (Nat.le_gt_cases (slots s) (len args)) as [L|L].
      - unfold us. rewrite skipn_app, map_length, firstn_length.
        replace (slots s - Nat.min (len args) (len ps)) with 0 by lia. simpl.
        rewrite skipn_all2; auto. rewrite map_length, firstn_length. lia.
      - rewrite !skipn_all2; auto; lia. }
    assert (KWV: forall n v, In (n, v) kw ->
      match get kwops n with
      | Some o => exists g, callable o = Some g /\ g v = Ok (f n v)
      | None => f n v = v end).
    { intros n v I. unfold f. destruct (get kwops n) as [o|] eqn:G; auto.
      assert (IN: In n (map fst kwops)).
      { apply (dget_In sok) in G. apply in_map_iff. exists (n, o). auto. }
      destruct (AN n IN) as [i [p [P [PE [PB PO]]]]]. subst n.
      assert (GB: get b (p_name p) = Some v).
      { rewrite (BV i p P). unfold value_of. unfold dict in *.
        pose proof (In_dget sok _ _ K I) as KG. unfold by_name in PB.
        destruct (PN i p P IN) as [X|X]; destruct PB as [PB|PB]; rewrite PB; try congruence;
        rewrite ?X, KG; auto. }
      destruct (WV i p v P GB) as [u [U1 U2]]. rewrite U1.
      unfold attached in U2. rewrite PO in U2. unfold get in G. rewrite G in U2.
      destruct PB as [PB|PB]; rewrite PB in U2; exact U2. }
    rewrite (apply_list_ok args ops us USL).
    2:{ intros i v u V U.
        destruct (Nat.lt_ge_cases i (slots s)) as [L|L].
        - assert (PX: exists p, nth_error ps i = Some p).
          { destruct (nth_error ps i) eqn:X; eauto. apply nth_error_None in X. lia. }
          destruct PX as [p PX]. pose proof (ps_nth _ _ _ _ _ _ SH i p PX) as P.
          assert (LA: i < len args) by (apply nth_error_Some; congruence).
          pose proof (nth_error_In _ _ PX) as PI. apply (ps_kind _ _ _ _ _ _ SH) in PI.
          destruct (ARG i p P PI v V) as [u' [U1 U2]].
          rewrite (USN i L p P LA) in U. injection U as <-. unfold val_of. rewrite U1. exact U2.
        - rewrite (proj2 (nth_error_None ops i)) by lia.
          assert (X: nth_error us i = nth_error args i).
          { replace i with (slots s + (i - slots s)) by lia.
            assert (Y: forall l : list val, nth_error l (slots s + (i - slots s)) = nth_error (skipn (slots s) l) (i - slots s)).
            { clear. intros l. generalize (slots s) as k, (i - slots s) as j. intros k. revert l.
              induction k; intros l j; auto. destruct l; simpl; [destruct j|]; auto. }
            rewrite !Y, USS. auto. }
          congruence. }
    simpl. rewrite (apply_kw_ok kw kwops f KWV). simpl.
    set (kw' := map (fun e => (fst e, f (fst e) (snd e))) kw).
    assert (KK: dkeys kw' = dkeys kw) by apply keys_map.
    pose proof (same_shape_accepts args kw us kw' USL KK ACC) as ACC'.
    destruct (py_bind_accepted s us kw' W ACC') as [r [R [[RV RN] RK]]].
    unfold call. rewrite R. f_equal. apply (same_on s); auto.
    intros p I. apply In_nth_error in I. destruct I as [i P]. rewrite (RV i p P).
    pose proof (nth_error_In _ _ P) as I.
    destruct (bound_full s args kw b p W B I) as [v V].
    destruct (WV i p v P V) as [u [U1 U2]].
    rewrite (BV i p P) in V. unfold value_of in *.
    pose proof (get_map f kw (p_name p)) as GM. fold kw' in GM. unfold get in GM.
    assert (POS: p_kind p = PosOnly \/ p_kind p = PosOrKw -> forall v, nth_error args i = Some v ->
       nth_error us i = Some u).
    { intros PK v0 V0. destruct (index_of_positional _ _ _ _ _ _ SH i p P) as [IP _].
      destruct (IP PK) as [L _]. rewrite (USN i L p P).
      - unfold val_of. rewrite U1. auto.
      - apply nth_error_Some. congruence. }
    assert (POSN: nth_error args i = None -> nth_error us i = None).
    { rewrite !nth_error_None. lia. }
    assert (KWN: p_kind p = PosOrKw \/ p_kind p = KwOnly -> nth_error ops i = None ->
       forall v, dget String.eqb kw (p_name p) = Some v ->
         get b (p_name p) = Some v -> f (p_name p) v = u).
    { intros PK ON v0 V0 GB. destruct (WV i p v0 P GB) as [u' [U1' U2']].
      assert (u' = u) by congruence. subst u'. unfold f.
      unfold attached in U2'. rewrite ON in U2'.
      unfold get at 1. destruct (dget String.eqb kwops (p_name p)) as [o|].
      - rewrite U1. auto.
      - destruct PK as [PK|PK]; rewrite PK in U2'; symmetry; exact U2'. }
    destruct (p_kind p) eqn:K0.
    - destruct (nth_error args i) as [v0|] eqn:V0.
      + rewrite (POS (or_introl eq_refl) v0 eq_refl). auto.
      + rewrite ND in V by auto. discriminate.
    - destruct (nth_error args i) as [v0|] eqn:V0.
      + rewrite (POS (or_intror eq_refl) v0 eq_refl). auto.
      + rewrite (POSN eq_refl). rewrite GM.
        destruct (dget String.eqb kw (p_name p)) as [v1|] eqn:G.
        * rewrite U1. f_equal. apply (KWN (or_introl eq_refl)); auto.
          -- apply nth_error_None. apply nth_error_None in V0. lia.
          -- rewrite (BV i p P). unfold value_of. rewrite K0, V0, G. auto.
        * rewrite ND in V by auto. discriminate.
    - rewrite USS. rewrite V. rewrite U1. unfold attached in U2. rewrite K0 in U2.
      destruct (nth_error ops i); simpl in U2; congruence.
    - rewrite GM. destruct (dget String.eqb kw (p_name p)) as [v1|] eqn:G.
      + rewrite U1. f_equal. apply (KWN (or_intror eq_refl)); auto.
        * apply nth_error_None. destruct (index_of_positional _ _ _ _ _ _ SH i p P) as [_ IO].
          rewrite K0 in IO. assert (slots s <= i) by (apply IO; intros [C|C]; discriminate). lia.
        * rewrite (BV i p P). unfold value_of. rewrite K0, G. auto.
      + rewrite ND in V by auto. discriminate.
    - rewrite U1. unfold attached in U2. rewrite K0 in U2.
      assert (u = v) by (destruct (nth_error ops i); simpl in U2; auto). subst u.
      rewrite <- V. f_equal. f_equal. unfold kw'. clear - AN SH.
      induction kw as [|[n v] kw0 IH]; auto. simpl.
      destruct (negb (existsb (fun q => String.eqb (p_name q) n &&
         match p_kind q with PosOrKw | KwOnly => true | _ => false end) s)) eqn:E; rewrite IH; auto.
      f_equal. f_equal. unfold f. destruct (get kwops n) as [o|] eqn:G; auto.
      exfalso. apply negb_true_iff in E. unfold get in G. apply (dget_In sok) in G.
      destruct (AN n) as [i [p [P [PE [PB _]]]]].
      { apply in_map_iff. exists (n, o). auto. }
      apply nth_error_In in P. subst n.
      assert (X: existsb (fun q => String.eqb (p_name q) (p_name p) &&
         match p_kind q with PosOrKw | KwOnly => true | _ => false end) s = true).
      { apply existsb_exists. exists p. split; auto. rewrite String.eqb_refl.
        destruct PB as [PB|PB]; rewrite PB; auto. }
      congruence.
  Qed.
End For.

(* ---- preconditions ---- *)
Lemma holds_excl c v : holds c v -> c v <> IsFalse /\ c v <> Falsy /\ forall e, c v <> Raises e.
Proof. intros [H|H]; rewrite H; repeat split; congruence. Qed.

Lemma check_kw_spec kwconds kw : (forall n c, In (n, c) kwconds -> total c) ->
  (check_kw kwconds kw = None /\ forall n v c, In (n, v) kw -> dget String.eqb kwconds n = Some c -> holds c v) \/
  (check_kw kwconds kw = Some PreconditionFailed /\
     exists n v c, In (n, v) kw /\ dget String.eqb kwconds n = Some c /\ ~ holds c v).
Proof.
  intros ST. induction kw as [|[n v] kw IH]; simpl.
  - left. split; auto. intros n v c [].
  - destruct (dget String.eqb kwconds n) as [c|] eqn:G.
    + pose proof (ST n c (dget_In sok _ _ G) v) as NR.
      assert (REC: holds c v -> 
        (check_kw kwconds kw = None /\ forall n' v' c', (n, v) = (n', v') \/ In (n', v') kw ->
           dget String.eqb kwconds n' = Some c' -> holds c' v') \/
        (check_kw kwconds kw = Some PreconditionFailed /\
           exists n' v' c', ((n, v) = (n', v') \/ In (n', v') kw) /\ dget String.eqb kwconds n' = Some c' /\ ~ holds c' v')).
      { intros T. destruct IH as [[A B]|[A [n' [v' [c' [B1 [B2 B3]]]]]]].
        - left. split; auto. intros n' v' c' [I|I] G'; [|eauto]. injection I as <- <-. congruence.
        - right. split; auto. exists n', v', c'. auto. }
      assert (NO: ~ holds c v -> exists n' v' c', ((n, v) = (n', v') \/ In (n', v') kw) /\
                 dget String.eqb kwconds n' = Some c' /\ ~ holds c' v').
      { intros N. exists n, v, c. auto. }
      unfold holds in REC at 1, NO at 1.
      destruct (c v) as [| | | |e]; [apply REC; auto|right; split; auto; apply NO; intros [C|C]; discriminate
        |apply REC; auto|right; split; auto; apply NO; intros [C|C]; discriminate|exfalso; exact (NR e eq_refl)].
    + destruct IH as [[A B]|[A [n' [v' [c' [B1 [B2 B3]]]]]]].
      * left. split; auto. intros n' v' c' [I|I] G'; [|eauto]. injection I as <- <-. congruence.
      * right. split; auto. exists n', v', c'. auto.
Qed.

Lemma check_args_spec : forall conds args, (forall c, In c conds -> strict c) ->
  (check_args conds args = None /\ forall i v c, nth_error args i = Some v -> nth_error conds i = Some c -> holds c v) \/
  (check_args conds args = Some PreconditionFailed /\
     exists i v c, nth_error args i = Some v /\ nth_error conds i = Some c /\ ~ holds c v).
Proof.
  intros conds args. revert conds. induction args as [|v args IH]; intros conds ST; cbn [check_args].
  - left. split; [destruct conds; auto|]. intros i v c H. destruct i; discriminate.
  - destruct conds as [|c conds]; cbn [check_args].
    + left. split; [auto|]. intros i v' c' _ H. destruct i; discriminate.
    + assert (NO: ~ holds c v -> exists i v' c', nth_error (v :: args) i = Some v' /\
          nth_error (c :: conds) i = Some c' /\ ~ holds c' v').
      { intros N. exists 0, v, c. auto. }
      destruct (ST c (or_introl eq_refl) v) as [T|[F|F]].
      * assert (E: forall X Y, match c v with IsFalse => X | Raises TypeError => X | Raises e => Y e
                    | IsTrue | Truthy | Falsy => check_args conds args end = check_args conds args).
        { intros. destruct T as [T|T]; rewrite T; auto. }
        rewrite (E (Some PreconditionFailed) (fun e => Some (OtherError e))).
        destruct (IH conds) as [[A B]|[A [i [v' [c' [B1 [B2 B3]]]]]]].
        -- intros; apply ST; right; auto.
        -- left. split; auto. intros [|i] v' c' H1 H2; simpl in *; [congruence|eauto].
        -- right. split; auto. exists (S i), v', c'. auto.
      * rewrite F. right. split; auto. apply NO. intros [C|C]; congruence.
      * rewrite F. right. split; auto. apply NO. intros [C|C]; congruence.
Qed.

Lemma precondition_rule s body conds kwconds args kw b : writable s -> dwf kw ->
  attachable s conds kwconds -> passed_alike s conds kwconds args ->
  (forall c, In c conds -> strict c) -> (forall n c, In (n, c) kwconds -> total c) ->
  (forall p c v, In p s -> dget String.eqb kwconds (p_name p) = Some c -> p_default p = Some v -> holds c v) ->
  py_bind s args kw = Ok b ->
  (all_hold s conds kwconds b -> precondition s body conds kwconds args kw = Called (body b)) /\
  (~ all_hold s conds kwconds b -> precondition s body conds kwconds args kw = PreconditionFailed).
Proof.
  intros W K [AP AN] [PP PN] ST1 ST2 DF B.
  unfold precondition. rewrite (proj2 (Nat.leb_le (len conds) (len args)) PP).
  destruct (proj1 (call_rule s args kw W) b B) as [ACC [[BV BN] BK]].
  destruct (writable_shaped _ W) as [po [pk [vp [ko [vk SH]]]]].
  assert (POS: forall i c, nth_error conds i = Some c -> forall v, nth_error args i = Some v ->
    exists p, nth_error s i = Some p /\ (p_kind p = PosOnly \/ p_kind p = PosOrKw) /\ get b (p_name p) = Some v).
  { intros i c C v V. assert (L: i < len conds) by (apply nth_error_Some; congruence).
    destruct (nth_error (po ++ pk) i) as [p|] eqn:P.
    - pose proof (ps_nth _ _ _ _ _ _ SH i p P) as P'.
      pose proof (ps_kind _ _ _ _ _ _ SH p (nth_error_In _ _ P)) as PK.
      exists p. split; auto. split; auto. rewrite (BV i p P'). unfold value_of.
      destruct PK as [PK|PK]; rewrite PK, V; auto.
    - apply nth_error_None in P. rewrite <- (slots_ps _ _ _ _ _ _ SH) in P. lia. }
  assert (KWB: forall n c, dget String.eqb kwconds n = Some c -> forall v, In (n, v) kw ->
    exists i p, nth_error s i = Some p /\ p_name p = n /\ by_name p /\ nth_error conds i = None /\
      get b n = Some v).
  { intros n c C v V. assert (IN: In n (map fst kwconds)).
    { apply (dget_In sok) in C. apply in_map_iff. exists (n, c). auto. }
    destruct (AN n IN) as [i [p [P [PE [PB PO]]]]]. exists i, p. subst n.
    repeat split; auto. rewrite (BV i p P). unfold value_of.
    pose proof (In_dget sok _ _ K V) as KG.
    destruct (PN i p P IN) as [X|X]; destruct PB as [PB|PB]; rewrite PB; try congruence;
      rewrite ?X, KG; auto. }
  destruct (check_kw_spec kwconds kw ST2) as [[E1 H1]|[E1 H1]]; rewrite E1.
  - destruct (check_args_spec conds args ST1) as [[E2 H2]|[E2 H2]]; rewrite E2.
    + unfold call. rewrite B. split; auto. intros NH. exfalso. apply NH.
      intros i p v c P G A. unfold attached in A.
      destruct (nth_error conds i) as [c'|] eqn:C.
      * assert (L: i < len conds) by (apply nth_error_Some; congruence).
        destruct (nth_error args i) as [v'|] eqn:V; [|apply nth_error_None in V; lia].
        destruct (POS i c' C v' V) as [q [Q1 [Q2 Q3]]]. assert (q = p) by congruence. subst q.
        assert (v' = v) by congruence. subst v'.
        destruct Q2 as [Q2|Q2]; rewrite Q2 in A; injection A as <-; eapply H2; eauto.
      * assert (PB: by_name p /\ dget String.eqb kwconds (p_name p) = Some c).
        { unfold by_name. destruct (p_kind p); try discriminate; auto. }
        destruct PB as [PB GC].
        assert (IN: In (p_name p) (map fst kwconds)).
        { apply (dget_In sok) in GC. apply in_map_iff. exists (p_name p, c). auto. }
        rewrite (BV i p P) in G. unfold value_of in G.
        pose proof (nth_error_In _ _ P) as PI.
        assert (G': match dget String.eqb kw (p_name p) with Some v => Some v | None => p_default p end = Some v).
        { destruct (PN i p P IN) as [X|X]; destruct PB as [PB|PB]; rewrite PB in G; try congruence;
            rewrite ?X in G; auto. }
        destruct (dget String.eqb kw (p_name p)) as [v'|] eqn:GK.
        -- injection G' as ->. eapply H1; eauto. apply (dget_In sok); auto.
        -- eapply DF; eauto.
    + split; auto. intros AH. exfalso. destruct H2 as [i [v [c [V [C F]]]]].
      destruct (POS i c C v V) as [p [Q1 [Q2 Q3]]].
      apply F. apply (AH i p v c Q1 Q3).
      unfold attached. rewrite C. destruct Q2 as [Q2|Q2]; rewrite Q2; auto.
  - split; auto. intros AH. exfalso. destruct H1 as [n [v [c [V [C F]]]]].
    destruct (KWB n c C v V) as [i [p [P [PE [PB [PO G]]]]]]. subst n.
    apply F. apply (AH i p v c P G).
    unfold attached. rewrite PO. destruct PB as [PB|PB]; rewrite PB; auto.
Qed.

Lemma transform_result_ok s body expr args b a : writable s -> ~ named_before_star s args ->
  py_bind s args [] = Ok b -> body b = Ok a ->
  exists local, transform_result s body expr args [] = expr local /\
    get local "x"%string = Some a /\
    forall p, In p s -> p_name p <> "x"%string -> get local (p_name p) = get b (p_name p).
Proof.
  intros W NB B E. unfold transform_result. simpl. rewrite app_nil_r. unfold call. rewrite B, E. simpl.
  destruct (get_arguments_of_bind s args [] b W (NoDup_nil _)) as [d [G [WD [SD [KD GD]]]]]; auto.
  rewrite G. simpl. eexists. split; [reflexivity|]. split; [apply get_set_eq|].
  intros p I N. rewrite get_set_neq by auto. auto.
Qed.

Lemma transform_result_err s body expr args kw e : call s body args kw = Err e ->
  transform_result s body expr args kw = Err e.
Proof. intros H. unfold transform_result. rewrite H. auto. Qed.

Lemma attach_ok s body xargs xkw args kw : dwf kw -> dwf xkw ->
  exists kw', attach_arguments s body xargs xkw args kw = call s body (args ++ xargs) kw' /\ dwf kw' /\
    forall n, get kw' n = match get xkw n with Some v => Some v | None => get kw n end.
Proof.
  intros W X. exists (update kw xkw). split; [reflexivity|]. split; [apply (update_get xkw kw ""%string W X)|].
  intros n. apply (update_get xkw kw n W X).
Qed.

Lemma postcondition_rule s body c args kw :
  (forall e, call s body args kw = Err e -> postcondition s body c args kw = Called (Err e)) /\
  (forall v, call s body args kw = Ok v ->
     (c v = IsTrue -> postcondition s body c args kw = Called (Ok v)) /\
     (c v = IsFalse -> postcondition s body c args kw = PreconditionFailed) /\
     (forall e, c v = Raises e -> postcondition s body c args kw = OtherError e)).
Proof.
  unfold postcondition. split.
  - intros e H. rewrite H. auto.
  - intros v H. rewrite H. repeat split; intros; rewrite H0; auto.
Qed.

Lemma has_defaults_some s : has_defaults s = true -> some_default s.
Proof.
  unfold has_defaults. intros H. apply existsb_exists in H. destruct H as [p [I E]].
  exists p. split; auto. destruct (p_default p); congruence.
Qed.

Lemma has_defaults_none s : has_defaults s = false -> ~ some_default s.
Proof. intros H [p [I E]]. apply E. apply (no_defaults s H p I). Qed.
