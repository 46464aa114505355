From Coq Require Import String.
From Verif Require Import Prelude PreludeFacts MoreFacts Schema_Model Schema_Spec.

Lemma streqb_ok : eqb_ok String.eqb.
Proof. exact String.eqb_eq. Qed.

(** ** Checkers *)
Lemma check_loop_true cs v added : passes cs v -> check_loop cs v added = (true, added ++ cs).
Proof.
  revert added. induction cs as [|c t IH]; intros added H; simpl.
  - rewrite app_nil_r. reflexivity.
  - rewrite (H c) by (left; reflexivity). rewrite IH by (intros c' Hc; apply H; right; exact Hc).
    rewrite <- app_assoc. reflexivity.
Qed.
Lemma check_loop_false cs v added b cs' : check_loop cs v added = (b, cs') ->
  (b = true /\ passes cs v) \/ (b = false /\ ~ passes cs v).
Proof.
  revert added. induction cs as [|c t IH]; intros added H; simpl in H.
  - left. split; [congruence|]. intros c [].
  - destruct (c v) eqn:E.
    + destruct (IH _ H) as [[H1 H2]|[H1 H2]]; [left|right]; split; auto.
      * intros c' [<-|Hc]; auto.
      * intros Hp. apply H2. intros c' Hc. apply Hp. right. exact Hc.
    + right. split; [congruence|]. intros Hp. rewrite (Hp c) in E by (left; reflexivity). discriminate.
Qed.
Lemma check_true cs v : passes cs v -> check cs v = (true, cs).
Proof. apply (check_loop_true cs v []). Qed.
Lemma check_inv cs v : (passes cs v /\ check cs v = (true, cs)) \/ (~ passes cs v /\ fst (check cs v) = false).
Proof.
  destruct (check cs v) as [b cs'] eqn:E. pose proof E as E2. unfold check in E2. apply check_loop_false in E2.
  destruct E2 as [[-> Hp]|[-> Hp]]; [left|right; auto]. split; auto. rewrite <- E. apply check_true. exact Hp.
Qed.

(** ** Descriptor.__call__ *)
Definition recast (r : res cv) : res cv :=
  match r with
  | Err TypeError | Err ValueError | Err ConfigurationError | Err ConfigurationValidationError => Err ConfigurationValidationError
  | r => r
  end.
Lemma dcall_ok pre post maker v w pre' post' : descriptor_call pre post maker v = (Ok w, pre', post') ->
  passes pre v /\ maker v = Ok w /\ passes post w /\ pre' = pre /\ post' = post.
Proof.
  unfold descriptor_call. destruct (check_inv pre v) as [[Hp E]|[Hp E]].
  - rewrite E. destruct (maker v) as [x|e] eqn:Em.
    + destruct (check_inv post x) as [[Hq E2]|[Hq E2]].
      * rewrite E2. intros H. injection H as <- <- <-. auto.
      * destruct (check post x) as [b q]; simpl in E2; subst b. discriminate.
    + destruct e; discriminate.
  - destruct (check pre v) as [b p]; simpl in E; subst b. discriminate.
Qed.
Lemma dcall_passes pre post maker v : passes pre v -> (forall w, maker v = Ok w -> passes post w) ->
  descriptor_call pre post maker v = (recast (maker v), pre, post).
Proof.
  intros H1 H2. unfold descriptor_call. rewrite (check_true _ _ H1).
  destruct (maker v) as [x|e] eqn:Em.
  - rewrite (check_true _ _ (H2 x eq_refl)). reflexivity.
  - destruct e; reflexivity.
Qed.
Lemma dcall_err pre post maker v e pre' post' : descriptor_call pre post maker v = (Err e, pre', post') ->
  e = ConfigurationValidationError \/ maker v = Err e.
Proof.
  unfold descriptor_call. destruct (check pre v) as [b p]. destruct b.
  - destruct (maker v) as [x|e0] eqn:Em.
    + destruct (check post x) as [b q]. destruct b; [discriminate|]. intros H. left. congruence.
    + destruct e0; intros H; injection H as <- _ _; auto.
  - intros H. left. congruence.
Qed.

(** ** The loops *)
Lemma list_loop_still (cl : desc -> cv -> res cv * desc) d l acc :
  (forall x, In x l -> snd (cl d x) = d \/ exists e, fst (cl d x) = Err e) ->
  fst (list_loop cl d l acc) =
    match in_order (fun x => fst (cl d x)) l with Ok ws => Ok (acc ++ ws) | Err e => Err e end.
Proof.
  revert acc. induction l as [|x t IH]; intros acc H; simpl.
  - rewrite app_nil_r. reflexivity.
  - destruct (H x (or_introl eq_refl)) as [Hx|[e Hx]].
    + destruct (cl d x) as [[w|e] d']; simpl in *; subst d'; auto.
      rewrite IH by (intros; apply H; right; assumption).
      destruct (in_order _ t); auto. rewrite <- app_assoc. reflexivity.
    + destruct (cl d x) as [[w|e'] d']; simpl in *; congruence.
Qed.
Lemma list_loop_state (cl : desc -> cv -> res cv * desc) d l acc :
  (forall x, In x l -> snd (cl d x) = d) -> snd (list_loop cl d l acc) = d.
Proof.
  revert acc. induction l as [|x t IH]; intros acc H; simpl; auto.
  pose proof (H x (or_introl eq_refl)) as Hx. destruct (cl d x) as [[w|e] d']; simpl in *; subst d'; auto.
Qed.
Lemma list_loop_ok_state (cl : desc -> cv -> res cv * desc) d l acc ws :
  (forall x w, fst (cl d x) = Ok w -> snd (cl d x) = d) ->
  fst (list_loop cl d l acc) = Ok ws -> snd (list_loop cl d l acc) = d.
Proof.
  intros H. revert acc. induction l as [|x t IH]; intros acc; simpl; auto.
  pose proof (H x) as Hx. destruct (cl d x) as [[w|e] d']; simpl in *; [|discriminate].
  rewrite (Hx w eq_refl). apply IH.
Qed.

Notation entry := (string * (bool * cv * desc))%type.
Definition ask_key (cl : desc -> cv -> res cv * desc) (kvs : list (string * cv)) (e : entry) : Prop :=
  match dget String.eqb kvs (fst e) with
  | Some x => accepted (fst (cl (snd (snd e)) x))
  | None => fst (fst (snd e)) = true
  end.

Lemma keys_loop_ok cl keys : forall value output value' output',
  NoDup (map fst keys) -> dwf value ->
  fst (keys_loop cl keys value output) = Ok (value', output') ->
  Forall (ask_key cl value) keys /\ dwf value' /\
  (forall k, dget String.eqb value' k = if dmem String.eqb keys k then None else dget String.eqb value k) /\
  (forall k, match dget String.eqb keys k with
             | Some (_, df, d) => match dget String.eqb value k with
                                  | Some x => exists y, dget String.eqb output' k = Some y /\ fst (cl d x) = Ok y
                                  | None => dget String.eqb output' k = Some df
                                  end
             | None => dget String.eqb output' k = dget String.eqb output k
             end).
Proof.
  induction keys as [|[k0 [[o df] d]] t IH]; intros value output value' output' Hnd Hwf H; simpl in *.
  - injection H as <- <-. split; [constructor|]. split; auto.
  - inversion Hnd as [|? ? Hni Hnd' ]; subst.
    assert (Hno : dget String.eqb t k0 = None) by (apply (dget_None streqb_ok); exact Hni).
    destruct (dget String.eqb value k0) as [x|] eqn:Ex.
    + destruct (cl d x) as [[w|e] d'] eqn:Ec; [|discriminate].
      destruct (keys_loop cl t (ddel String.eqb value k0) (dset String.eqb output k0 w)) as [r t'] eqn:Ek.
      simpl in H. subst r.
      destruct (IH (ddel String.eqb value k0) (dset String.eqb output k0 w) value' output' Hnd'
                  (ddel_wf String.eqb k0 Hwf)) as (H1 & H2 & H3 & H4); [rewrite Ek; reflexivity|].
      split; [|split; [exact H2|split]].
      * constructor.
        { unfold ask_key. simpl. rewrite Ex, Ec. simpl. exists w. reflexivity. }
        { rewrite Forall_forall in *. intros [k1 e1] He. specialize (H1 _ He). unfold ask_key in *. simpl in *.
          rewrite (dget_ddel_neq streqb_ok) in H1; auto. intros ->. apply Hni. apply (in_map fst) in He. exact He. }
      * intros k. rewrite H3. unfold dmem. simpl. destruct (String.eqb k0 k) eqn:E.
        { apply String.eqb_eq in E. subst k. rewrite Hno. apply (dget_ddel_eq streqb_ok). exact Hwf. }
        { apply String.eqb_neq in E. rewrite (dget_ddel_neq streqb_ok) by auto. reflexivity. }
      * intros k. specialize (H4 k). simpl. destruct (String.eqb k0 k) eqn:E.
        { apply String.eqb_eq in E. subst k. rewrite Hno in H4. rewrite Ex. exists w.
          rewrite H4, (dget_dset_eq streqb_ok), Ec. auto. }
        { apply String.eqb_neq in E. rewrite (dget_ddel_neq streqb_ok), (dget_dset_neq streqb_ok) in H4 by auto. exact H4. }
    + destruct o; [|discriminate].
      destruct (keys_loop cl t value (dset String.eqb output k0 df)) as [r t'] eqn:Ek.
      simpl in H. subst r.
      destruct (IH value (dset String.eqb output k0 df) value' output' Hnd' Hwf) as (H1 & H2 & H3 & H4); [rewrite Ek; reflexivity|].
      split; [|split; [exact H2|split]].
      * constructor; auto. unfold ask_key. simpl. rewrite Ex. reflexivity.
      * intros k. rewrite H3. unfold dmem. simpl. destruct (String.eqb k0 k) eqn:E; auto.
        apply String.eqb_eq in E. subst k. rewrite Hno. auto.
      * intros k. specialize (H4 k). simpl. destruct (String.eqb k0 k) eqn:E.
        { apply String.eqb_eq in E. subst k. rewrite Hno in H4. rewrite Ex. rewrite H4. apply (dget_dset_eq streqb_ok). }
        { apply String.eqb_neq in E. rewrite (dget_dset_neq streqb_ok) in H4 by auto. exact H4. }
Qed.

Lemma keys_loop_accepts cl keys : forall value output,
  NoDup (map fst keys) -> Forall (ask_key cl value) keys -> accepted (fst (keys_loop cl keys value output)).
Proof.
  induction keys as [|[k0 [[o df] d]] t IH]; intros value output Hnd H; simpl.
  - eexists. reflexivity.
  - inversion Hnd as [|? ? Hni Hnd']; subst. inversion H as [|? ? H0 Ht]; subst. unfold ask_key in H0. simpl in H0.
    destruct (dget String.eqb value k0) as [x|] eqn:Ex.
    + destruct H0 as [w Hw]. destruct (cl d x) as [r d']; simpl in Hw; subst r.
      destruct (IH (ddel String.eqb value k0) (dset String.eqb output k0 w) Hnd') as [r Hr].
      { rewrite Forall_forall in *. intros [k1 e1] He. specialize (Ht _ He). unfold ask_key in *. simpl in *.
        rewrite (dget_ddel_neq streqb_ok); auto. intros ->. apply Hni. apply (in_map fst) in He. exact He. }
      destruct (keys_loop cl t _ _) as [r' t']. simpl in *. exists r. exact Hr.
    + rewrite H0. destruct (IH value (dset String.eqb output k0 df) Hnd' Ht) as [r Hr].
      destruct (keys_loop cl t _ _) as [r' t']. simpl in *. exists r. exact Hr.
Qed.

Lemma unknown_loop_ok mapper value : forall output out, dwf value ->
  unknown_loop mapper value output = Ok out ->
  (forall k x, In (k, x) value -> accepted (mapper k x)) /\
  (forall k, match dget String.eqb value k with
             | Some x => exists y, dget String.eqb out k = Some y /\ mapper k x = Ok y
             | None => dget String.eqb out k = dget String.eqb output k
             end).
Proof.
  induction value as [|[k0 x0] t IH]; intros output out Hwf H; simpl in *.
  - injection H as <-. split; [intros k x []|auto].
  - inversion Hwf as [|? ? Hni Hwf']; subst. destruct (mapper k0 x0) as [w|e] eqn:Em; [|discriminate].
    destruct (IH _ _ Hwf' H) as (H1 & H2). split.
    + intros k x [E|Hi]; [injection E as <- <-; exists w; exact Em|eauto].
    + intros k. specialize (H2 k). destruct (String.eqb k0 k) eqn:E.
      * apply String.eqb_eq in E. subst k. assert (Hn : dget String.eqb t k0 = None) by (apply (dget_None streqb_ok); exact Hni).
        rewrite Hn in H2. exists w. rewrite H2, (dget_dset_eq streqb_ok). auto.
      * apply String.eqb_neq in E. destruct (dget String.eqb t k); auto.
        rewrite H2. apply (dget_dset_neq streqb_ok). auto.
Qed.
Lemma unknown_loop_accepts mapper value : forall output,
  (forall k x, In (k, x) value -> accepted (mapper k x)) -> accepted (unknown_loop mapper value output).
Proof.
  induction value as [|[k0 x0] t IH]; intros output H; simpl.
  - eexists. reflexivity.
  - destruct (H k0 x0 (or_introl eq_refl)) as [w Hw]. rewrite Hw. apply IH. intros; apply H; right; assumption.
Qed.

(** ** Dict *)
Lemma dict_call_shape n pre post keys mapper v : 
  passes pre v -> passes post v ->
  fst (call (S n) (DDict pre post keys mapper) v) =
  match v with
  | CDict kvs => match fst (keys_loop (call n) keys kvs []) with
                 | Ok (value', output) => match unknown_loop mapper value' output with Ok o => Ok (CDict o) | Err e => Err e end
                 | Err e => Err e
                 end
  | _ => Err ConfigurationValidationError
  end.
Proof.
  intros H1 H2. destruct v; try reflexivity. cbn [call].
  rewrite dcall_passes; auto; [|intros w Hw; injection Hw as <-; exact H2].
  simpl. destruct (keys_loop (call n) keys d []) as [[[v' o]|e] k']; reflexivity.
Qed.

Definition answer (n : nat) : desc -> cv -> res cv := fun d x => fst (call n d x).

Lemma dict_ok n pre post keys mapper v w :
  NoDup (map fst keys) -> (forall kvs, v = CDict kvs -> NoDup (map fst kvs)) -> passes pre v -> passes post v ->
  fst (call (S n) (DDict pre post keys mapper) v) = Ok w ->
  exists kvs out, v = CDict kvs /\ w = CDict out /\ dict_accepts (answer n) keys mapper kvs /\
    forall k, dict_entry (answer n) keys mapper kvs k (dget String.eqb out k).
Proof.
  intros Hnd Hv H1 H2 H. rewrite dict_call_shape in H by auto.
  destruct v as [| | | | | | |kvs]; try discriminate. specialize (Hv kvs eq_refl).
  destruct (fst (keys_loop (call n) keys kvs [])) as [[value' output]|] eqn:E; [|discriminate].
  destruct (unknown_loop mapper value' output) as [out|] eqn:Eu; [|discriminate]. injection H as <-.
  exists kvs, out. split; auto. split; auto.
  destruct (keys_loop_ok (call n) keys kvs [] value' output Hnd Hv E) as (K1 & K2 & K3 & K4).
  destruct (unknown_loop_ok mapper value' output out K2 Eu) as (U1 & U2).
  split; [split|].
  - intros k o df d Hin. rewrite Forall_forall in K1. exact (K1 _ Hin).
  - intros k x Hin Hno. apply U1. apply (dget_In streqb_ok). rewrite K3.
    destruct (dmem String.eqb keys k) eqn:Em; [apply (dmem_In streqb_ok) in Em; contradiction|].
    apply (In_dget streqb_ok); assumption.
  - intros k. unfold dict_entry. specialize (K4 k). specialize (U2 k). rewrite K3 in U2. unfold dmem in U2.
    destruct (dget String.eqb keys k) as [[[o df] d]|].
    + rewrite U2. destruct (dget String.eqb kvs k); auto.
    + destruct (dget String.eqb kvs k); auto. rewrite U2, K4. reflexivity.
Qed.

Lemma dict_accepts_ok n pre post keys mapper kvs :
  NoDup (map fst keys) -> NoDup (map fst kvs) -> passes pre (CDict kvs) -> passes post (CDict kvs) ->
  dict_accepts (answer n) keys mapper kvs ->
  accepted (fst (call (S n) (DDict pre post keys mapper) (CDict kvs))).
Proof.
  intros Hnd Hv H1 H2 [A1 A2]. rewrite dict_call_shape by auto.
  destruct (keys_loop_accepts (call n) keys kvs [] Hnd) as [[value' output] E].
  { rewrite Forall_forall. intros [k [[o df] d]] Hin. exact (A1 _ _ _ _ Hin). }
  rewrite E. destruct (keys_loop_ok (call n) keys kvs [] value' output Hnd Hv E) as (K1 & K2 & K3 & K4).
  destruct (unknown_loop_accepts mapper value' output) as [out Eu].
  { intros k x Hin. apply (In_dget streqb_ok) in Hin; auto. rewrite K3 in Hin.
    destruct (dmem String.eqb keys k) eqn:Em; [discriminate|]. apply A2; [apply (dget_In streqb_ok); exact Hin|].
    intros Hk. apply (dmem_In streqb_ok) in Hk. congruence. }
  rewrite Eu. eexists. reflexivity.
Qed.

Lemma dict_iff n keys mapper v :
  NoDup (map fst keys) -> (forall kvs, v = CDict kvs -> NoDup (map fst kvs)) ->
  accepted (fst (call (S n) (new_dict keys mapper) v)) <->
  exists kvs, v = CDict kvs /\ dict_accepts (answer n) keys mapper kvs.
Proof.
  intros Hnd Hv. split.
  - intros [w H]. destruct v as [| | | | | | |kvs]; try discriminate H.
    destruct (dict_ok n [is_dict] [] keys mapper (CDict kvs) w Hnd Hv) with (3 := H) as (kvs' & out & E1 & E2 & A & _).
    + intros c [<-|[]]. reflexivity.
    + intros c [].
    + exists kvs'. auto.
  - intros (kvs & -> & A). apply dict_accepts_ok; auto.
    + intros c [<-|[]]. reflexivity.
    + intros c [].
Qed.
Lemma dict_contents n keys mapper v w :
  NoDup (map fst keys) -> (forall kvs, v = CDict kvs -> NoDup (map fst kvs)) ->
  fst (call (S n) (new_dict keys mapper) v) = Ok w ->
  exists kvs out, v = CDict kvs /\ w = CDict out /\ forall k, dict_entry (answer n) keys mapper kvs k (dget String.eqb out k).
Proof.
  intros Hnd Hv H. destruct v as [| | | | | | |kvs]; try discriminate H.
  destruct (dict_ok n [is_dict] [] keys mapper (CDict kvs) w Hnd Hv) with (3 := H) as (kvs' & out & E1 & E2 & _ & A).
  - intros c [<-|[]]. reflexivity.
  - intros c [].
  - exists kvs', out. auto.
Qed.

(** ** Union *)
Lemma union_loop_ok cl ds v w :
  fst (union_loop cl ds v) = Ok w <->
  exists l1 d l2, ds = l1 ++ d :: l2 /\ Forall (fun d' => refused (fst (cl d' v))) l1 /\ fst (cl d v) = Ok w.
Proof.
  split.
  - induction ds as [|d t IH]; simpl; [discriminate|].
    destruct (cl d v) as [r d'] eqn:E. intros H.
    assert (H' : r = Ok w \/ (r = Err ConfigurationValidationError /\ fst (union_loop cl t v) = Ok w)).
    { destruct r as [x|[]]; simpl in H; try discriminate H; auto.
      right. split; auto. destruct (union_loop cl t v). exact H. }
    destruct H' as [->|[-> Ht]].
    + exists [], d, t. rewrite E. auto.
    + destruct (IH Ht) as (l1 & d1 & l2 & -> & F & Hd). exists (d :: l1), d1, l2. split; auto. split; auto.
      constructor; auto. rewrite E. reflexivity.
  - intros (l1 & d & l2 & -> & F & H). induction F as [|x l1 Hx F IH]; simpl.
    + destruct (cl d v) as [r d']. simpl in H. subst r. reflexivity.
    + destruct (cl x v) as [r d']. unfold refused in Hx. simpl in Hx. subst r.
      destruct (union_loop cl (l1 ++ d :: l2) v). exact IH.
Qed.
Lemma union_loop_refused cl ds v : Forall (fun d => refused (fst (cl d v))) ds -> refused (fst (union_loop cl ds v)).
Proof.
  unfold refused. induction 1 as [|x l Hx F IH]; simpl; auto.
  destruct (cl x v) as [r d']. simpl in Hx. subst r. destruct (union_loop cl l v). exact IH.
Qed.
Lemma union_fst n ds v : fst (call (S n) (DUnion ds) v) = fst (union_loop (call n) ds v).
Proof. cbn [call]. destruct (union_loop (call n) ds v). reflexivity. Qed.

(** ** The state stays *)
Lemma ddel_In (value : list (string * cv)) k e : In e (ddel String.eqb value k) -> In e value.
Proof.
  induction value as [|[k' v'] t IH]; simpl; auto. destruct (String.eqb k' k); simpl; intuition.
Qed.
Lemma keys_loop_state (cl : desc -> cv -> res cv * desc) (keys : list entry) value output :
  (forall e x, In e keys -> In (fst e, x) value -> snd (cl (snd (snd e)) x) = snd (snd e)) ->
  snd (keys_loop cl keys value output) = keys.
Proof.
  revert value output. induction keys as [|[k [[o df] d]] t IH]; intros value output H; simpl; auto.
  destruct (dget String.eqb value k) as [x|] eqn:Ex.
  - pose proof (H (k, (o, df, d)) x (or_introl eq_refl) (dget_In streqb_ok _ _ Ex)) as Hd. simpl in Hd.
    destruct (cl d x) as [[w|e] d'] eqn:Ec; simpl in Hd; subst d'; auto.
    assert (IH' := IH (ddel String.eqb value k) (dset String.eqb output k w)).
    destruct (keys_loop cl t (ddel String.eqb value k) (dset String.eqb output k w)) as [r t'] eqn:Ek. simpl in IH' |- *.
    f_equal. apply IH'. intros e y He Hy. apply H; [right; exact He|]. eapply ddel_In; eauto.
  - destruct o; auto.
    assert (IH' := IH value (dset String.eqb output k df)).
    destruct (keys_loop cl t value (dset String.eqb output k df)) as [r t']. simpl in IH' |- *.
    f_equal. apply IH'. intros e y He Hy. apply H; auto. right. exact He.
Qed.
Lemma keys_loop_ok_state (cl : desc -> cv -> res cv * desc) (keys : list entry) value output r :
  (forall e x w, In e keys -> fst (cl (snd (snd e)) x) = Ok w -> snd (cl (snd (snd e)) x) = snd (snd e)) ->
  fst (keys_loop cl keys value output) = Ok r -> snd (keys_loop cl keys value output) = keys.
Proof.
  revert value output. induction keys as [|[k [[o df] d]] t IH]; intros value output H; simpl; auto.
  destruct (dget String.eqb value k) as [x|] eqn:Ex.
  - pose proof (fun w => H (k, (o, df, d)) x w (or_introl eq_refl)) as Hd. simpl in Hd.
    destruct (cl d x) as [[w|e] d'] eqn:Ec; [|discriminate]. simpl in Hd. rewrite (Hd w eq_refl).
    assert (IH' := IH (ddel String.eqb value k) (dset String.eqb output k w)).
    destruct (keys_loop cl t (ddel String.eqb value k) (dset String.eqb output k w)) as [r' t'] eqn:Ek. simpl in IH' |- *.
    intros ->. f_equal. apply IH'; auto. intros e y z He. apply H. right. exact He.
  - destruct o; auto.
    assert (IH' := IH value (dset String.eqb output k df)).
    destruct (keys_loop cl t value (dset String.eqb output k df)) as [r' t']. simpl in IH' |- *.
    intros ->. f_equal. apply IH'; auto. intros e y z He. apply H; auto. right. exact He.
Qed.
Lemma union_loop_state (cl : desc -> cv -> res cv * desc) ds v :
  (forall d, In d ds -> snd (cl d v) = d) -> snd (union_loop cl ds v) = ds.
Proof.
  induction ds as [|d t IH]; intros H; simpl; auto.
  pose proof (H d (or_introl eq_refl)) as Hd. destruct (cl d v) as [r d']. simpl in Hd. subst d'.
  assert (IH' : snd (union_loop cl t v) = t) by (apply IH; intros; apply H; right; assumption).
  destruct r as [x|e]; auto. destruct e; auto. destruct (union_loop cl t v) as [r t']. simpl in *. congruence.
Qed.

Lemma fold_and_In {A} (P : A -> Prop) l x : fold_right and True (map P l) -> In x l -> P x.
Proof. induction l as [|h t IH]; simpl; [tauto|]. intros [H1 H2] [<-|Hi]; auto. Qed.

Lemma call_still n : forall d v, no_checker_refuses d v -> snd (call n d v) = d.
Proof.
  induction n as [|n IH]; intros d v H; [reflexivity|].
  destruct d as [pre post maker|pre post maker m b|pre post td|f|pre post keys mapper|ds]; cbn [call no_checker_refuses] in *.
  - destruct H as [H1 H2]. rewrite dcall_passes by auto. destruct (recast (maker v)); reflexivity.
  - destruct H as [H1 H2]. rewrite dcall_passes by auto. destruct (recast (maker v)) as [w|e]; auto.
  - destruct H as [H1 H2]. rewrite dcall_passes; auto.
    + destruct (to_list v) as [w|e] eqn:Et.
      * simpl. assert (Hw : exists l, w = CList l) by (destruct v; simpl in Et; try discriminate; injection Et as <-; eauto).
        destruct Hw as [l ->]. destruct (H2 l eq_refl) as [H3 H4].
        assert (E : snd (list_loop (call n) td l []) = td).
        { apply list_loop_state. intros x Hx. apply IH. rewrite Forall_forall in H4. auto. }
        destruct (list_loop (call n) td l []). simpl in *. subst. reflexivity.
      * destruct (recast (Err e)) as [w|e'] eqn:Er; auto.
        destruct e; simpl in Er; discriminate Er.
    + intros w Hw. assert (Hl : exists l, w = CList l) by (destruct v; simpl in Hw; try discriminate; injection Hw as <-; eauto).
      destruct Hl as [l ->]. apply (H2 l Hw).
  - reflexivity.
  - destruct v as [| | | | | | |kvs]; auto. destruct (H kvs eq_refl) as (H1 & H2 & H3).
    rewrite dcall_passes; auto; [|intros w Hw; injection Hw as <-; exact H2]. simpl.
    assert (E : snd (keys_loop (call n) keys kvs []) = keys).
    { apply keys_loop_state. intros e x He Hx. apply IH.
      exact (fold_and_In (fun e => forall x, In (fst e, x) kvs -> no_checker_refuses (snd (snd e)) x) keys e H3 He x Hx). }
    destruct (keys_loop (call n) keys kvs []) as [r k']. simpl in *. subst. reflexivity.
  - assert (E : snd (union_loop (call n) ds v) = ds).
    { apply union_loop_state. intros d Hd. apply IH. exact (fold_and_In (fun d => no_checker_refuses d v) ds d H Hd). }
    destruct (union_loop (call n) ds v). simpl in *. subst. reflexivity.
Qed.

Lemma call_ok_still n : forall d v w, no_union d -> fst (call n d v) = Ok w -> snd (call n d v) = d.
Proof.
  induction n as [|n IH]; intros d v w Hu; [discriminate|].
  destruct d as [pre post maker|pre post maker m b|pre post td|f|pre post keys mapper|ds]; cbn [call no_union] in *.
  - destruct (descriptor_call pre post maker v) as [[r p] q] eqn:E. simpl. intros ->.
    apply dcall_ok in E. destruct E as (_ & _ & _ & -> & ->). reflexivity.
  - destruct (descriptor_call pre post maker v) as [[[x|e] p] q] eqn:E; [|discriminate].
    apply dcall_ok in E. destruct E as (_ & _ & _ & -> & ->). reflexivity.
  - destruct (descriptor_call pre post to_list v) as [[[x|e] p] q] eqn:E; [|discriminate].
    apply dcall_ok in E. destruct E as (_ & _ & _ & -> & ->).
    destruct x; try discriminate.
    pose proof (list_loop_ok_state (call n) td l []) as L.
    destruct (list_loop (call n) td l []) as [[ws|e] td']; [|discriminate]. simpl in *.
    intros _. rewrite (L ws); auto. intros x w' Hx. eapply IH; eauto.
  - reflexivity.
  - destruct v as [| | | | | | |kvs]; try discriminate.
    destruct (descriptor_call pre post Ok (CDict kvs)) as [[[x|e] p] q] eqn:E; [|discriminate].
    apply dcall_ok in E. destruct E as (_ & E & _ & -> & ->). injection E as <-.
    pose proof (keys_loop_ok_state (call n) keys kvs []) as L.
    destruct (keys_loop (call n) keys kvs []) as [[r|e] keys']; [|discriminate]. simpl in *.
    intros _. rewrite (L r); auto. intros e x w' He Hx. eapply IH; eauto.
    exact (fold_and_In (fun e => no_union (snd (snd e))) keys e Hu He).
  - contradiction.
Qed.

Lemma run_still n d vs :
  Forall (fun v => no_checker_refuses d v \/ (no_union d /\ accepted (fst (call n d v)))) vs ->
  call_run n d vs = (map (answer n d) vs, d).
Proof.
  induction 1 as [|v t Hv Ht IH]; simpl; auto.
  assert (E : snd (call n d v) = d).
  { destruct Hv as [Hv|[Hu [w Hw]]]; [apply call_still; exact Hv|eapply call_ok_still; eauto]. }
  unfold answer at 1. destruct (call n d v) as [r d']. simpl in *. subst d'. rewrite IH. reflexivity.
Qed.
Lemma run_until n d vs v :
  Forall (fun v => no_checker_refuses d v \/ (no_union d /\ accepted (fst (call n d v)))) vs ->
  fst (call_run n d (vs ++ [v])) = map (answer n d) (vs ++ [v]).
Proof.
  induction 1 as [|x t Hv Ht IH]; simpl.
  - unfold answer. destruct (call n d v). reflexivity.
  - assert (E : snd (call n d x) = d).
    { destruct Hv as [Hv|[Hu [w Hw]]]; [apply call_still; exact Hv|eapply call_ok_still; eauto]. }
    unfold answer at 1. destruct (call n d x) as [r d']. simpl in *. subst d'.
    destruct (call_run n d (t ++ [v])). simpl in *. congruence.
Qed.

(** ** List *)
Lemma list_answer n td v l :
  Forall (no_checker_refuses td) l \/ no_union td -> v = CList l \/ v = CTuple l ->
  fst (call (S n) (new_list td) v) =
  match in_order (answer n td) l with Ok ws => Ok (CList ws) | Err e => Err e end.
Proof.
  intros H Hv.
  assert (E : fst (call (S n) (new_list td) v) = match fst (list_loop (call n) td l []) with Ok ws => Ok (CList ws) | Err e => Err e end).
  { unfold new_list. destruct Hv; subst v; cbn -[list_loop]; destruct (list_loop (call n) td l []); reflexivity. }
  rewrite E, list_loop_still.
  - change (fun x => fst (call n td x)) with (answer n td). simpl. destruct (in_order (answer n td) l); reflexivity.
  - intros x Hx. destruct H as [H|H].
    + left. apply call_still. rewrite Forall_forall in H. auto.
    + destruct (fst (call n td x)) as [w|e] eqn:Ef; [left; eapply call_ok_still; eauto|right; eauto].
Qed.
Lemma list_refuses n td v : is_list_or_tuple v = false -> refused (fst (call (S n) (new_list td) v)).
Proof. destruct v; try discriminate; reflexivity. Qed.
Lemma in_order_ok {A B} (f : A -> res B) l ws : in_order f l = Ok ws <-> Forall2 (fun x w => f x = Ok w) l ws.
Proof.
  revert ws. induction l as [|x t IH]; intros ws; simpl.
  - split; intros H; [injection H as <-; constructor|inversion H; reflexivity].
  - destruct (f x) as [y|e] eqn:E.
    + destruct (in_order f t) as [ys|e] eqn:Et.
      * split; intros H.
        { injection H as <-. constructor; auto. apply IH. reflexivity. }
        { inversion H; subst. assert (Ok ys = Ok l') by (apply IH; assumption). congruence. }
      * split; intros H; [discriminate|]. inversion H; subst. apply IH in H4. discriminate.
    + split; intros H; [discriminate|]. inversion H; subst. congruence.
Qed.
Lemma list_iff n td v l w :
  Forall (no_checker_refuses td) l \/ no_union td -> v = CList l \/ v = CTuple l ->
  fst (call (S n) (new_list td) v) = Ok w <->
  exists ws, w = CList ws /\ Forall2 (fun x y => fst (call n td x) = Ok y) l ws.
Proof.
  intros H Hv. rewrite (list_answer n td v l H Hv). split.
  - destruct (in_order (answer n td) l) as [ws|e] eqn:E; [|discriminate]. intros Ew. exists ws. split; [congruence|].
    apply in_order_ok in E. exact E.
  - intros (ws & -> & F). apply (in_order_ok (answer n td)) in F. rewrite F. reflexivity.
Qed.

(** ** Depth and well-behaved descriptors *)
Definition max_depth (keys : list entry) : nat := fold_right Nat.max 0 (map (fun e => depth (snd (snd e))) keys).
Lemma list_loop_depth cl d l : (forall d x, depth (snd (cl d x)) = depth d) -> forall acc, depth (snd (list_loop cl d l acc)) = depth d.
Proof.
  intros H. revert d. induction l as [|x t IH]; intros d acc; simpl; auto.
  pose proof (H d x) as Hx. destruct (cl d x) as [[w|e] d']; simpl in *; auto. rewrite IH. exact Hx.
Qed.
Lemma keys_loop_depth cl : (forall d x, depth (snd (cl d x)) = depth d) -> forall keys value output,
  max_depth (snd (keys_loop cl keys value output)) = max_depth keys.
Proof.
  intros H. induction keys as [|[k [[o df] d]] t IH]; intros value output; simpl; auto.
  destruct (dget String.eqb value k) as [x|].
  - pose proof (H d x) as Hx. destruct (cl d x) as [[w|e] d']; simpl in Hx.
    + pose proof (IH (ddel String.eqb value k) (dset String.eqb output k w)) as I.
      destruct (keys_loop cl t (ddel String.eqb value k) (dset String.eqb output k w)). simpl in *.
      unfold max_depth in *. simpl. rewrite Hx, I. reflexivity.
    + unfold max_depth. simpl. rewrite Hx. reflexivity.
  - destruct o; auto.
    pose proof (IH value (dset String.eqb output k df)) as I.
    destruct (keys_loop cl t value (dset String.eqb output k df)). simpl in *. unfold max_depth in *. simpl. rewrite I. reflexivity.
Qed.
Lemma union_loop_depth cl v : (forall d x, depth (snd (cl d x)) = depth d) -> forall ds,
  fold_right Nat.max 0 (map depth (snd (union_loop cl ds v))) = fold_right Nat.max 0 (map depth ds).
Proof.
  intros H. induction ds as [|d t IH]; simpl; auto. pose proof (H d v) as Hd.
  destruct (cl d v) as [[w|e] d']; simpl in Hd.
  - simpl. rewrite Hd. reflexivity.
  - destruct e; try (simpl; rewrite Hd; reflexivity).
    destruct (union_loop cl t v). simpl in *. rewrite Hd, IH. reflexivity.
Qed.
Lemma call_depth n : forall d v, depth (snd (call n d v)) = depth d.
Proof.
  induction n as [|n IH]; intros d v; [reflexivity|].
  destruct d as [pre post maker|pre post maker m b|pre post td|f|pre post keys mapper|ds]; cbn [call].
  - destruct (descriptor_call pre post maker v) as [[r p] q]. reflexivity.
  - destruct (descriptor_call pre post maker v) as [[[x|e] p] q]; reflexivity.
  - destruct (descriptor_call pre post to_list v) as [[[x|e] p] q]; auto. destruct x; auto.
    pose proof (list_loop_depth (call n) td l IH []) as L. destruct (list_loop (call n) td l []). simpl in *. congruence.
  - reflexivity.
  - destruct v as [| | | | | | |kvs]; auto.
    destruct (descriptor_call pre post Ok (CDict kvs)) as [[[x|e] p] q]; auto. destruct x; auto.
    pose proof (keys_loop_depth (call n) IH keys d []) as L. destruct (keys_loop (call n) keys d []). simpl in *.
    unfold max_depth in L. congruence.
  - pose proof (union_loop_depth (call n) v IH ds) as L. destruct (union_loop (call n) ds v). simpl in *. congruence.
Qed.

Lemma list_loop_ext cl1 cl2 d l : (forall d', depth d' = depth d -> forall x, cl1 d' x = cl2 d' x) -> (forall d x, depth (snd (cl1 d x)) = depth d) ->
  forall acc, list_loop cl1 d l acc = list_loop cl2 d l acc.
Proof.
  intros H Hd. revert d H. induction l as [|x t IH]; intros d H acc; simpl; auto.
  rewrite <- (H d eq_refl x). pose proof (Hd d x) as Hx. destruct (cl1 d x) as [[w|e] d']; auto. simpl in Hx.
  apply IH. intros d'' E. apply H. congruence.
Qed.
Lemma keys_loop_ext cl1 cl2 : forall keys value output, (forall e, In e keys -> forall x, cl1 (snd (snd e)) x = cl2 (snd (snd e)) x) ->
  keys_loop cl1 keys value output = keys_loop cl2 keys value output.
Proof.
  induction keys as [|[k [[o df] d]] t IH]; intros value output H; simpl; auto.
  destruct (dget String.eqb value k) as [x|].
  - pose proof (H (k, (o, df, d)) (or_introl eq_refl) x) as Hx. simpl in Hx. rewrite <- Hx. destruct (cl1 d x) as [[w|e] d']; auto.
    rewrite IH; auto. intros e He. apply H. right. exact He.
  - destruct o; auto. rewrite IH; auto. intros e He. apply H. right. exact He.
Qed.
Lemma union_loop_ext cl1 cl2 v : forall ds, (forall d, In d ds -> cl1 d v = cl2 d v) -> union_loop cl1 ds v = union_loop cl2 ds v.
Proof.
  induction ds as [|d t IH]; intros H; simpl; auto. rewrite <- (H d (or_introl eq_refl)).
  destruct (cl1 d v) as [[w|e] d']; auto. destruct e; auto. rewrite IH; auto. intros; apply H; right; assumption.
Qed.
Lemma max_In {A} (f : A -> nat) l x n : fold_right Nat.max 0 (map f l) <= n -> In x l -> f x <= n.
Proof. induction l as [|h t IH]; simpl; [tauto|]. intros H [<-|Hi]; [lia|]. apply IH; auto; lia. Qed.

Lemma call_enough n : forall m d v, depth d <= n -> depth d <= m -> call n d v = call m d v.
Proof.
  induction n as [|n IH]; intros m d v Hn Hm; [destruct d; simpl in Hn; lia|].
  destruct m as [|m]; [destruct d; simpl in Hm; lia|].
  destruct d as [pre post maker|pre post maker mt b|pre post td|f|pre post keys mapper|ds]; cbn [call]; auto.
  - simpl in Hn, Hm. destruct (descriptor_call pre post to_list v) as [[[x|e] p] q]; auto. destruct x; auto.
    rewrite (list_loop_ext (call n) (call m)); auto; [|apply call_depth].
    intros d' E x. apply IH; lia.
  - simpl in Hn, Hm. destruct v as [| | | | | | |kvs]; auto.
    destruct (descriptor_call pre post Ok (CDict kvs)) as [[[x|e] p] q]; auto. destruct x; auto.
    rewrite (keys_loop_ext (call n) (call m)); auto.
    intros e He x. apply IH.
    + apply (max_In (fun e : entry => depth (snd (snd e))) keys); auto. lia.
    + apply (max_In (fun e : entry => depth (snd (snd e))) keys); auto. lia.
  - simpl in Hn, Hm. rewrite (union_loop_ext (call n) (call m)); auto.
    intros d Hd. apply IH; apply (max_In depth ds); auto; lia.
Qed.

Definition fine {A} (r : res A) : Prop := accepted r \/ refused r.
Lemma recast_err maker v e : complains_well maker -> recast (maker v) = Err e -> e = ConfigurationValidationError.
Proof.
  intros H. destruct (maker v) as [w|e'] eqn:E; simpl; [discriminate|].
  specialize (H v e' E). simpl in H. intuition; subst e'; congruence.
Qed.
Lemma dcall_fine pre post maker v r p q : complains_well maker -> descriptor_call pre post maker v = (r, p, q) -> fine r.
Proof.
  intros H E. destruct r as [w|e]; [left; exists w; reflexivity|right].
  unfold descriptor_call in E. destruct (check pre v) as [b p']. destruct b; [|unfold refused; congruence].
  destruct (maker v) as [x|e'] eqn:Em.
  - destruct (check post x) as [b q']. destruct b; unfold refused; congruence.
  - specialize (H v e' Em). simpl in H. unfold refused. intuition; subst e'; congruence.
Qed.
Lemma to_list_fine : complains_well to_list.
Proof. intros v e. destruct v; simpl; try discriminate; intros H; injection H as <-; auto. Qed.

Lemma list_loop_fine cl d l n : (forall d x, well_behaved d -> depth d <= n -> fine (fst (cl d x)) /\ well_behaved (snd (cl d x)) /\ depth (snd (cl d x)) = depth d) ->
  well_behaved d -> depth d <= n -> forall acc, fine (fst (list_loop cl d l acc)) /\ well_behaved (snd (list_loop cl d l acc)).
Proof.
  intros H. revert d. induction l as [|x t IH]; intros d Hw Hd acc; simpl.
  - split; auto. left. eexists. reflexivity.
  - destruct (H d x Hw Hd) as (H1 & H2 & H3). destruct (cl d x) as [[w|e] d']; simpl in *.
    + apply IH; auto. lia.
    + split; auto. right. unfold refused. destruct H1 as [[w E]|E]; [discriminate|]. injection E as ->. reflexivity.
Qed.
Definition keys_behave (keys : list entry) : Prop := fold_right and True (map (fun e => well_behaved (snd (snd e))) keys).
Lemma keys_loop_fine cl n : (forall d x, well_behaved d -> depth d <= n -> fine (fst (cl d x)) /\ well_behaved (snd (cl d x)) /\ depth (snd (cl d x)) = depth d) ->
  forall keys value output, keys_behave keys -> max_depth keys <= n ->
  fine (fst (keys_loop cl keys value output)) /\ keys_behave (snd (keys_loop cl keys value output)).
Proof.
  intros H. unfold keys_behave, max_depth. induction keys as [|[k [[o df] d]] t IH]; intros value output Hw Hd; simpl in *.
  - split; auto. left. eexists. reflexivity.
  - destruct Hw as [Hw Hwt]. destruct (dget String.eqb value k) as [x|].
    + destruct (H d x) as (H1 & H2 & H3); auto; [lia|]. destruct (cl d x) as [[w|e] d']; simpl in *.
      * destruct (IH (ddel String.eqb value k) (dset String.eqb output k w)) as [I1 I2]; auto; [lia|].
        destruct (keys_loop cl t (ddel String.eqb value k) (dset String.eqb output k w)). simpl in *. auto.
      * split; auto. right. unfold refused. destruct H1 as [[w E]|E]; [discriminate|]. injection E as ->. reflexivity.
    + destruct o; simpl.
      * destruct (IH value (dset String.eqb output k df)) as [I1 I2]; auto; [lia|].
        destruct (keys_loop cl t value (dset String.eqb output k df)). simpl in *. auto.
      * split; auto. right. reflexivity.
Qed.
Lemma unknown_loop_fine mapper : (forall k v e, mapper k v = Err e -> e = ConfigurationValidationError) -> forall value output,
  fine (unknown_loop mapper value output).
Proof.
  intros H. induction value as [|[k v] t IH]; intros output; simpl.
  - left. eexists. reflexivity.
  - destruct (mapper k v) as [w|e] eqn:E; auto. right. unfold refused. rewrite (H _ _ _ E). reflexivity.
Qed.
Lemma union_loop_fine cl v n : (forall d x, well_behaved d -> depth d <= n -> fine (fst (cl d x)) /\ well_behaved (snd (cl d x)) /\ depth (snd (cl d x)) = depth d) ->
  forall ds, fold_right and True (map well_behaved ds) -> fold_right Nat.max 0 (map depth ds) <= n ->
  fine (fst (union_loop cl ds v)) /\ fold_right and True (map well_behaved (snd (union_loop cl ds v))).
Proof.
  intros H. induction ds as [|d t IH]; intros Hw Hd; simpl in *.
  - split; auto. right. reflexivity.
  - destruct Hw as [Hw Hwt]. destruct (H d v) as (H1 & H2 & H3); auto; [lia|].
    destruct (cl d v) as [[w|e] d']; simpl in *.
    + split; auto.
    + destruct H1 as [[w E]|E]; [discriminate|]. injection E as ->.
      destruct IH as [I1 I2]; auto; [lia|]. destruct (union_loop cl t v). simpl in *. auto.
Qed.

Lemma call_fine n : forall d v, well_behaved d -> depth d <= n ->
  fine (fst (call n d v)) /\ well_behaved (snd (call n d v)) /\ depth (snd (call n d v)) = depth d.
Proof.
  induction n as [|n IH]; intros d v Hw Hd; [destruct d; simpl in Hd; lia|].
  cut (fine (fst (call (S n) d v)) /\ well_behaved (snd (call (S n) d v))).
  { intros [H1 H2]. split; auto. split; auto. apply call_depth. }
  destruct d as [pre post maker|pre post maker mt b|pre post td|f|pre post keys mapper|ds]; cbn [call well_behaved] in *.
  - destruct (descriptor_call pre post maker v) as [[r p] q] eqn:E. simpl. split; auto. eapply dcall_fine; eauto.
  - destruct Hw as [Hw ->]. destruct (descriptor_call pre post maker v) as [[[x|e] p] q] eqn:E; simpl.
    + split; auto. destruct (mt x); [left; eexists; reflexivity|right; reflexivity].
    + split; auto. eapply dcall_fine; eauto.
  - destruct (descriptor_call pre post to_list v) as [[[x|e] p] q] eqn:E; simpl.
    + pose proof E as E2. apply dcall_ok in E2. destruct E2 as (_ & E2 & _).
      assert (Hl : exists l, x = CList l) by (destruct v; simpl in E2; try discriminate; injection E2 as <-; eauto).
      destruct Hl as [l ->].
      destruct (list_loop_fine (call n) td l n IH Hw) with (acc := @nil cv) as [L1 L2]; [simpl in Hd; lia|].
      destruct (list_loop (call n) td l []) as [[ws|e] td']; simpl in *; split; auto.
      * left. eexists. reflexivity.
      * right. unfold refused. destruct L1 as [[w0 E0]|E0]; [discriminate|]. injection E0 as ->. reflexivity.
    + split; auto. eapply dcall_fine; eauto. apply to_list_fine.
  - simpl. split; auto. destruct (f v) as [w|e] eqn:E; [left; eexists; reflexivity|].
    specialize (Hw v e E). simpl in Hw. right. intuition; subst e; reflexivity.
  - destruct Hw as [Hm Hk]. destruct v as [| | | | | | |kvs]; try (split; [right; reflexivity|split; assumption]).
    destruct (descriptor_call pre post Ok (CDict kvs)) as [[[x|e] p] q] eqn:E.
    + apply dcall_ok in E. destruct E as (_ & E & _). injection E as <-.
      destruct (keys_loop_fine (call n) n IH keys kvs [] Hk) as [L1 L2]; [simpl in Hd; unfold max_depth; lia|].
      destruct (keys_loop (call n) keys kvs []) as [[[value' output]|e] keys']; simpl in *; split; auto.
      * destruct (unknown_loop_fine mapper Hm value' output) as [[o E]|E]; rewrite E; [left; eexists; reflexivity|right; reflexivity].
      * right. unfold refused. destruct L1 as [[w0 E0]|E0]; [discriminate|]. injection E0 as ->. reflexivity.
    + simpl. split; auto. eapply dcall_fine; eauto. intros v0 e0 E0. discriminate.
  - destruct (union_loop_fine (call n) v n IH ds Hw) as [L1 L2]; [simpl in Hd; lia|].
    destruct (union_loop (call n) ds v). simpl in *. auto.
Qed.
