From Coq Require Import String Ascii.
From Verif Require Import Prelude PreludeFacts Values_Model Values_Spec.

(** induction over values *)
Section PyvInd.
  Variable P : pyv -> Prop.
  Hypothesis HNone : P PNone.
  Hypothesis HBool : forall b, P (PBool b).
  Hypothesis HInt : forall z, P (PInt z).
  Hypothesis HStr : forall s, P (PStr s).
  Hypothesis HBytes : forall l, P (PBytes l).
  Hypothesis HEnum : forall c n v, P v -> P (PEnum c n v).
  Hypothesis HList : forall l, Forall P l -> P (PList l).
  Hypothesis HTuple : forall l, Forall P l -> P (PTuple l).
  Hypothesis HSet : forall f l, Forall P l -> P (PSet f l).
  Hypothesis HDict : forall items, Forall (fun kv => P (fst kv) /\ P (snd kv)) items -> P (PDict items).
  Hypothesis HIter : forall l, Forall P l -> P (PIter l).
  Hypothesis HJson : forall i j, P j -> P (PJson i j).
  Hypothesis HObj : forall i s r, P (PObj i s r).
  Fixpoint pyv_rect' (v : pyv) : P v :=
    let all := fix all (l : list pyv) : Forall P l := match l with [] => Forall_nil _ | x :: r => Forall_cons _ (pyv_rect' x) (all r) end in
    match v with
    | PNone => HNone | PBool b => HBool b | PInt z => HInt z | PStr s => HStr s | PBytes l => HBytes l
    | PEnum c n v => HEnum c n v (pyv_rect' v)
    | PList l => HList l (all l) | PTuple l => HTuple l (all l) | PSet f l => HSet f l (all l) | PIter l => HIter l (all l)
    | PDict items => HDict items ((fix go (l : list (pyv * pyv)) : Forall (fun kv => P (fst kv) /\ P (snd kv)) l :=
        match l with [] => Forall_nil _ | x :: r => Forall_cons _ (conj (pyv_rect' (fst x)) (pyv_rect' (snd x))) (go r) end) items)
    | PJson i j => HJson i j (pyv_rect' j)
    | PObj i s r => HObj i s r
    end.
End PyvInd.

(** the loop of jsonify over a mapping *)
Fixpoint jgo (d : list (pyv * pyv)) (items : list (pyv * pyv)) : res pyv :=
  match items with
  | [] => Ok (PDict d)
  | (k, v) :: rest => match jsonify v with Err e => Err e | Ok v' => match jsonify k with Err e => Err e | Ok k' => match py_set d k' v' with Err e => Err e | Ok d' => jgo d' rest end end end
  end.
Lemma jsonify_dict items : jsonify (PDict items) = jgo [] items.
Proof. simpl. generalize (@nil (pyv * pyv)). induction items as [|[k v] rest IH]; intros d; simpl; auto. Qed.

Lemma collect_Forall2 {A B} (f : A -> res B) (R : A -> B -> Prop) l r : collect f l = Ok r -> Forall (fun a => forall b, f a = Ok b -> R a b) l -> Forall2 R l r.
Proof.
  revert r. induction l as [|a l IH]; simpl; intros r E H; [injection E as <-; constructor|]. inversion H; subst. destruct (f a) as [b|] eqn:Ea; [|discriminate]. destruct (collect f l) as [r'|]; [|discriminate]. injection E as <-.
  constructor; auto.
Qed.
Lemma collect_total {A B} (f : A -> res B) (Q : B -> Prop) l : Forall (fun a => exists b, f a = Ok b /\ Q b) l -> exists r, collect f l = Ok r /\ Forall Q r.
Proof.
  induction 1 as [|a l (b & E & K) H IH]; simpl; [exists []; auto|]. destruct IH as (r & E2 & K2). rewrite E, E2. exists (b :: r). auto.
Qed.
Lemma collect_id {A} (f : A -> res A) l : Forall (fun a => f a = Ok a) l -> collect f l = Ok l.
Proof. induction 1 as [|a l E H IH]; simpl; auto. rewrite E, IH. auto. Qed.
Lemma res_map_ok {A B} (f : A -> B) r b : res_map f r = Ok b -> exists a, r = Ok a /\ b = f a.
Proof. destruct r; simpl; intros E; [injection E as <-; eauto|discriminate]. Qed.

(** dset with an equality of which nothing is known *)
Lemma dset_In {K V} (eqb : K -> K -> bool) d k (v : V) k' v' : In (k', v') (dset eqb d k v) -> (In (k', v') d) \/ (v' = v /\ (k' = k \/ eqb k' k = true)).
Proof.
  induction d as [|[a b] d IH]; simpl; [intros [E|[]]; injection E as <- <-; auto|]. destruct (eqb a k) eqn:Ea; simpl; intros [E|H]; try (injection E as <- <-); auto. destruct (IH H); auto.
Qed.
Lemma dset_keeps {K V} (eqb : K -> K -> bool) d k (v : V) k' v' : In (k', v') d -> exists w, In (k', w) (dset eqb d k v).
Proof.
  induction d as [|[a b] d IH]; simpl; [intros []|]. destruct (eqb a k) eqn:Ea; simpl; intros [E|H]; try (injection E as <- <-); eauto. destruct (IH H) as (w & K'); eauto.
Qed.
Lemma dset_has {K V} (eqb : K -> K -> bool) d k (v : V) : exists k', In (k', v) (dset eqb d k v) /\ (k' = k \/ eqb k' k = true).
Proof. induction d as [|[a b] d IH]; simpl; eauto. destruct (eqb a k) eqn:Ea; simpl; eauto. destruct IH as (k' & H1 & H2). eauto. Qed.
Lemma dset_fresh {K V} (eqb : K -> K -> bool) d k (v : V) : Forall (fun kv => eqb (fst kv) k = false) d -> dset eqb d k v = d ++ [(k, v)].
Proof. induction 1 as [|[a b] d E H IH]; simpl in *; auto. rewrite E, IH. auto. Qed.
Lemma dset_dec {K V} (eqb : K -> K -> bool) d k (v : V) : (Forall (fun kv => eqb (fst kv) k = false) d /\ dset eqb d k v = d ++ [(k, v)]) \/ map fst (dset eqb d k v) = map fst d.
Proof.
  induction d as [|[a b] d IH]; simpl; [left; auto|]. destruct (eqb a k) eqn:Ea; simpl; [auto|]. destruct IH as [[H1 H2]|H]; [left|right; congruence]. rewrite H2. split; auto.
Qed.
Lemma FOP_snoc {A} (R : A -> A -> Prop) l x : ForallOrdPairs R l -> Forall (fun a => R a x) l -> ForallOrdPairs R (l ++ [x]).
Proof.
  induction 1 as [|a l Ha Hl IH]; simpl; intros H; [constructor; constructor|]. inversion H; subst. constructor; auto. apply Forall_app. auto.
Qed.
Lemma dset_distinct d k v : distinct_keys d -> distinct_keys (dset py_eq d k v).
Proof.
  intros H. unfold distinct_keys in *. destruct (dset_dec py_eq d k v) as [[H1 H2]|H1]; [|rewrite H1; auto]. rewrite H2, map_app. simpl. apply FOP_snoc; auto. apply Forall_map. auto.
Qed.
Lemma dset_Forall {K V} (eqb : K -> K -> bool) (Q : K -> Prop) (R : V -> Prop) d k v : Forall (fun kv => Q (fst kv)) d -> Forall (fun kv => R (snd kv)) d -> Q k -> R v ->
  Forall (fun kv => Q (fst kv)) (dset eqb d k v) /\ Forall (fun kv => R (snd kv)) (dset eqb d k v).
Proof.
  intros H1 H2 Hk Hv. induction d as [|[a b] d IH]; simpl; [repeat constructor; auto|]. inversion H1; inversion H2; subst. destruct (eqb a k); [split; constructor; auto|]. destruct (IH H4 H8). split; constructor; auto.
Qed.

(** ** jsonify *)
Lemma jgo_stands items : Forall (fun kv => (forall j, jsonify (fst kv) = Ok j -> stands_for (fst kv) j) /\ (forall j, jsonify (snd kv) = Ok j -> stands_for (snd kv) j)) items ->
  forall all done d j, all = done ++ items ->
  (forall k' v', In (k', v') d -> exists k v k0, In (k, v) done /\ stands_for k k0 /\ (k' = k0 \/ py_eq k' k0 = true) /\ stands_for v v') ->
  (forall k v, In (k, v) done -> exists k' v' k0, In (k', v') d /\ stands_for k k0 /\ (k' = k0 \/ py_eq k' k0 = true)) ->
  jgo d items = Ok j -> stands_for (PDict all) j.
Proof.
  induction 1 as [|[k v] items [Hk Hv] H IH]; intros all done d j Hall D1 D2 E; simpl in E.
  - injection E as <-. rewrite app_nil_r in Hall. subst all. apply st_dict; auto.
  - simpl in Hk, Hv. destruct (jsonify v) as [v'|] eqn:Ev; [|discriminate]. destruct (jsonify k) as [k'|] eqn:Ek; [|discriminate]. unfold py_set in E. destruct (hashable k'); [|discriminate].
    eapply (IH all (done ++ [(k, v)])); [rewrite <- app_assoc; exact Hall| | |exact E].
    + intros a b Hab. apply dset_In in Hab. destruct Hab as [Hab|[-> Hab]].
      * destruct (D1 a b Hab) as (x & y & z & K1 & K2). exists x, y, z. split; auto. apply in_or_app; auto.
      * exists k, v, k'. split; [apply in_or_app; right; left; auto|]. split; [apply Hk; reflexivity|]. split; auto.
    + intros a b Hab. apply in_app_or in Hab. destruct Hab as [Hab|[Hab|[]]].
      * destruct (D2 a b Hab) as (x & y & z & K1 & K2). destruct (dset_keeps py_eq d k' v' x y K1) as (w & K3). exists x, w, z. auto.
      * injection Hab as <- <-. destruct (dset_has py_eq d k' v') as (x & K1 & K2). exists x, v', k'. split; [auto|split; [apply Hk; reflexivity|auto]].
Qed.
Lemma jsonify_stands v : forall j, jsonify v = Ok j -> stands_for v j.
Proof.
  induction v using pyv_rect'; intros j' E; try (simpl in E; injection E as <-; constructor; exact I).
  - simpl in E. apply res_map_ok in E. destruct E as (r & E & ->). eapply st_list; [left; reflexivity|]. eapply collect_Forall2; eauto.
  - simpl in E. apply res_map_ok in E. destruct E as (r & E & ->). eapply st_list; [right; left; reflexivity|]. eapply collect_Forall2; eauto.
  - simpl in E. apply res_map_ok in E. destruct E as (r & E & ->). eapply st_list; [destruct f; [do 2 right; left; reflexivity|do 3 right; left; reflexivity]|]. eapply collect_Forall2; eauto.
  - rewrite jsonify_dict in E. eapply (jgo_stands items H items [] []); eauto; simpl; contradiction.
  - simpl in E. apply res_map_ok in E. destruct E as (r & E & ->). eapply st_list; [do 4 right; left; reflexivity|]. eapply collect_Forall2; eauto.
  - constructor. auto.
  - simpl in E. destruct s as [s|e]; [injection E as <-; constructor|]. destruct e; try discriminate. apply res_map_ok in E. destruct E as (x & -> & ->). constructor.
Qed.

Lemma json_key_hashable k : json_key k -> hashable k = true.
Proof. destruct k; simpl; tauto. Qed.
Lemma json_key_jsonify k : json_key k -> jsonify k = Ok k.
Proof. destruct k; simpl; tauto. Qed.
Lemma simple_key_total k : simple_key k -> exists k', jsonify k = Ok k' /\ json_key k'.
Proof.
  induction 1 as [v H|c n v H|i j H IH|i s r H]; simpl; eauto.
  - exists v. split; auto using json_key_jsonify.
  - destruct H as [[x ->]|[-> [x ->]]]; simpl; exists (PStr x); split; auto; exact I.
Qed.
Lemma jgo_total items : Forall (fun kv => simple_key (fst kv) /\ exists j, jsonify (snd kv) = Ok j /\ json_value j) items ->
  forall d, Forall (fun kv => json_key (fst kv)) d -> Forall (fun kv => json_value (snd kv)) d -> distinct_keys d -> exists j, jgo d items = Ok j /\ json_value j.
Proof.
  induction 1 as [|[k v] items [Hk (v' & Ev & Jv)] H IH]; intros d D1 D2 D3; simpl in *; [exists (PDict d); split; auto; apply json_dict; auto|].
  destruct (simple_key_total k Hk) as (k' & Ek & Jk). rewrite Ev, Ek. unfold py_set. rewrite json_key_hashable by auto.
  destruct (dset_Forall py_eq json_key json_value d k' v' D1 D2 Jk Jv) as [K1 K2]. apply IH; auto using dset_distinct.
Qed.
Lemma jsonify_total v : printable v -> exists j, jsonify v = Ok j /\ json_value j.
Proof.
  induction v using pyv_rect'; intros HP.
  - exists PNone. split; auto. repeat constructor.
  - exists (PBool b). split; auto. repeat constructor.
  - exists (PInt z). split; auto. repeat constructor.
  - exists (PStr s). split; auto. repeat constructor.
  - exists (PList (map PInt l)). split; auto. apply json_list. apply Forall_map, Forall_forall. intros. repeat constructor.
  - inversion HP; subst; simpl in *; try contradiction; eauto. exfalso. intuition discriminate.
  - assert (Forall printable l) as Hl by (inversion HP as [? K| | |? ? K| | |]; subst; simpl in K; [contradiction|]; intuition congruence).
    destruct (collect_total jsonify json_value l) as (r & E & K); [|exists (PList r); simpl; rewrite E; split; auto; apply json_list; auto].
    rewrite Forall_forall in *. intros x Hx. apply H; auto.
  - assert (Forall printable l) as Hl by (inversion HP as [? K| | |? ? K| | |]; subst; simpl in K; [contradiction|]; intuition congruence).
    destruct (collect_total jsonify json_value l) as (r & E & K); [|exists (PList r); simpl; rewrite E; split; auto; apply json_list; auto].
    rewrite Forall_forall in *. intros x Hx. apply H; auto.
  - assert (Forall printable l) as Hl by (inversion HP as [? K| | |? ? K| | |]; subst; simpl in K; [contradiction|]; intuition congruence).
    destruct (collect_total jsonify json_value l) as (r & E & K); [|exists (PList r); simpl; rewrite E; split; auto; apply json_list; auto].
    rewrite Forall_forall in *. intros x Hx. apply H; auto.
  - assert (Forall (fun kv => simple_key (fst kv)) items /\ Forall (fun kv => printable (snd kv)) items) as [H1 H2].
    { inversion HP as [? K| | |? ? K| | |]; subst; auto; simpl in K; [contradiction|]. exfalso. intuition discriminate. }
    rewrite jsonify_dict. apply jgo_total; try constructor. rewrite Forall_forall in *. intros kv Hkv. split; auto. apply H; auto.
  - assert (Forall printable l) as Hl by (inversion HP as [? K| | |? ? K| | |]; subst; simpl in K; [contradiction|]; intuition congruence).
    destruct (collect_total jsonify json_value l) as (r & E & K); [|exists (PList r); simpl; rewrite E; split; auto; apply json_list; auto].
    rewrite Forall_forall in *. intros x Hx. apply H; auto.
  - inversion HP as [? K| | |? ? K| | |]; subst; simpl in *; auto; [contradiction|]. exfalso. intuition discriminate.
  - assert ((exists x, s = Ok x) \/ (s = Err TypeError /\ exists x, r = Ok x)) as Hs.
    { inversion HP as [? K| | |? ? K| | |]; subst; simpl in *; auto; [contradiction|]. exfalso. intuition discriminate. }
    destruct Hs as [[x ->]|[-> [x ->]]]; exists (PStr x); split; auto; repeat constructor.
Qed.
Lemma jgo_id items : forall d, Forall (fun kv => json_key (fst kv)) items -> Forall (fun kv => jsonify (snd kv) = Ok (snd kv)) items -> distinct_keys (d ++ items) -> jgo d items = Ok (PDict (d ++ items)).
Proof.
  induction items as [|[k v] items IH]; intros d H1 H2 H3; simpl; [rewrite app_nil_r; auto|]. inversion H1 as [|? ? A1 A2]; inversion H2 as [|? ? B1 B2]; subst. simpl in *.
  rewrite B1, json_key_jsonify by auto. unfold py_set. rewrite json_key_hashable by auto. rewrite dset_fresh.
  - rewrite IH; auto; rewrite <- app_assoc; auto.
  - clear -H3. unfold distinct_keys in H3. rewrite map_app in H3. simpl in H3. induction d as [|[a b] d IHd]; constructor; simpl in *; inversion H3; subst.
    + rewrite Forall_app in H1. destruct H1 as [_ K]. inversion K; auto.
    + auto.
Qed.
Lemma jsonify_id v : json_value v -> jsonify v = Ok v.
Proof.
  induction v using pyv_rect'; intros HJ; try reflexivity; inversion HJ as [? K|? K|? K1 K2 K3]; subst; simpl in *; try contradiction.
  - rewrite collect_id; auto. rewrite Forall_forall in *. auto.
  - etransitivity; [exact (jsonify_dict items)|]. rewrite jgo_id; auto. rewrite Forall_forall in *. intros kv Hkv. apply H; auto.
Qed.

(** ** stringify *)
Section StringifyProofs.
  Variable sf : pyv -> res string.
  Lemma as_string_ok v j : as_string sf v = Ok j -> exists s, j = PStr s.
  Proof. intros E. apply res_map_ok in E. destruct E as (s & _ & ->). eauto. Qed.
  Lemma dict_comp_inv (Q : pyv -> Prop) f items : Forall (fun kv => (forall j, f (fst kv) = Ok j -> Q j) /\ (forall j, f (snd kv) = Ok j -> Q j)) items ->
    forall d j, Forall (fun kv => Q (fst kv) /\ hashable (fst kv) = true /\ Q (snd kv)) d -> distinct_keys d -> dict_comp f d items = Ok j ->
    exists d', j = PDict d' /\ Forall (fun kv => Q (fst kv) /\ hashable (fst kv) = true /\ Q (snd kv)) d' /\ distinct_keys d'.
  Proof.
    induction 1 as [|[k v] items [Hk Hv] H IH]; intros d j D1 D2 E; simpl in E; [injection E as <-; eauto|]. simpl in Hk, Hv.
    destruct (f k) as [k'|]; [|discriminate]. destruct (f v) as [v'|]; [|discriminate]. unfold py_set in E. destruct (hashable k') eqn:Eh; [|discriminate].
    eapply IH; [| |exact E]; auto using dset_distinct.
    assert (Forall (fun kv => Q (fst kv) /\ hashable (fst kv) = true) d /\ Forall (fun kv => Q (snd kv)) d) as [A1 A2] by (split; eapply Forall_impl; try exact D1; simpl; tauto).
    destruct (dset_Forall py_eq (fun k => Q k /\ hashable k = true) Q d k' v' A1 A2 (conj (Hk _ eq_refl) Eh) (Hv _ eq_refl)) as [B1 B2].
    rewrite Forall_forall in *. intros kv Hkv. specialize (B1 kv Hkv). specialize (B2 kv Hkv). tauto.
  Qed.
  Lemma stringify_rec_strings none v : forall j, stringify_rec sf none v = Ok j -> only_strings (negb none) j.
  Proof.
    induction v using pyv_rect'; intros j' E; simpl in E; try (apply as_string_ok in E; destruct E as (x & ->); constructor).
    - destruct none; [apply as_string_ok in E; destruct E as (x & ->); constructor|injection E as <-; constructor; auto].
    - injection E as <-. constructor.
    - apply res_map_ok in E. destruct E as (r & E & ->). constructor. assert (Forall2 (fun _ b => only_strings (negb none) b) (map PInt l) r) as K.
      { eapply collect_Forall2; eauto. apply Forall_forall. intros a Ha b Eb. apply as_string_ok in Eb. destruct Eb as (x & ->). constructor. }
      clear E. induction K; constructor; auto.
    - injection E as <-. constructor.
    - apply res_map_ok in E. destruct E as (r & E & ->). constructor. eapply collect_Forall2 in E; [|exact H]. simpl in E. clear H. induction E; constructor; auto.
    - apply res_map_ok in E. destruct E as (r & E & ->). constructor. eapply collect_Forall2 in E; [|exact H]. simpl in E. clear H. induction E; constructor; auto.
    - destruct (dict_comp_inv (only_strings (negb none)) (stringify_rec sf none) items) with (d := @nil (pyv * pyv)) (j := j') as (d' & -> & K1 & K2); auto; try constructor; auto.
  Qed.
  Lemma dict_comp_id f items : forall d, Forall (fun kv => f (fst kv) = Ok (fst kv) /\ hashable (fst kv) = true /\ f (snd kv) = Ok (snd kv)) items -> distinct_keys (d ++ items) ->
    dict_comp f d items = Ok (PDict (d ++ items)).
  Proof.
    induction items as [|[k v] items IH]; intros d H1 H3; simpl; [rewrite app_nil_r; auto|]. inversion H1 as [|? ? (E1 & E2 & E3) H2]; subst. simpl in *.
    rewrite E1, E3. unfold py_set. rewrite E2. rewrite dset_fresh.
    - rewrite IH; auto; rewrite <- app_assoc; auto.
    - clear -H3. unfold distinct_keys in H3. rewrite map_app in H3. simpl in H3. induction d as [|[a b] d IHd]; constructor; simpl in *; inversion H3; subst.
      + rewrite Forall_app in H1. destruct H1 as [_ K]. inversion K; auto.
      + auto.
  Qed.
  Lemma stringify_rec_id none v : only_strings (negb none) v -> stringify_rec sf none v = Ok v.
  Proof.
    induction v using pyv_rect'; intros HJ; inversion HJ as [?|K|? K|? K1 K2]; subst; simpl in *; auto.
    - destruct none; simpl in *; [discriminate|auto].
    - rewrite collect_id; auto. rewrite Forall_forall in *. auto.
    - rewrite dict_comp_id; auto. rewrite Forall_forall in *. intros kv Hkv. destruct (K1 kv Hkv) as (A1 & A2 & A3). destruct (H kv Hkv) as [B1 B2]. auto.
  Qed.
  Lemma stringify_flat v none j : stringify sf false none v = Ok j ->
    (exists s, j = PStr s) \/ (j = PNone /\ v = PNone /\ none = false) \/ (exists l, j = PList (map PStr l)) \/ (exists l, j = PDict l /\ Forall (fun kv => exists s t, kv = (PStr s, PStr t)) l).
  Proof.
    assert (forall l r, collect (as_string sf) l = Ok r -> exists ss, r = map PStr ss) as Hc.
    { intros l. induction l as [|a l IH]; simpl; intros r E; [injection E as <-; exists []; auto|]. destruct (as_string sf a) as [x|] eqn:Ea; [|discriminate]. apply as_string_ok in Ea. destruct Ea as (s & ->).
      destruct (collect (as_string sf) l) as [r'|]; [|discriminate]. injection E as <-. destruct (IH r' eq_refl) as (ss & ->). exists (s :: ss). auto. }
    unfold stringify. intros E. destruct v; try (apply as_string_ok in E; auto; fail); try (injection E as <-; eauto; fail).
    - destruct none; [apply as_string_ok in E; auto|injection E as <-; auto].
    - apply res_map_ok in E. destruct E as (r & E & ->). destruct (Hc _ _ E) as (ss & ->). eauto.
    - apply res_map_ok in E. destruct E as (r & E & ->). destruct (Hc _ _ E) as (ss & ->). eauto.
    - apply res_map_ok in E. destruct E as (r & E & ->). destruct (Hc _ _ E) as (ss & ->). eauto.
    - right. right. right. destruct (dict_comp_inv (fun v => exists s, v = PStr s) (as_string sf) items) with (d := @nil (pyv * pyv)) (j := j) as (d' & -> & K1 & K2); auto; try constructor.
      + apply Forall_forall. intros kv _. split; intros x Ex; apply as_string_ok in Ex; auto.
      + exists d'. split; auto. eapply Forall_impl; [|exact K1]. intros [k v] ((s & Hs) & _ & (t & Ht)). simpl in *. subst. eauto.
  Qed.
End StringifyProofs.
Section Spell.
  Variable sf : pyv -> res string.
  Variable none : bool.
  Lemma dict_comp_spelled items : Forall (fun kv => (forall j, stringify_rec sf none (fst kv) = Ok j -> spelled sf none (fst kv) j) /\ (forall j, stringify_rec sf none (snd kv) = Ok j -> spelled sf none (snd kv) j)) items ->
    forall all done d j, all = done ++ items ->
    (forall k' v', In (k', v') d -> exists k v k0, In (k, v) done /\ spelled sf none k k0 /\ (k' = k0 \/ py_eq k' k0 = true) /\ spelled sf none v v') ->
    (forall k v, In (k, v) done -> exists k' v' k0, In (k', v') d /\ spelled sf none k k0 /\ (k' = k0 \/ py_eq k' k0 = true)) ->
    dict_comp (stringify_rec sf none) d items = Ok j -> spelled sf none (PDict all) j.
  Proof.
    induction 1 as [|[k v] items [Hk Hv] H IH]; intros all done d j Hall D1 D2 E; simpl in E.
    - injection E as <-. rewrite app_nil_r in Hall. subst all. apply sp_dict; auto.
    - simpl in Hk, Hv. destruct (stringify_rec sf none k) as [k'|] eqn:Ek; [|discriminate]. destruct (stringify_rec sf none v) as [v'|] eqn:Ev; [|discriminate]. unfold py_set in E. destruct (hashable k'); [|discriminate].
      eapply (IH all (done ++ [(k, v)])); [rewrite <- app_assoc; exact Hall| | |exact E].
      + intros a b Hab. apply dset_In in Hab. destruct Hab as [Hab|[-> Hab]].
        * destruct (D1 a b Hab) as (x & y & z & K1 & K2). exists x, y, z. split; auto. apply in_or_app; auto.
        * exists k, v, k'. split; [apply in_or_app; right; left; auto|]. split; [apply Hk; reflexivity|]. split; auto.
      + intros a b Hab. apply in_app_or in Hab. destruct Hab as [Hab|[Hab|[]]].
        * destruct (D2 a b Hab) as (x & y & z & K1 & K2). destruct (dset_keeps py_eq d k' v' x y K1) as (w & K3). exists x, w, z. auto.
        * injection Hab as <- <-. destruct (dset_has py_eq d k' v') as (x & K1 & K2). exists x, v', k'. split; [auto|split; [apply Hk; reflexivity|auto]].
  Qed.
  Lemma as_string_eq v j : as_string sf v = Ok j -> exists s, sf v = Ok s /\ j = PStr s.
  Proof. intros E. apply res_map_ok in E. destruct E as (s & E & ->). eauto. Qed.
  Lemma stringify_spelled v : forall j, stringify_rec sf none v = Ok j -> spelled sf none v j.
  Proof.
    induction v using pyv_rect'; intros j' E; simpl in E; try (apply as_string_eq in E; destruct E as (x & E & ->); apply sp_other; auto; exact I).
    - destruct none eqn:En; [apply as_string_eq in E; destruct E as (x & E & ->); apply sp_str_none; auto|injection E as <-; apply sp_none; auto].
    - injection E as <-. constructor.
    - apply res_map_ok in E. destruct E as (r & E & ->). assert (exists l', r = map PStr l' /\ Forall2 (fun z s => sf (PInt z) = Ok s) l l') as (l' & -> & K); [|apply sp_bytes; auto].
      revert r E. induction l as [|z l IH]; simpl; intros r E; [injection E as <-; exists []; auto|]. destruct (as_string sf (PInt z)) as [x|] eqn:Ez; [|discriminate]. apply as_string_eq in Ez. destruct Ez as (s & Ez & ->).
      destruct (collect (as_string sf) (map PInt l)) as [r'|]; [|discriminate]. injection E as <-. destruct (IH r' eq_refl) as (l' & -> & K). exists (s :: l'). auto.
    - injection E as <-. constructor.
    - apply res_map_ok in E. destruct E as (r & E & ->). eapply sp_list; [left; reflexivity|]. eapply collect_Forall2; eauto.
    - apply res_map_ok in E. destruct E as (r & E & ->). eapply sp_list; [right; left; reflexivity|]. eapply collect_Forall2; eauto.
    - eapply (dict_comp_spelled items H items [] []); eauto; simpl; contradiction.
  Qed.
End Spell.

(** ** assert_equal *)
Lemma forall2b_length {A B} (f : A -> B -> bool) l m : forall2b f l m = true -> length l = length m.
Proof. revert m. induction l as [|a l IH]; intros [|b m]; simpl; try discriminate; auto. intros H. apply andb_prop in H. f_equal. apply IH. tauto. Qed.
Lemma forall2b_sym (f g : pyv -> pyv -> bool) l : Forall (fun a => forall b, f a b = g b a) l -> forall m, forall2b f l m = forall2b g m l.
Proof. induction 1 as [|a l Ha H IH]; intros [|b m]; simpl; auto. rewrite Ha, IH. auto. Qed.
Lemma Zforall2b_sym l : forall m, forall2b Z.eqb l m = forall2b Z.eqb m l.
Proof. induction l as [|a l IH]; intros [|b m]; simpl; auto. rewrite Z.eqb_sym, IH. auto. Qed.
Lemma Zforall2b_eq l : forall m, forall2b Z.eqb l m = true -> l = m.
Proof. induction l as [|a l IH]; intros [|b m]; simpl; try discriminate; auto. intros H. apply andb_prop in H. destruct H as [H1 H2]. apply Z.eqb_eq in H1. f_equal; auto. Qed.
Lemma py_eq_sym v : plain v = true -> forall w, py_eq v w = py_eq w v.
Proof.
  induction v using pyv_rect'; intros HP w; simpl in HP; try discriminate.
  - destruct w; reflexivity.
  - destruct w; simpl; try reflexivity; apply Z.eqb_sym.
  - destruct w; simpl; try reflexivity; apply Z.eqb_sym.
  - destruct w; simpl; try reflexivity. apply String.eqb_sym.
  - destruct w; simpl; try reflexivity. apply Zforall2b_sym.
  - destruct w; simpl; try reflexivity. rewrite (String.eqb_sym c), (String.eqb_sym n). reflexivity.
  - destruct w; simpl; try reflexivity. apply forall2b_sym. rewrite Forall_forall in *. intros x Hx b. apply H; auto. eapply forallb_forall in HP; eauto.
  - destruct w; simpl; try reflexivity. apply Nat.eqb_sym.
  - destruct w; simpl; try reflexivity. apply Nat.eqb_sym.
Qed.
Lemma py_eq_trans v : plain v = true -> forall w u, py_eq v w = true -> py_eq w u = true -> py_eq v u = true.
Proof.
  induction v using pyv_rect'; intros HP w u; simpl in HP; try discriminate.
  - destruct w; try discriminate. auto.
  - destruct w; simpl; try discriminate; destruct u; simpl; try discriminate; rewrite ?Z.eqb_eq; congruence.
  - destruct w; simpl; try discriminate; destruct u; simpl; try discriminate; rewrite ?Z.eqb_eq; congruence.
  - destruct w; simpl; try discriminate; destruct u; simpl; try discriminate; rewrite ?String.eqb_eq; congruence.
  - destruct w; simpl; try discriminate; destruct u; simpl; try discriminate. intros E1 E2. apply Zforall2b_eq in E1. apply Zforall2b_eq in E2. subst. clear. induction l1 as [|a l IH]; simpl; auto. rewrite Z.eqb_refl. auto.
  - destruct w; simpl; try discriminate; destruct u; simpl; try discriminate. rewrite !andb_true_iff, !String.eqb_eq. intuition congruence.
  - destruct w as [| | | | | | |m| | | | |]; simpl; try discriminate; destruct u as [| | | | | | |p| | | | |]; simpl; try discriminate. revert m p. induction l as [|a l IHl]; intros [|b m] [|c p]; simpl; try discriminate; auto.
    rewrite !andb_true_iff. inversion H as [|? ? A1 A2]; subst. simpl in HP. apply andb_prop in HP. destruct HP as [P1 P2]. intros [K1 K2] [K3 K4]. split; eauto.
  - destruct w; simpl; try discriminate; destruct u; simpl; try discriminate; rewrite ?Nat.eqb_eq; congruence.
  - destruct w; simpl; try discriminate; destruct u; simpl; try discriminate; rewrite ?Nat.eqb_eq; congruence.
Qed.
Lemma find_unique m k k' w : Forall (fun kv => plain (fst kv) = true) m -> distinct_keys m -> In (k', w) m -> py_eq k k' = true -> py_find m k = Some w.
Proof.
  unfold distinct_keys. induction m as [|[a b] m IH]; intros HP HD Hin E; [destruct Hin|]. inversion HP as [|? ? P1 P2]; subst. simpl in *. inversion HD as [|? ? D1 D2]; subst.
  destruct (py_eq k a) eqn:Ea.
  - destruct Hin as [Hin|Hin]; [congruence|]. exfalso. rewrite Forall_forall in D1. assert (In k' (map fst m)) as Hk by (apply in_map_iff; exists (k', w); auto). specialize (D1 k' Hk).
    assert (py_eq a k = true) as E' by (rewrite py_eq_sym; auto). rewrite (py_eq_trans a P1 k k' E' E) in D1. discriminate.
  - destruct Hin as [Hin|Hin]; [congruence|]. apply IH; auto.
Qed.
Lemma py_find_In m k w : py_find m k = Some w -> exists k', In (k', w) m /\ py_eq k k' = true.
Proof. induction m as [|[a b] m IH]; simpl; [discriminate|]. destruct (py_eq k a) eqn:Ea; [intros E; injection E as <-; eauto|]. intros E. destruct (IH E) as (k' & H1 & H2). eauto. Qed.

Section CompareProofs.
  Variable obj_eq : pyv -> pyv -> res bool.
  Variable lookup_other : pyv -> pyv -> verdict.
  Notation ae := (assert_equal obj_eq lookup_other).
  Definition is_object (a : pyv) : Prop := match a with PEnum _ _ _ | PJson _ _ | PObj _ _ _ => True | _ => False end.
  Hypothesis eq_ok : forall a b, match a with PEnum _ _ _ | PJson _ _ | PObj _ _ _ => True | _ => False end -> obj_eq a b = Ok (py_eq a b).
  Fixpoint lgo (l m : list pyv) : verdict := match l, m with c :: l', d :: m' => match ae c d with Same => lgo l' m' | x => x end | _, _ => Same end.
  Fixpoint dgo (m l : list (pyv * pyv)) : verdict :=
    match l with [] => Same | (k, v) :: l' => match py_find m k with None => Inequal KeyNotFound | Some w => match ae v w with Same => dgo m l' | x => x end end end.
  Lemma ae_list l b : ae (PList l) b = match py_len b with Err e => Raised e | Ok n => if negb (Nat.eqb (length l) n) then Inequal LengthMismatch else lgo l (py_elements b) end.
  Proof. reflexivity. Qed.
  Lemma ae_tuple l b : ae (PTuple l) b = ae (PList l) b.
  Proof. reflexivity. Qed.
  Lemma ae_dict l m : ae (PDict l) (PDict m) = if negb (Nat.eqb (length l) (length m)) then Inequal LengthMismatch else dgo m l.
  Proof. simpl. destruct (negb _); auto. destruct l as [|[k v] l]; auto. simpl. destruct (py_find m k); auto. destruct (ae v p); auto.
    induction l as [|[k' v'] l IH]; simpl; auto. destruct (py_find m k'); auto. destruct (ae v' p0); auto. Qed.
  Lemma equal_accepted a : forall b, well_keyed b -> py_eq a b = true -> ae a b = Same.
  Proof.
    induction a using pyv_rect'; intros b' HW E.
    - cbn [assert_equal]. rewrite E. auto.
    - cbn [assert_equal]. rewrite E. auto.
    - cbn [assert_equal]. rewrite E. auto.
    - cbn [assert_equal]. rewrite E. auto.
    - cbn [assert_equal]. rewrite E. auto.
    - cbn [assert_equal]. rewrite eq_ok by exact I. rewrite E. auto.
    - destruct b' as [| | | | | |m| | | | | |]; try discriminate. rewrite ae_list. simpl in *. rewrite (forall2b_length _ _ _ E), Nat.eqb_refl. simpl.
      assert (Forall well_keyed m) as Hm by (inversion HW; subst; auto; contradiction). clear HW. revert m E Hm. induction H as [|a l Ha Hl IH]; intros [|b m] E Hm; simpl in *; try discriminate; auto.
      apply andb_prop in E. inversion Hm; subst. rewrite Ha; try tauto. apply IH; tauto.
    - destruct b' as [| | | | | | |m| | | | |]; try discriminate. rewrite ae_tuple, ae_list. simpl in *. rewrite (forall2b_length _ _ _ E), Nat.eqb_refl. simpl.
      assert (Forall well_keyed m) as Hm by (inversion HW; subst; auto; contradiction). clear HW. revert m E Hm. induction H as [|a l Ha Hl IH]; intros [|b m] E Hm; simpl in *; try discriminate; auto.
      apply andb_prop in E. inversion Hm; subst. rewrite Ha; try tauto. apply IH; tauto.
    - destruct b' as [| | | | | | | |f' m| | | |]; try discriminate. cbn [assert_equal py_len]. rewrite E. simpl in E. apply andb_prop in E. destruct E as [E _]. rewrite E. auto.
    - destruct b' as [| | | | | | | | |m| | |]; try discriminate. rewrite ae_dict. simpl in E. apply andb_prop in E. destruct E as [E1 E]. rewrite E1. simpl.
      assert (Forall (fun kv => plain (fst kv) = true) m /\ distinct_keys m /\ Forall (fun kv => well_keyed (snd kv)) m) as (M1 & M2 & M3) by (inversion HW; subst; auto; contradiction).
      clear E1 HW. induction H as [|[k v] l [_ Hv] Hl IH]; simpl in *; auto. apply andb_prop in E. destruct E as [E1 E2]. apply existsb_exists in E1. destruct E1 as ([k' w] & Hin & E1). apply andb_prop in E1. destruct E1 as [K1 K2]. simpl in *.
      rewrite (find_unique m k k' w); auto. rewrite Hv; auto. rewrite Forall_forall in M3. exact (M3 _ Hin).
    - discriminate.
    - cbn [assert_equal]. rewrite eq_ok by exact I. rewrite E. auto.
    - cbn [assert_equal]. rewrite eq_ok by exact I. rewrite E. auto.
  Qed.
  Definition not_raised (v : verdict) : Prop := match v with Raised _ => False | _ => True end.
  Lemma lgo_sound l : Forall (fun a => forall b, alike a b -> not_raised (ae a b) /\ (ae a b = Same -> py_eq a b = true)) l ->
    forall m, length l = length m -> Forall2 alike l m -> not_raised (lgo l m) /\ (lgo l m = Same -> forall2b py_eq l m = true).
  Proof.
    induction 1 as [|a l Ha Hl IH]; intros m Hlen H; inversion H as [|? b ? m' A1 A2]; subst; simpl; auto. simpl in Hlen. destruct (Ha b A1) as [R1 R2]. destruct (IH m' ltac:(lia) A2) as [R3 R4].
    destruct (ae a b) as [|r|e] eqn:E; simpl in *; [|split; [auto|discriminate]|tauto]. split; auto. intros K. rewrite (R2 eq_refl). auto.
  Qed.
  Lemma accepted_equal a : forall b, alike a b -> not_raised (ae a b) /\ (ae a b = Same -> py_eq a b = true).
  Proof.
    induction a using pyv_rect'; intros b' HA.
    - cbn [assert_equal]. destruct (py_eq _ _); simpl; auto; split; auto; discriminate.
    - cbn [assert_equal]. destruct (py_eq _ _); simpl; auto; split; auto; discriminate.
    - cbn [assert_equal]. destruct (py_eq _ _); simpl; auto; split; auto; discriminate.
    - cbn [assert_equal]. destruct (py_eq _ _); simpl; auto; split; auto; discriminate.
    - cbn [assert_equal]. destruct (py_eq _ _); simpl; auto; split; auto; discriminate.
    - cbn [assert_equal]. rewrite eq_ok by exact I. destruct (py_eq _ _); simpl; auto; split; auto; discriminate.
    - inversion HA as [? ? K|? m K| | |]; subst; [contradiction|]. rewrite ae_list. simpl. destruct (Nat.eqb (length l) (length m)) eqn:El; simpl; [|split; auto; discriminate]. apply Nat.eqb_eq in El. apply lgo_sound; auto.
    - inversion HA as [? ? K| |? m K| |]; subst; [contradiction|]. rewrite ae_tuple, ae_list. simpl. destruct (Nat.eqb (length l) (length m)) eqn:El; simpl; [|split; auto; discriminate]. apply Nat.eqb_eq in El. apply lgo_sound; auto.
    - inversion HA as [? ? K| | |f1 f2 l1 m|]; subst; [contradiction|]. cbn [assert_equal py_len]. destruct (negb _); [split; simpl; auto; discriminate|]. destruct (py_eq _ _); split; simpl; auto; discriminate.
    - inversion HA as [? ? K| | | |? m K]; subst; [contradiction|]. rewrite ae_dict. simpl. destruct (Nat.eqb (length items) (length m)) eqn:El; simpl; [|split; auto; discriminate].
      clear El HA. induction H as [|[k v] l [_ Hv] Hl IH]; simpl in *; auto. destruct IH as [R1 R2]; [intros; eapply K; eauto|]. destruct (py_find m k) as [w|] eqn:Ef; [|split; simpl; auto; discriminate].
      destruct (py_find_In _ _ _ Ef) as (k' & Hin & Ek). destruct (Hv w) as [R3 R4]; [eapply K; eauto|]. destruct (ae v w) as [|r|e] eqn:Ev; simpl in *; [|split; [auto|discriminate]|tauto].
      split; auto. intros G. rewrite (R2 G), andb_true_r. apply existsb_exists. exists (k', w). split; auto. simpl. rewrite Ek, R4; auto.
    - inversion HA; subst; contradiction.
    - cbn [assert_equal]. rewrite eq_ok by exact I. destruct (py_eq _ _); simpl; auto; split; auto; discriminate.
    - cbn [assert_equal]. rewrite eq_ok by exact I. destruct (py_eq _ _); simpl; auto; split; auto; discriminate.
  Qed.
End CompareProofs.
Lemma verdict_alike obj_eq lookup_other a b :
  (forall a b, match a with PEnum _ _ _ | PJson _ _ | PObj _ _ _ => True | _ => False end -> obj_eq a b = Ok (py_eq a b)) ->
  alike a b -> well_keyed b ->
  (py_eq a b = true -> assert_equal obj_eq lookup_other a b = Same) /\ (py_eq a b = false -> exists r, assert_equal obj_eq lookup_other a b = Inequal r).
Proof.
  intros Ho HA HW. split; intros E; [eapply equal_accepted; eauto|]. destruct (accepted_equal obj_eq lookup_other Ho a b HA) as [R1 R2].
  destruct (assert_equal obj_eq lookup_other a b); simpl in *; [rewrite R2 in E; auto; discriminate|eauto|tauto].
Qed.
