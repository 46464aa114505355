From Coq Require Import String.
From Verif Require Import Prelude PreludeFacts Json_Model Json_Spec.

Section EvInd.
  Variable P : ev -> Prop.
  Hypothesis HNone : P ENone.
  Hypothesis HBool : forall b, P (EBool b).
  Hypothesis HInt : forall z, P (EInt z).
  Hypothesis HStr : forall s, P (EStr s).
  Hypothesis HList : forall l, Forall P l -> P (EList l).
  Hypothesis HTuple : forall l, Forall P l -> P (ETuple l).
  Hypothesis HDict : forall items, Forall (fun kv => P (fst kv) /\ P (snd kv)) items -> P (EDict items).
  Hypothesis HEnum : forall v, P v -> P (EEnum v).
  Hypothesis HJson : forall v, P v -> P (EJson v).
  Hypothesis HObj : forall attrs, Forall (fun kv => P (snd kv)) attrs -> P (EObj attrs).
  Hypothesis HSlots : forall cls slots, Forall (fun kv => forall v, snd kv = Some v -> P v) slots -> P (ESlots cls slots).
  Hypothesis HOther : forall cls, P (EOther cls).
  Fixpoint ev_rect' (v : ev) : P v :=
    let all := fix all (l : list ev) : Forall P l := match l with [] => Forall_nil _ | x :: r => Forall_cons _ (ev_rect' x) (all r) end in
    match v with
    | ENone => HNone | EBool b => HBool b | EInt z => HInt z | EStr s => HStr s
    | EList l => HList l (all l) | ETuple l => HTuple l (all l)
    | EDict items => HDict items ((fix go (l : list (ev * ev)) : Forall (fun kv => P (fst kv) /\ P (snd kv)) l :=
        match l with [] => Forall_nil _ | x :: r => Forall_cons _ (conj (ev_rect' (fst x)) (ev_rect' (snd x))) (go r) end) items)
    | EEnum v => HEnum v (ev_rect' v) | EJson v => HJson v (ev_rect' v)
    | EObj attrs => HObj attrs ((fix go (l : list (string * ev)) : Forall (fun kv => P (snd kv)) l :=
        match l with [] => Forall_nil _ | x :: r => Forall_cons _ (ev_rect' (snd x)) (go r) end) attrs)
    | ESlots cls slots => HSlots cls slots ((fix go (l : list (string * option ev)) : Forall (fun kv => forall v, snd kv = Some v -> P v) l :=
        match l with
        | [] => Forall_nil _
        | x :: r => Forall_cons _ (match snd x as o return forall v, o = Some v -> P v with
                                   | None => fun v E => match E in _ = y return match y with Some _ => P v | None => True end with eq_refl => I end
                                   | Some w => fun v E => match E in _ = y return match y with Some z => P z | None => True end with eq_refl => ev_rect' w end
                                   end) (go r) end) slots)
    | EOther cls => HOther cls
    end.
End EvInd.

Lemma collect_Forall2 {A B} (f : A -> res B) l r : collect f l = Ok r -> Forall2 (fun a b => f a = Ok b) l r.
Proof.
  revert r. induction l as [|a l IH]; simpl; intros r E; [injection E as <-; constructor|]. destruct (f a) as [b|] eqn:Ea; [|discriminate]. destruct (collect f l) as [r'|]; [|discriminate]. injection E as <-.
  constructor; auto.
Qed.
Lemma collect_total {A B} (f : A -> res B) (Q : B -> Prop) l : Forall (fun a => exists b, f a = Ok b /\ Q b) l -> exists r, collect f l = Ok r /\ Forall Q r.
Proof. induction 1 as [|a l (b & E & K) H IH]; simpl; [exists []; auto|]. destruct IH as (r & E2 & K2). rewrite E, E2. exists (b :: r). auto. Qed.
Lemma collect_err {A B} (f : A -> res B) l e : collect f l = Err e -> exists a, In a l /\ f a = Err e.
Proof.
  induction l as [|a l IH]; simpl; [discriminate|]. destruct (f a) as [b|e'] eqn:Ea; [|intros E; injection E as <-; eauto]. destruct (collect f l) as [r|e']; [discriminate|]. intros E. injection E as <-. destruct (IH eq_refl) as (x & H1 & H2). eauto.
Qed.
Lemma collect_ext {A B} (f g : A -> res B) l : (forall a, In a l -> f a = g a) -> collect f l = collect g l.
Proof. induction l as [|a l IH]; simpl; intros H; auto. rewrite (H a), IH; auto. Qed.
Lemma res_map_ok {A B} (f : A -> B) r b : res_map f r = Ok b -> exists a, r = Ok a /\ b = f a.
Proof. destruct r; simpl; intros E; [injection E as <-; eauto|discriminate]. Qed.
Lemma Forall2_In_l {A B} (R : A -> B -> Prop) l m a : Forall2 R l m -> In a l -> exists b, In b m /\ R a b.
Proof. induction 1 as [|x y l m H1 H2 IH]; simpl; [intros []|]. intros [->|H]; eauto. destruct (IH H) as (b & K1 & K2). eauto. Qed.
Lemma Forall2_In_r {A B} (R : A -> B -> Prop) l m b : Forall2 R l m -> In b m -> exists a, In a l /\ R a b.
Proof. induction 1 as [|x y l m H1 H2 IH]; simpl; [intros []|]. intros [->|H]; eauto. destruct (IH H) as (a & K1 & K2). eauto. Qed.
Lemma key_eqb_eq a b : key_eqb a b = true -> a = b.
Proof. destruct a, b; simpl; try discriminate; auto; intros H; f_equal; [apply Bool.eqb_prop in H|apply Z.eqb_eq in H|apply String.eqb_eq in H]; auto. Qed.
Lemma dset_In {K V} (eqb : K -> K -> bool) d k (v : V) k' v' : (forall a b, eqb a b = true -> a = b) -> In (k', v') (dset eqb d k v) -> In (k', v') d \/ (k' = k /\ v' = v).
Proof.
  intros H. induction d as [|[a b] d IH]; simpl; [intros [E|[]]; injection E as <- <-; auto|]. destruct (eqb a k) eqn:Ea; simpl; intros [E|H0]; auto.
  - injection E as <- <-. apply H in Ea. auto.
  - destruct (IH H0); auto.
Qed.
Lemma dset_keeps {K V} (eqb : K -> K -> bool) d k (v : V) k' v' : In (k', v') d -> exists w, In (k', w) (dset eqb d k v).
Proof. induction d as [|[a b] d IH]; simpl; [intros []|]. destruct (eqb a k) eqn:Ea; simpl; intros [E|H]; try (injection E as <- <-); eauto. destruct (IH H) as (w & K'); eauto. Qed.
Lemma dset_has {K V} (eqb : K -> K -> bool) d k (v : V) : (forall a b, eqb a b = true -> a = b) -> In (k, v) (dset eqb d k v).
Proof. intros H. induction d as [|[a b] d IH]; simpl; auto. destruct (eqb a k) eqn:Ea; simpl; auto. apply H in Ea. subst. auto. Qed.

(** what the loops collect *)
Lemma dict_comp_spec f items : forall d j, dict_comp f d items = Ok j -> exists d', j = EDict d' /\
  (forall k' v', In (k', v') d' -> In (k', v') d \/ exists k v, In (k, v) items /\ f k = Ok k' /\ f v = Ok v' /\ key_text k' <> None) /\
  (forall k' v', In (k', v') d -> exists w, In (k', w) d') /\
  (forall k v, In (k, v) items -> exists k' w, In (k', w) d' /\ f k = Ok k' /\ key_text k' <> None).
Proof.
  induction items as [|[k v] items IH]; simpl; intros d j E.
  - injection E as <-. exists d. split; auto. split; auto. split; eauto. intros k v [].
  - destruct (f k) as [k'|] eqn:Ek; [|discriminate]. destruct (f v) as [v'|] eqn:Ev; [|discriminate]. destruct (key_text k') as [s|] eqn:Es; [|discriminate].
    destruct (IH _ _ E) as (d' & -> & H1 & H2 & H3). exists d'. split; auto. split; [|split].
    + intros a b Hab. destruct (H1 a b Hab) as [K|(x & y & K1 & K2)]; [|right; exists x, y; auto]. apply dset_In in K; [|apply key_eqb_eq]. destruct K as [K|[-> ->]]; auto. right. exists k, v. repeat split; auto; congruence.
    + intros a b Hab. destruct (dset_keeps key_eqb d k' v' a b Hab) as (w & K). eauto.
    + intros a b [Hab|Hab]; [injection Hab as <- <-|eauto]. destruct (H2 k' v') as (w & K); [apply dset_has, key_eqb_eq|]. exists k', w. repeat split; auto; congruence.
Qed.
Lemma attr_dict_spec f attrs : forall d j, attr_dict f d attrs = Ok j -> exists d', j = EDict d' /\
  (forall k' v', In (k', v') d' -> In (k', v') d \/ exists s v, k' = EStr s /\ In (s, v) attrs /\ f v = Ok v') /\
  (forall k' v', In (k', v') d -> exists w, In (k', w) d') /\
  (forall s v, In (s, v) attrs -> exists w, In (EStr s, w) d').
Proof.
  induction attrs as [|[k v] attrs IH]; simpl; intros d j E.
  - injection E as <-. exists d. split; auto. split; auto. split; eauto. intros k v [].
  - destruct (f v) as [v'|] eqn:Ev; [|discriminate]. destruct (IH _ _ E) as (d' & -> & H1 & H2 & H3). exists d'. split; auto. split; [|split].
    + intros a b Hab. destruct (H1 a b Hab) as [K|(x & y & K0 & K1 & K2)]; [|right; exists x, y; auto]. apply dset_In in K; [|apply key_eqb_eq]. destruct K as [K|[-> ->]]; auto. right. exists k, v. auto.
    + intros a b Hab. destruct (dset_keeps key_eqb d (EStr k) v' a b Hab) as (w & K). eauto.
    + intros s b [Hab|Hab]; [injection Hab as <- <-|eauto]. apply (H2 (EStr k) v'), dset_has, key_eqb_eq.
Qed.
Lemma slot_dict_spec f cls slots : forall d j, slot_dict f cls d slots = Ok j ->
  (exists s, In (s, None) slots /\ j = instance_of cls) \/
  exists d', j = EDict d' /\ (forall s, ~ In (s, None) slots) /\
  (forall k' v', In (k', v') d' -> In (k', v') d \/ exists s v, k' = EStr s /\ In (s, Some v) slots /\ f v = Ok v') /\
  (forall k' v', In (k', v') d -> exists w, In (k', w) d') /\
  (forall s v, In (s, Some v) slots -> exists w, In (EStr s, w) d').
Proof.
  induction slots as [|[k [v|]] slots IH]; simpl; intros d j E.
  - injection E as <-. right. exists d. split; auto. split; auto. split; auto. split; eauto. intros k v [].
  - destruct (f v) as [v'|] eqn:Ev; [|discriminate]. destruct (IH _ _ E) as [(s & K1 & K2)|(d' & -> & H0 & H1 & H2 & H3)]; [left; eauto|]. right. exists d'. split; auto. split; [|split; [|split]].
    + intros s [K|K]; [discriminate|eapply H0; eauto].
    + intros a b Hab. destruct (H1 a b Hab) as [K|(x & y & K0 & K1 & K2)]; [|right; exists x, y; auto]. apply dset_In in K; [|apply key_eqb_eq]. destruct K as [K|[-> ->]]; auto. right. exists k, v. auto.
    + intros a b Hab. destruct (dset_keeps key_eqb d (EStr k) v' a b Hab) as (w & K). eauto.
    + intros s b [Hab|Hab]; [injection Hab as <- <-|eauto]. apply (H2 (EStr k) v'), dset_has, key_eqb_eq.
  - injection E as <-. left. eauto.
Qed.

(** ** faithful *)
Lemma key_text_shows k s : key_text k = Some s -> key_shows k s.
Proof. destruct k as [|[|]| | | | | | | | | |]; simpl; intros E; try discriminate; injection E as <-; constructor. Qed.
Lemma str_shows x s : key_shows (EStr x) s -> s = x.
Proof. inversion 1; auto. Qed.
Lemma default_key k k' s : default k = Ok k' -> key_text k' <> None -> key_shows k' s -> key_shows k s.
Proof.
  destruct k as [|b|z|x|l|l|items|v|v|attrs|cls slots|cls]; simpl; intros E N H; try (injection E as <-; try constructor; auto; fail).
  - apply res_map_ok in E. destruct E as (r & _ & ->). simpl in N. congruence.
  - apply res_map_ok in E. destruct E as (r & _ & ->). simpl in N. congruence.
  - apply dict_comp_spec in E. destruct E as (d' & -> & _). simpl in N. congruence.
  - apply attr_dict_spec in E. destruct E as (d' & -> & _). simpl in N. congruence.
  - apply slot_dict_spec in E. destruct E as [(x & K & ->)|(d' & -> & _)]; [|simpl in N; congruence]. apply str_shows in H. subst s. econstructor. eauto.
  - injection E as <-. apply str_shows in H. subst s. constructor.
Qed.
Lemma default_shows v : forall v' j, default v = Ok v' -> shows v' j -> shows v j.
Proof.
  assert (forall l, Forall (fun v => forall v' j, default v = Ok v' -> shows v' j -> shows v j) l -> forall r, Forall2 (fun a b => default a = Ok b) l r -> forall js, Forall2 shows r js -> Forall2 shows l js) as Hl.
  { intros l Hl r H. induction H as [|a b l r H1 H2 IH]; intros js Hj; inversion Hj; subst; constructor; inversion Hl; subst; eauto. }
  induction v using ev_rect'; intros v' j' E Hs; simpl in E; try (injection E as <-; auto; fail).
  - apply res_map_ok in E. destruct E as (r & E & ->). apply collect_Forall2 in E. inversion Hs as [| | | |? l0 js [K|K] Hj| | | | | | |]; subst; try discriminate. injection K as <-. eapply sh_list; eauto.
  - apply res_map_ok in E. destruct E as (r & E & ->). apply collect_Forall2 in E. inversion Hs as [| | | |? l0 js [K|K] Hj| | | | | | |]; subst; try discriminate. injection K as <-. eapply sh_list; eauto.
  - apply dict_comp_spec in E. destruct E as (d & -> & H1 & _ & H3). inversion Hs as [| | | |? l0 js [K|K] Hj|? entries A1 A2| | | | | |]; subst; try discriminate. rewrite Forall_forall in H. apply sh_dict.
    + intros s j Hj. destruct (A1 s j Hj) as (k' & w & K1 & K2 & K3). destruct (H1 _ _ K1) as [[]|(k & v & B1 & B2 & B3 & B4)]. exists k, v. destruct (H _ B1) as [_ C2]. simpl in *. split; eauto using default_key.
    + intros k v Hkv. destruct (H3 k v Hkv) as (k' & w & B1 & B2 & B3). destruct (A2 _ _ B1) as (s & j & C1 & C2). exists s, j. split; eauto using default_key.
  - injection E as <-. constructor. auto.
  - injection E as <-. constructor. auto.
  - apply attr_dict_spec in E. destruct E as (d & -> & H1 & _ & H3). inversion Hs as [| | | |? l0 js [K|K] Hj|? entries A1 A2| | | | | |]; subst; try discriminate. rewrite Forall_forall in H. apply sh_obj.
    + intros s j Hj. destruct (A1 s j Hj) as (k' & w & K1 & K2 & K3). destruct (H1 _ _ K1) as [[]|(x & v & -> & B2 & B3)]. apply str_shows in K2. subst x. exists v. split; auto. apply (H _ B2 w); auto.
    + intros s v Hkv. destruct (H3 s v Hkv) as (w & B1). destruct (A2 _ _ B1) as (x & j & C1 & C2). apply str_shows in C2. subst x. eauto.
  - apply slot_dict_spec in E. destruct E as [(x & K & ->)|(d & -> & H0 & H1 & _ & H3)].
    + inversion Hs as [| | | |? l0 js [K0|K0] Hj| | | | | | |]; subst; try discriminate. eapply sh_unset; eauto.
    + inversion Hs as [| | | |? l0 js [K|K] Hj|? entries A1 A2| | | | | |]; subst; try discriminate. rewrite Forall_forall in H. apply sh_slots; auto.
      * intros s j Hj. destruct (A1 s j Hj) as (k' & w & K1 & K2 & K3). destruct (H1 _ _ K1) as [[]|(x & v & -> & B2 & B3)]. apply str_shows in K2. subst x. exists v. split; auto. apply (H _ B2 v eq_refl w); auto.
      * intros s v Hkv. destruct (H3 s v Hkv) as (w & B1). destruct (A2 _ _ B1) as (x & j & C1 & C2). apply str_shows in C2. subst x. eauto.
  - injection E as <-. inversion Hs as [| | | |? l0 js [K0|K0] Hj| | | | | | |]; subst; try discriminate. constructor.
Qed.
Lemma encode_shows n : forall v j, encode n v = Ok j -> shows v j.
Proof.
  induction n as [|n IH]; intros v j E; [discriminate|].
  assert (forall d, default v = Ok d -> encode n d = Ok j -> shows v j) as Hd by (intros d E1 E2; eapply default_shows; eauto).
  destruct v as [|b|z|x|l|l|items|v|v|attrs|cls slots|cls]; cbn [encode] in E; try (injection E as <-; constructor; fail);
    try (match type of E with match default ?v with _ => _ end = _ => destruct (default v) as [d|] eqn:Ed; [eauto|discriminate] end).
  - apply res_map_ok in E. destruct E as (r & E & ->). apply collect_Forall2 in E. apply sh_list with (l := l); auto. clear Hd. induction E; constructor; auto.
  - apply res_map_ok in E. destruct E as (r & E & ->). apply collect_Forall2 in E. apply sh_list with (l := l); auto. clear Hd. induction E; constructor; auto.
  - apply res_map_ok in E. destruct E as (r & E & ->). apply collect_Forall2 in E. apply sh_dict.
    + intros s j Hj. destruct (Forall2_In_r _ _ _ _ E Hj) as ([k v] & Hin & K). simpl in K. destruct (key_text k) as [t|] eqn:Et; [|discriminate]. apply res_map_ok in K. destruct K as (j' & K & X). injection X as -> ->. exists k, v. auto using key_text_shows.
    + intros k v Hkv. destruct (Forall2_In_l _ _ _ _ E Hkv) as ([s j] & Hin & K). simpl in K. destruct (key_text k) as [t|] eqn:Et; [|discriminate]. apply res_map_ok in K. destruct K as (j' & K & X). injection X as -> ->. exists t, j'. auto using key_text_shows.
Qed.

(** ** fuel *)
Lemma list_max_In {A} (f : A -> nat) l a : In a l -> f a <= list_max (map f l).
Proof. intros H. assert (Forall (fun k => k <= list_max (map f l)) (map f l)) as K by (apply list_max_le; auto). rewrite Forall_forall in K. apply K. apply in_map. auto. Qed.
Lemma list_max_bound {A} (f : A -> nat) l n : (forall a, In a l -> f a <= n) -> list_max (map f l) <= n.
Proof. intros H. apply list_max_le. apply Forall_map, Forall_forall. auto. Qed.
Lemma native_depth k : key_text k <> None -> depth k = 0.
Proof. destruct k; simpl; congruence. Qed.
Definition wrapped (v : ev) : bool := match v with EEnum _ | EJson _ | EObj _ | ESlots _ _ | EOther _ => true | _ => false end.
Lemma depth_default v : forall v', default v = Ok v' -> depth v' + (if wrapped v then 1 else 0) <= depth v.
Proof.
  induction v using ev_rect'; intros v' E; simpl in E; try (injection E as <-; simpl; lia).
  - apply res_map_ok in E. destruct E as (r & E & ->). apply collect_Forall2 in E. simpl. rewrite Nat.add_0_r. apply le_n_S. apply list_max_bound. rewrite Forall_forall in H.
    intros b Hb. destruct (Forall2_In_r _ _ _ _ E Hb) as (a & Ha & Eab). specialize (H a Ha b Eab). pose proof (list_max_In depth l a Ha). lia.
  - apply res_map_ok in E. destruct E as (r & E & ->). apply collect_Forall2 in E. simpl. rewrite Nat.add_0_r. apply le_n_S. apply list_max_bound. rewrite Forall_forall in H.
    intros b Hb. destruct (Forall2_In_r _ _ _ _ E Hb) as (a & Ha & Eab). specialize (H a Ha b Eab). pose proof (list_max_In depth l a Ha). lia.
  - apply dict_comp_spec in E. destruct E as (d & -> & H1 & _ & _). simpl. rewrite Nat.add_0_r. apply le_n_S. apply list_max_bound. rewrite Forall_forall in H. intros [k' w] Hin.
    destruct (H1 _ _ Hin) as [[]|(k & v & B1 & B2 & B3 & B4)]. destruct (H _ B1) as [_ C2]. simpl in *. specialize (C2 _ B3). rewrite (native_depth k') by auto. pose proof (list_max_In (fun kv => Nat.max (depth (fst kv)) (depth (snd kv))) items _ B1) as M. simpl in M. lia.
  - apply attr_dict_spec in E. destruct E as (d & -> & H1 & _ & _). simpl. rewrite Nat.add_comm. simpl. apply le_n_S, le_n_S. apply list_max_bound. rewrite Forall_forall in H. intros [k' w] Hin.
    destruct (H1 _ _ Hin) as [[]|(x & v & -> & B2 & B3)]. specialize (H _ B2 _ B3). pose proof (list_max_In (fun kv => depth (snd kv)) attrs _ B2) as M. simpl in *. lia.
  - apply slot_dict_spec in E. destruct E as [(x & K & ->)|(d & -> & H0 & H1 & _ & _)]; [simpl; lia|]. simpl. rewrite Nat.add_comm. simpl. apply le_n_S, le_n_S. apply list_max_bound. rewrite Forall_forall in H. intros [k' w] Hin.
    destruct (H1 _ _ Hin) as [[]|(x & v & -> & B2 & B3)]. specialize (H _ B2 v eq_refl _ B3). pose proof (list_max_In (fun kv : string * option ev => match snd kv with Some v => depth v | None => 0 end) slots _ B2) as M. simpl in *. lia.
Qed.
Lemma default_err v : forall e, default v = Err e -> e = TypeError.
Proof.
  induction v using ev_rect'; intros e E; simpl in E; try discriminate.
  - destruct (collect default l) as [|e'] eqn:Ec; [discriminate|]. injection E as <-. apply collect_err in Ec. destruct Ec as (a & Ha & Ea). rewrite Forall_forall in H. eapply H; eauto.
  - destruct (collect default l) as [|e'] eqn:Ec; [discriminate|]. injection E as <-. apply collect_err in Ec. destruct Ec as (a & Ha & Ea). rewrite Forall_forall in H. eapply H; eauto.
  - revert E. generalize (@nil (ev * ev)) as d. induction H as [|[k v] items [Hk Hv] H IH]; simpl in *; intros d E; [discriminate|]. destruct (default k) as [k'|]; [|injection E as <-; auto]. destruct (default v) as [v'|]; [|injection E as <-; auto].
    destruct (key_text k'); [eauto|congruence].
  - revert E. generalize (@nil (ev * ev)) as d. induction H as [|[k v] attrs Hv H IH]; simpl in *; intros d E; [discriminate|]. destruct (default v) as [v'|]; [eauto|injection E as <-; auto].
  - revert E. generalize (@nil (ev * ev)) as d. induction H as [|[k [v|]] attrs Hv H IH]; simpl in *; intros d E; try discriminate. destruct (default v) as [v'|] eqn:Ev; [eauto|injection E as <-; eapply Hv; eauto].
Qed.
Lemma encode_enough n : forall v, depth v < n -> (forall e, encode n v = Err e -> e = TypeError) /\ forall m, n <= m -> encode m v = encode n v.
Proof.
  induction n as [|n IH]; intros v Hd; [lia|].
  assert (forall l, list_max (map depth l) < n -> (forall e, collect (encode n) l = Err e -> e = TypeError) /\ forall m, n <= m -> collect (encode m) l = collect (encode n) l) as Hl.
  { intros l Hm. assert (forall a, In a l -> depth a < n) as K by (intros a Ha; pose proof (list_max_In depth l a Ha); lia). split.
    - intros e Ee. apply collect_err in Ee. destruct Ee as (a & Ha & Ea). eapply IH; eauto.
    - intros m Hnm. apply collect_ext. intros a Ha. apply IH; auto. }
  assert (wrapped v = true -> (forall e, match default v with Err e => Err e | Ok d => encode n d end = Err e -> e = TypeError) /\
    forall m, n <= m -> match default v with Err e => Err e | Ok d => encode m d end = match default v with Err e => Err e | Ok d => encode n d end) as Hw.
  { intros Hw. destruct (default v) as [d|e0] eqn:Ed; [|split; auto; intros e Ee; injection Ee as <-; eapply default_err; eauto]. apply IH. pose proof (depth_default v d Ed) as K. rewrite Hw in K. lia. }
  destruct v as [|b|z|x|l|l|items|v|v|attrs|cls slots|cls]; simpl wrapped in Hw; try (destruct (Hw eq_refl) as [W1 W2]; split; [exact W1|intros [|m] Hm; [lia|]; apply W2; lia]); clear Hw.
  - split; [discriminate|intros [|m] Hm; [lia|auto]].
  - split; [discriminate|intros [|m] Hm; [lia|auto]].
  - split; [discriminate|intros [|m] Hm; [lia|auto]].
  - split; [discriminate|intros [|m] Hm; [lia|auto]].
  - simpl in Hd. destruct (Hl l ltac:(lia)) as [L1 L2]. split; [|intros [|m] Hm; [lia|]; simpl; rewrite L2 by lia; auto]. simpl. intros e. destruct (collect (encode n) l) as [|e'] eqn:Ec; simpl; [discriminate|]. intros X. injection X as <-. auto.
  - simpl in Hd. destruct (Hl l ltac:(lia)) as [L1 L2]. split; [|intros [|m] Hm; [lia|]; simpl; rewrite L2 by lia; auto]. simpl. intros e. destruct (collect (encode n) l) as [|e'] eqn:Ec; simpl; [discriminate|]. intros X. injection X as <-. auto.
  - cbn [encode]. assert (forall kv, In kv items -> depth (snd kv) < n) as K.
    { intros kv Hkv. simpl in Hd. pose proof (list_max_In (fun kv => Nat.max (depth (fst kv)) (depth (snd kv))) items kv Hkv) as M. simpl in M. lia. }
    split.
    + intros e. match goal with |- context [collect ?f items] => destruct (collect f items) as [|e'] eqn:Ec end; simpl; [discriminate|]. intros X. injection X as <-. apply collect_err in Ec. destruct Ec as (kv & Ha & Ea).
      destruct (key_text (fst kv)); [|congruence]. destruct (encode n (snd kv)) as [|e''] eqn:En; simpl in Ea; [discriminate|]. injection Ea as <-. eapply IH; [apply K; eauto|eauto].
    + intros [|m] Hm; [lia|]. cbn [encode]. f_equal. apply collect_ext. intros kv Hkv. destruct (key_text (fst kv)); auto. f_equal. apply IH; [auto|lia].
Qed.
Lemma json_encode_ends v : (forall e, json_encode v = Err e -> e = TypeError) /\ forall n, depth v < n -> encode n v = json_encode v.
Proof. destruct (encode_enough (S (depth v)) v ltac:(lia)) as [H1 H2]. split; auto. Qed.

(** ** total *)
Lemma native_text k : native k -> exists s, key_text k = Some s.
Proof. destruct k as [|[|]| | | | | | | | | |]; simpl; try tauto; eauto. Qed.
Lemma keyable_default k : keyable k -> exists k' s, default k = Ok k' /\ key_text k' = Some s.
Proof.
  destruct k; simpl; try tauto; intros H; try (destruct (native_text _ H) as (s & E); eauto; fail); try (eexists; eexists; split; reflexivity).
  destruct b; eexists; eexists; split; reflexivity.
Qed.
Lemma dset_Forall {K V} (eqb : K -> K -> bool) (Q : K -> Prop) (R : V -> Prop) d k v : Forall (fun kv => Q (fst kv)) d -> Forall (fun kv => R (snd kv)) d -> Q k -> R v ->
  Forall (fun kv => Q (fst kv)) (dset eqb d k v) /\ Forall (fun kv => R (snd kv)) (dset eqb d k v).
Proof.
  intros H1 H2 Hk Hv. induction d as [|[a b] d IH]; simpl; [repeat constructor; auto|]. inversion H1 as [|? ? A1 A2]; inversion H2 as [|? ? B1 B2]; subst. destruct (eqb a k); [split; constructor; auto|]. destruct (IH A2 B2). split; constructor; auto.
Qed.
Lemma text_native k s : key_text k = Some s -> native k.
Proof. destruct k as [|[|]| | | | | | | | | |]; simpl; try discriminate; auto. Qed.
Lemma inside_default v : inside v -> exists v', default v = Ok v' /\ encodable v'.
Proof.
  assert (forall l, Forall (fun v => inside v -> exists v', default v = Ok v' /\ encodable v') l -> Forall inside l -> exists r, collect default l = Ok r /\ Forall encodable r) as Hl.
  { intros l H1 H2. apply collect_total. rewrite Forall_forall in *. auto. }
  induction v using ev_rect'; intros HI.
  - exists ENone. split; auto. apply en_atom. exact I.
  - exists (EBool b). split; auto. apply en_atom. exact I.
  - exists (EInt z). split; auto. apply en_atom. exact I.
  - exists (EStr s). split; auto. apply en_atom. exact I.
  - inversion HI as [? K|? ? [K|K] Hi| | | | | |]; subst; try contradiction; try discriminate. injection K as <-. destruct (Hl l H Hi) as (r & E & Hr). exists (EList r). simpl. rewrite E. split; auto. eapply en_list; eauto.
  - inversion HI as [? K|? ? [K|K] Hi| | | | | |]; subst; try contradiction; try discriminate. injection K as <-. destruct (Hl l H Hi) as (r & E & Hr). exists (EList r). simpl. rewrite E. split; auto. eapply en_list; eauto.
  - inversion HI as [? K|? ? [K|K] Hi|? Hk Hv| | | | |]; subst; try contradiction; try discriminate. simpl.
    assert (forall d, Forall (fun kv => native (fst kv)) d -> Forall (fun kv => encodable (snd kv)) d -> exists v', dict_comp default d items = Ok v' /\ encodable v') as K; [|apply K; constructor].
    clear HI. induction H as [|[k v] items [_ Hv'] H IH]; intros d D1 D2; simpl; [exists (EDict d); split; auto; apply en_dict; auto|]. inversion Hk as [|? ? A1 A2]; inversion Hv as [|? ? B1 B2]; subst. simpl in *.
    destruct (keyable_default k A1) as (k' & s & E1 & E2). destruct (Hv' B1) as (v' & E3 & E4). rewrite E1, E3, E2. destruct (dset_Forall key_eqb native encodable d k' v' D1 D2 (text_native _ _ E2) E4). apply IH; auto.
  - inversion HI as [? K|? ? [K|K] Hi| | | | | |]; subst; try contradiction; try discriminate. exists v. auto.
  - inversion HI as [? K|? ? [K|K] Hi| | | | | |]; subst; try contradiction; try discriminate. exists v. auto.
  - inversion HI as [? K|? ? [K|K] Hi| | | |? Hv| |]; subst; try contradiction; try discriminate. simpl.
    assert (forall d, Forall (fun kv => native (fst kv)) d -> Forall (fun kv => encodable (snd kv)) d -> exists v', attr_dict default d attrs = Ok v' /\ encodable v') as K; [|apply K; constructor].
    clear HI. induction H as [|[k v] attrs Hv' H IH]; intros d D1 D2; simpl; [exists (EDict d); split; auto; apply en_dict; auto|]. inversion Hv as [|? ? B1 B2]; subst. simpl in *.
    destruct (Hv' B1) as (v' & E3 & E4). rewrite E3. destruct (dset_Forall key_eqb native encodable d (EStr k) v' D1 D2 I E4). apply IH; auto.
  - inversion HI as [? K|? ? [K|K] Hi| | | | |? ? Hv|]; subst; try contradiction; try discriminate. simpl.
    assert (forall d, Forall (fun kv => native (fst kv)) d -> Forall (fun kv => encodable (snd kv)) d -> exists v', slot_dict default cls d slots = Ok v' /\ encodable v') as K; [|apply K; constructor].
    clear HI. induction H as [|[k [v|]] slots Hv' H IH]; intros d D1 D2; simpl; [exists (EDict d); split; auto; apply en_dict; auto| |exists (instance_of cls); split; auto; apply en_atom; exact I]. inversion Hv as [|? ? B1 B2]; subst. simpl in *.
    destruct (Hv' v eq_refl (B1 v eq_refl)) as (v' & E3 & E4). rewrite E3. destruct (dset_Forall key_eqb native encodable d (EStr k) v' D1 D2 I E4). apply IH; auto.
  - exists (instance_of cls). split; auto. apply en_atom. exact I.
Qed.
Lemma wrapped_default v : encodable v -> wrapped v = true -> exists v', default v = Ok v' /\ encodable v'.
Proof.
  intros H W. inversion H as [? K|? ? [K|K] Hi| | | | | |]; subst; try discriminate; try (destruct v; simpl in *; (discriminate || contradiction)).
  - exists v0. auto.
  - exists v0. auto.
  - apply inside_default. apply in_obj. auto.
  - apply inside_default. apply in_slots. auto.
  - apply inside_default. apply in_other.
Qed.
Lemma encodable_encode n : forall v, depth v < n -> encodable v -> exists j, encode n v = Ok j.
Proof.
  induction n as [|n IH]; intros v Hd He; [lia|].
  assert (wrapped v = true -> exists j, match default v with Err e => Err e | Ok d => encode n d end = Ok j) as Hw.
  { intros W. destruct (wrapped_default v He W) as (d & E & K). rewrite E. apply IH; auto. pose proof (depth_default v d E) as M. rewrite W in M. lia. }
  assert (forall l, list_max (map depth l) < n -> Forall encodable l -> exists r, collect (encode n) l = Ok r) as Hl.
  { intros l Hm Hf. destruct (collect_total (encode n) (fun _ => True) l) as (r & E & _); eauto. rewrite Forall_forall in *. intros a Ha. pose proof (list_max_In depth l a Ha). destruct (IH a ltac:(lia) (Hf a Ha)) as (j & E). eauto. }
  destruct v as [|b|z|x|l|l|items|v|v|attrs|cls slots|cls]; cbn [encode]; eauto; try (apply Hw; reflexivity).
  - inversion He as [? K|? ? [K|K] Hi| | | | | |]; subst; try contradiction; try discriminate. injection K as <-. simpl in Hd. destruct (Hl l ltac:(lia) Hi) as (r & E). rewrite E. simpl. eauto.
  - inversion He as [? K|? ? [K|K] Hi| | | | | |]; subst; try contradiction; try discriminate. injection K as <-. simpl in Hd. destruct (Hl l ltac:(lia) Hi) as (r & E). rewrite E. simpl. eauto.
  - inversion He as [? K|? ? [K|K] Hi|? Hk Hv| | | | |]; subst; try contradiction; try discriminate.
    match goal with |- context [collect ?f items] => destruct (collect_total f (fun _ => True) items) as (r & E & _) end; [|rewrite E; simpl; eauto].
    rewrite Forall_forall in *. intros kv Hkv. destruct (native_text _ (Hk kv Hkv)) as (s & Es). rewrite Es. simpl in Hd. pose proof (list_max_In (fun kv => Nat.max (depth (fst kv)) (depth (snd kv))) items kv Hkv) as M. simpl in M.
    destruct (IH (snd kv) ltac:(lia) (Hv kv Hkv)) as (j & E). rewrite E. simpl. eauto.
Qed.
Lemma encodable_total v : encodable v -> exists j, json_encode v = Ok j.
Proof. intros H. apply encodable_encode; auto. Qed.

(** ** JSON comes out as it is *)
Section JsonInd.
  Variable P : json -> Prop.
  Hypothesis HNull : P JNull.
  Hypothesis HBool : forall b, P (JBool b).
  Hypothesis HInt : forall z, P (JInt z).
  Hypothesis HStr : forall s, P (JStr s).
  Hypothesis HList : forall l, Forall P l -> P (JList l).
  Hypothesis HObj : forall l, Forall (fun e => P (snd e)) l -> P (JObj l).
  Fixpoint json_rect' (j : json) : P j :=
    match j with
    | JNull => HNull | JBool b => HBool b | JInt z => HInt z | JStr s => HStr s
    | JList l => HList l ((fix go (l : list json) : Forall P l := match l with [] => Forall_nil _ | x :: r => Forall_cons _ (json_rect' x) (go r) end) l)
    | JObj l => HObj l ((fix go (l : list (string * json)) : Forall (fun e => P (snd e)) l := match l with [] => Forall_nil _ | x :: r => Forall_cons _ (json_rect' (snd x)) (go r) end) l)
    end.
End JsonInd.
Lemma value_of_encode j : forall n, depth (value_of j) < n -> encode n (value_of j) = Ok j.
Proof.
  induction j using json_rect'; intros [|n] Hd; simpl in Hd; try lia; auto.
  - cbn [encode value_of]. assert (collect (encode n) (map value_of l) = Ok l) as ->; auto.
    assert (list_max (map depth (map value_of l)) < n) as Hm by lia. clear Hd. induction H as [|a l Ha Hl IH]; simpl in *; auto. change (Nat.max (depth (value_of a)) (list_max (map depth (map value_of l))) < n) in Hm. rewrite Ha by lia. rewrite IH by lia. auto.
  - cbn [encode value_of]. match goal with |- context [collect ?f ?l0] => assert (collect f l0 = Ok l) as -> end; auto.
    set (g := fun kv => Nat.max (depth (fst kv)) (depth (snd kv))) in Hd. assert (list_max (map g (map (fun e => (EStr (fst e), value_of (snd e))) l)) < n) as Hm by (simpl in *; lia). clear Hd.
    induction H as [|[s a] l Ha Hl IH]; simpl in *; auto. change (Nat.max (depth (value_of a)) (list_max (map g (map (fun e => (EStr (fst e), value_of (snd e))) l))) < n) in Hm. rewrite Ha by lia. simpl. rewrite IH by lia. auto.
Qed.
Lemma json_encode_id j : json_encode (value_of j) = Ok j.
Proof. apply value_of_encode. lia. Qed.

(** ** JSONAbleDataObject *)
Lemma seqb_ok : eqb_ok seqb.
Proof. intros a b. apply String.eqb_eq. Qed.
Section DataObjectProofs.
  Context {V : Type}.
  Variable eqb : V -> V -> bool.
  Variable hash : V -> Z.
  Implicit Types (c : dclass V) (o kwargs : dict string V).
  Let get_eq := @dget_dset_eq string V seqb seqb_ok.
  Let get_neq := @dget_dset_neq string V seqb seqb_ok.
  Definition create_loop c kwargs names (r : res (instance V)) : res (instance V) :=
    fold_left (fun r name =>
      match r with
      | Err e => Err e
      | Ok o => match dget seqb kwargs name with
                | Some v => Ok (dset seqb o name v)
                | None => match getattr c o name with Ok _ => Ok o | Err _ => Err ValueError end
                end
      end) names r.
  Lemma create_err c kwargs names e : create_loop c kwargs names (Err e) = Err e.
  Proof. induction names; simpl; auto. Qed.
  Lemma create_ok c kwargs names : forall o o', create_loop c kwargs names (Ok o) = Ok o' ->
    forall name, dget seqb o' name = (if in_dec string_dec name names then match dget seqb kwargs name with Some v => Some v | None => dget seqb o name end else dget seqb o name).
  Proof.
    induction names as [|a names IH]; intros o o' E name; [injection E as <-; auto|]. simpl in E.
    assert (exists o1, create_loop c kwargs names (Ok o1) = Ok o' /\ o1 = match dget seqb kwargs a with Some v => dset seqb o a v | None => o end) as (o1 & E1 & ->).
    { destruct (dget seqb kwargs a); [eexists; split; eauto|]. destruct (getattr c o a); [eexists; split; eauto|]. change (create_loop c kwargs names (Err ValueError) = Ok o') in E. rewrite create_err in E. discriminate. }
    rewrite (IH _ _ E1). destruct (in_dec string_dec name names) as [Hin|Hin]; destruct (in_dec string_dec name (a :: names)) as [Hi|Hi]; simpl in Hi; try tauto.
    - destruct (dget seqb kwargs name) eqn:Ek; auto. destruct (dget seqb kwargs a) eqn:Ea; auto. destruct (string_dec a name) as [->|Hn]; [congruence|]. apply get_neq; auto.
    - destruct Hi as [->|Hi]; [|tauto]. destruct (dget seqb kwargs name) eqn:Ek; auto.
    - destruct (dget seqb kwargs a) eqn:Ea; auto.
  Qed.
  Lemma create_total c kwargs names : forall o, (forall name, In name names -> available c kwargs name) -> exists o', create_loop c kwargs names (Ok o) = Ok o'.
  Proof.
    induction names as [|a names IH]; intros o H; simpl; eauto. assert (forall o, exists o', create_loop c kwargs names (Ok o) = Ok o') as K by (intros; apply IH; intros; apply H; simpl; auto).
    destruct (H a (or_introl eq_refl)) as [Hk|Hc]; destruct (dget seqb kwargs a); try congruence; try apply K. unfold getattr. destruct (dget seqb o a); [apply K|]. destruct (dget seqb (class_attrs c) a); [apply K|congruence].
  Qed.
  Lemma create_only c kwargs names : forall o, (forall name, In name names -> dget seqb o name = None) -> NoDup names -> forall name, In name names -> ~ available c kwargs name -> create_loop c kwargs names (Ok o) = Err ValueError.
  Proof.
    induction names as [|a names IH]; intros o H N name Hi Hu; [destruct Hi|]. inversion N as [|? ? N1 N2]; subst. simpl. destruct Hi as [->|Hin].
    - unfold available in Hu. destruct (dget seqb kwargs name); [exfalso; apply Hu; left; congruence|]. unfold getattr. rewrite H by (simpl; auto). destruct (dget seqb (class_attrs c) name); [exfalso; apply Hu; right; congruence|]. apply create_err.
    - destruct (dget seqb kwargs a).
      + apply (IH _) with (name := name); auto. intros x Hx. rewrite get_neq by congruence. apply H. simpl; auto.
      + destruct (getattr c o a); [|apply create_err]. apply (IH _) with (name := name); auto. intros x Hx. apply H. simpl; auto.
  Qed.
  Lemma available_dec c kwargs name : {available c kwargs name} + {~ available c kwargs name}.
  Proof. unfold available. destruct (dget seqb kwargs name); [left; left; congruence|]. destruct (dget seqb (class_attrs c) name); [left; right; congruence|]. right. intros [H|H]; congruence. Qed.
  Theorem create_spec c kwargs : NoDup (annotations c) ->
    ((forall name, In name (annotations c) -> available c kwargs name) -> exists o, create c kwargs = Ok o) /\
    ((exists name, In name (annotations c) /\ ~ available c kwargs name) -> create c kwargs = Err ValueError) /\
    (forall o, create c kwargs = Ok o ->
       (forall name, In name (annotations c) -> getattr c o name = match dget seqb kwargs name with Some v => Ok v | None => match dget seqb (class_attrs c) name with Some v => Ok v | None => Err AttributeError end end) /\
       complete c o /\ forall name, ~ In name (annotations c) -> dget seqb o name = None).
  Proof.
    intros N. split; [|split].
    - intros H. apply (create_total c kwargs (annotations c) []). auto.
    - intros (name & Hin & Hu). apply (create_only c kwargs (annotations c) []) with (name := name); auto.
    - intros o E. pose proof (create_ok c kwargs (annotations c) [] o E) as K.
      assert (forall name, In name (annotations c) -> getattr c o name = match dget seqb kwargs name with Some v => Ok v | None => match dget seqb (class_attrs c) name with Some v => Ok v | None => Err AttributeError end end) as G.
      { intros name Hin. unfold getattr. rewrite K. destruct (in_dec string_dec name (annotations c)); [|tauto]. destruct (dget seqb kwargs name); auto. }
      split; auto. split.
      + intros name Hin. rewrite (G name Hin). destruct (available_dec c kwargs name) as [A|A].
        * destruct A as [A|A]; destruct (dget seqb kwargs name); try congruence; eauto. destruct (dget seqb (class_attrs c) name); [eauto|congruence].
        * exfalso. assert (create c kwargs = Err ValueError) as X by (apply (create_only c kwargs (annotations c) []) with (name := name); auto). congruence.
      + intros name Hout. rewrite K. destruct (in_dec string_dec name (annotations c)); [tauto|auto].
  Qed.
  Lemma dset_new d (k : string) (v : V) : dget seqb d k = None -> dset seqb d k v = (d ++ [(k, v)])%list.
  Proof. induction d as [|[a b] d IH]; simpl; auto. destruct (seqb a k); [discriminate|]. intros H. rewrite IH; auto. Qed.
  Definition json_loop c o names (r : res (dict string V)) :=
    fold_left (fun r name => match r with Err e => Err e | Ok d => match getattr c o name with Err e => Err e | Ok v => Ok (dset seqb d name v) end end) names r.
  Lemma json_ok c o names : forall d, NoDup names -> (forall name, In name names -> dget seqb d name = None) -> (forall name, In name names -> exists v, getattr c o name = Ok v) ->
    exists d', json_loop c o names (Ok d) = Ok d' /\ map fst d' = (map fst d ++ names)%list /\
      forall name, dget seqb d' name = if in_dec string_dec name names then match getattr c o name with Ok v => Some v | Err _ => None end else dget seqb d name.
  Proof.
    induction names as [|a names IH]; intros d N Hd Hc; simpl; [exists d; rewrite app_nil_r; auto|]. inversion N as [|? ? N1 N2]; subst.
    destruct (Hc a (or_introl eq_refl)) as (v & Ev). rewrite Ev. destruct (IH (dset seqb d a v)) as (d' & E & F & G); auto.
    - intros x Hx. rewrite get_neq by congruence. apply Hd. simpl; auto.
    - intros x Hx. apply Hc. simpl; auto.
    - exists d'. split; auto. split.
      + rewrite F, dset_new by (apply Hd; simpl; auto). rewrite map_app. simpl. rewrite <- app_assoc. auto.
      + intros x. rewrite G. destruct (in_dec string_dec x names) as [Hi|Hi]; destruct (string_dec a x) as [->|Hx]; auto; try tauto.
        rewrite Ev. apply get_eq.
  Qed.
  Theorem to_json_spec c o : NoDup (annotations c) -> complete c o ->
    exists d, to_json c o = Ok d /\ map fst d = annotations c /\ forall name, In name (annotations c) -> exists v, getattr c o name = Ok v /\ dget seqb d name = Some v.
  Proof.
    intros N C. destruct (json_ok c o (annotations c) [] N) as (d & E & F & G); auto. exists d. split; auto. split; auto. intros name Hin. destruct (C name Hin) as (v & Ev). exists v. split; auto. rewrite G. destruct (in_dec string_dec name (annotations c)); [|tauto]. rewrite Ev. auto.
  Qed.
  Lemma to_json_ext c o o' : (forall name, In name (annotations c) -> getattr c o' name = getattr c o name) -> to_json c o' = to_json c o.
  Proof.
    intros H. unfold to_json. generalize (Ok (@nil (string * V))) as r. revert H. induction (annotations c) as [|a l IH]; intros H r; simpl; auto. rewrite H by (simpl; auto). apply IH. intros; apply H; simpl; auto.
  Qed.
  Lemma obj_hash_ext c o o' : (forall name, In name (annotations c) -> getattr c o' name = getattr c o name) -> obj_hash hash c o' = obj_hash hash c o.
  Proof.
    intros H. unfold obj_hash. generalize (Ok 0%Z) as r. revert H. induction (annotations c) as [|a l IH]; intros H r; simpl; auto. rewrite H by (simpl; auto). apply IH. intros; apply H; simpl; auto.
  Qed.
  Lemma eq_true c o c' o' names : eq_loop eqb names c o c' o' = Ok true <-> forall name, In name names -> exists v w, getattr c o name = Ok v /\ getattr c' o' name = Ok w /\ eqb v w = true.
  Proof.
    induction names as [|a l IH]; simpl; [split; [intros _ ? []|auto]|]. split.
    - destruct (getattr c o a) as [v|] eqn:Ev; [|discriminate]. destruct (getattr c' o' a) as [w|] eqn:Ew; [|discriminate]. destruct (eqb v w) eqn:E; [|discriminate]. intros H name [<-|Hin]; eauto. apply IH; auto.
    - intros H. destruct (H a (or_introl eq_refl)) as (v & w & -> & -> & ->). apply IH. auto.
  Qed.
  Lemma eq_answers c o c' o' names : (forall name, In name names -> exists v, getattr c o name = Ok v) -> (forall name, In name names -> exists v, getattr c' o' name = Ok v) -> exists b, eq_loop eqb names c o c' o' = Ok b.
  Proof.
    induction names as [|a l IH]; simpl; intros H1 H2; eauto. destruct (H1 a (or_introl eq_refl)) as (v & ->). destruct (H2 a (or_introl eq_refl)) as (w & ->). destruct (eqb v w); [apply IH; auto|eauto].
  Qed.
  Theorem round_trip c o d : (forall v, eqb v v = true) -> NoDup (annotations c) -> complete c o -> to_json c o = Ok d ->
    exists o', create c d = Ok o' /\ (forall name, In name (annotations c) -> getattr c o' name = getattr c o name) /\
      obj_eq eqb c o c o' = Ok true /\ obj_eq eqb c o' c o = Ok true /\ obj_hash hash c o' = obj_hash hash c o /\ to_json c o' = Ok d.
  Proof.
    intros R N C E. destruct (to_json_spec c o N C) as (d0 & E0 & F & G). assert (d0 = d) by congruence. subst d0.
    destruct (create_spec c d N) as (S1 & _ & S3). destruct S1 as (o' & Eo').
    { intros name Hin. destruct (G name Hin) as (v & _ & Ed). left. congruence. }
    destruct (S3 o' Eo') as (K & _). assert (forall name, In name (annotations c) -> getattr c o' name = getattr c o name) as X.
    { intros name Hin. rewrite (K name Hin). destruct (G name Hin) as (v & E1 & E2). rewrite E2, E1. auto. }
    exists o'. split; auto. split; auto. split; [|split; [|split]].
    - apply eq_true. intros name Hin. destruct (C name Hin) as (v & Ev). exists v, v. rewrite X; auto.
    - apply eq_true. intros name Hin. destruct (C name Hin) as (v & Ev). exists v, v. rewrite X; auto.
    - apply obj_hash_ext; auto.
    - rewrite (to_json_ext c o o' X). auto.
  Qed.
  Theorem eq_spec c o o' : complete c o -> complete c o' ->
    exists b, obj_eq eqb c o c o' = Ok b /\ (b = true <-> forall name, In name (annotations c) -> exists v w, getattr c o name = Ok v /\ getattr c o' name = Ok w /\ eqb v w = true).
  Proof.
    intros C C'. destruct (eq_answers c o c o' (annotations c) C C') as (b & E). exists b. split; auto. pose proof (eq_true c o c o' (annotations c)) as K. rewrite E in K. split; intros H.
    - apply K. congruence.
    - apply K in H. congruence.
  Qed.
  Theorem eq_hash c o o' : (forall v w, eqb v w = true -> hash v = hash w) -> obj_eq eqb c o c o' = Ok true -> obj_hash hash c o = obj_hash hash c o'.
  Proof.
    intros Hh H. unfold obj_eq in H. rewrite eq_true in H. unfold obj_hash. generalize (Ok 0%Z) as r. revert H. induction (annotations c) as [|a l IH]; intros H r; simpl; auto.
    destruct (H a (or_introl eq_refl)) as (v & w & -> & -> & E). rewrite (Hh v w E). apply IH. intros; apply H; simpl; auto.
  Qed.
End DataObjectProofs.
