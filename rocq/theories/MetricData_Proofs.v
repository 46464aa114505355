(** Proofs about collections of metric data. *)
From Coq Require Import String.
From Verif Require Import Prelude PreludeFacts MoreFacts MetricData_Model MetricData_Spec.
Import ListNotations.
Open Scope list_scope.

Lemma NoDup_key_eq {A B} (f : A -> B) : forall l x y, NoDup (map f l) -> In x l -> In y l -> f x = f y -> x = y.
Proof.
  induction l as [|z l IH]; intros x y N; [intros []|]. simpl in N. inversion N as [|? ? NI N']; subst. intros [<-|I] [<-|J] E; auto.
  - exfalso. apply NI. rewrite E. apply in_map. auto.
  - exfalso. apply NI. rewrite <- E. apply in_map. auto.
Qed.

Section P.
Variables (Lab V : Type) (leqb : Lab -> Lab -> bool) (lok : eqb_ok leqb) (hash : string * Lab -> Z).
Notation hp_t := (heap Lab V).
Notation ct := (@contents Lab V).
Notation ok := (valid hash).
Notation keyof := (@dkey Lab V).

Lemma dkey_eqb_ok : eqb_ok (dkey_eqb leqb).
Proof.
  intros [n l] [n' l']. unfold dkey_eqb. simpl. split.
  - intros H. apply andb_true_iff in H. destruct H as [H1 H2]. apply lok in H1. apply String.eqb_eq in H2. subst; auto.
  - intros H. injection H as -> ->. rewrite (proj2 (lok l' l') eq_refl), String.eqb_refl. auto.
Qed.
Lemma matches_iff (hp : hp_t) i e : fst e = hash (keyof (hp (snd e))) -> matches leqb hash hp i e = true <-> keyof (hp (snd e)) = keyof (hp i).
Proof.
  intros U. unfold matches. rewrite andb_true_iff, U. split.
  - intros [_ H]. apply dkey_eqb_ok in H. auto.
  - intros E. rewrite E. split; [apply Z.eqb_refl|]. apply dkey_eqb_ok. auto.
Qed.
Lemma pin_iff (hp : hp_t) i s : up_to_date hash hp s -> pin leqb hash hp i s = true <-> In (keyof (hp i)) (map keyof (ct hp s)).
Proof.
  intros U. unfold pin. rewrite existsb_exists. unfold contents. rewrite map_map, in_map_iff. split; intros (e & H1 & H2); exists e.
  - split; auto. apply matches_iff in H2; auto.
  - split; auto. apply matches_iff; auto.
Qed.
Lemma pin_false (hp : hp_t) i s : up_to_date hash hp s -> pin leqb hash hp i s = false <-> ~ In (keyof (hp i)) (map keyof (ct hp s)).
Proof. intros U. rewrite <- (pin_iff hp i s U). destruct (pin leqb hash hp i s); split; congruence. Qed.
Lemma contents_app (hp : hp_t) s1 s2 : ct hp (s1 ++ s2) = ct hp s1 ++ ct hp s2.
Proof. apply map_app. Qed.
Lemma NoDup_snoc {A} (l : list A) x : NoDup l -> ~ In x l -> NoDup (l ++ [x]).
Proof. intros N I. apply NoDup_Add with (a := x) (l := l). { rewrite <- (app_nil_r l) at 1. apply Add_app. } auto. Qed.
Lemma padd_ok (hp : hp_t) s i : ok hp s -> ok hp (padd leqb hash hp s i) /\
  (forall d, In d (ct hp (padd leqb hash hp s i)) <-> In d (ct hp s) \/ (d = hp i /\ ~ In (keyof (hp i)) (map keyof (ct hp s)))).
Proof.
  intros [U N]. unfold padd. destruct (pin leqb hash hp i s) eqn:P.
  - apply pin_iff in P; auto. split; [split; auto|]. intros d. split; auto. intros [H|[_ H]]; auto. contradiction.
  - apply pin_false in P; auto. split; [split|].
    + intros e I. apply in_app_or in I. destruct I as [I|[<-|[]]]; auto.
    + unfold one_per_key. rewrite contents_app, map_app. apply NoDup_snoc; auto.
    + intros d. rewrite contents_app. rewrite in_app_iff. simpl. split.
      * intros [H|[H|[]]]; auto.
      * intros [H|[-> _]]; auto.
Qed.
Lemma fold_padd (hp : hp_t) : forall l s, ok hp s -> NoDup (map (fun i => keyof (hp i)) l) ->
  ok hp (fold_left (padd leqb hash hp) l s) /\
  (forall d, In d (ct hp (fold_left (padd leqb hash hp) l s)) <-> In d (ct hp s) \/ (exists i, In i l /\ d = hp i /\ ~ In (keyof (hp i)) (map keyof (ct hp s)))).
Proof.
  induction l as [|i l IH]; intros s O N; cbn [fold_left].
  - split; auto. intros d. split; auto. intros [H|(i & [] & _)]; auto.
  - inversion N as [|? ? NI N']; subst. destruct (padd_ok hp s i O) as [O1 C1]. destruct (IH _ O1 N') as [O2 C2]. split; auto.
    intros d. rewrite C2, C1. split.
    + intros [[H|[-> H]]|(j & I & -> & H)]; auto.
      * right. exists i. split; [left; auto|auto].
      * right. exists j. split; [right; auto|]. split; auto. intros J. apply H. rewrite in_map_iff in J |- *. destruct J as (d' & E & J). exists d'. split; auto. apply C1. auto.
    + intros [H|(j & [<-|I] & -> & H)]; auto. right. exists j. split; auto. split; auto. intros J. rewrite in_map_iff in J. destruct J as (d' & E & J). apply C1 in J.
      destruct J as [J|[-> J]]; [apply H; rewrite in_map_iff; exists d'; auto|]. apply NI. rewrite in_map_iff. exists j. auto.
Qed.
Lemma add_coll_ok (hp : hp_t) a b : ok hp a -> ok hp b ->
  ok hp (add_coll leqb hash hp a b) /\
  forall d, In d (ct hp (add_coll leqb hash hp a b)) <-> In d (ct hp b) \/ (In d (ct hp a) /\ ~ exists d', In d' (ct hp b) /\ keyof d' = keyof d).
Proof.
  intros [Ua Na] Ob. unfold add_coll.
  assert (E : forall l r, fold_left (fun r c => padd leqb hash hp r (snd c)) l r = fold_left (padd leqb hash hp) (map (@snd Z nat) l) r) by (induction l; simpl; auto).
  rewrite E. destruct (fold_padd hp (map snd a) b Ob) as [O C].
  - unfold one_per_key, contents in Na. rewrite map_map in Na. rewrite map_map. exact Na.
  - split; auto. intros d. rewrite C. split.
    + intros [H|(i & I & -> & H)]; auto. right. rewrite in_map_iff in I. destruct I as (e & <- & I). split; [apply in_map_iff; exists e; auto|].
      intros (d' & I' & K). apply H. rewrite <- K. apply in_map. auto.
    + intros [H|[I H]]; auto. right. unfold contents in I. rewrite in_map_iff in I. destruct I as (e & <- & I). exists (snd e). split; [apply in_map; auto|]. split; auto.
      intros J. rewrite in_map_iff in J. destruct J as (d' & K & J). apply H. exists d'. auto.
Qed.
Lemma premove_spec (hp : hp_t) i : forall s, ok hp s -> ok hp (premove leqb hash hp s i) /\
  forall d, In d (ct hp (premove leqb hash hp s i)) <-> In d (ct hp s) /\ keyof d <> keyof (hp i).
Proof.
  induction s as [|e s IH]; intros [U N]. { split; [split; auto|]. simpl. tauto. }
  unfold one_per_key in N. simpl in N. inversion N as [|? ? NI N']; subst.
  assert (Us : up_to_date hash hp s) by (intros x I; apply U; right; auto). simpl. destruct (matches leqb hash hp i e) eqn:M.
  - apply matches_iff in M; [|apply U; left; auto]. split; [split; auto|]. intros d. split.
    + intros I. split; auto. intros K. apply NI. rewrite M, <- K. apply in_map. auto.
    + intros [[<-|I] K]; auto. contradiction.
  - destruct (IH (conj Us N')) as [[U2 N2] C2]. split; [split|].
    + intros x [<-|I]; [apply U; left; auto|apply U2; auto].
    + unfold one_per_key. simpl. constructor; auto. intros J. rewrite in_map_iff in J. destruct J as (d & K & J). apply C2 in J. apply NI. rewrite <- K. apply in_map. tauto.
    + intros d. simpl. rewrite C2. split.
      * intros [<-|[I K]]; auto. split; auto. intros K. apply matches_iff in K; [congruence|]. apply U; left; auto.
      * intros [[<-|I] K]; auto.
Qed.
Lemma add_datum_ok (hp : hp_t) s i : ok hp s -> ok hp (add_datum leqb hash hp s i) /\
  forall d, In d (ct hp (add_datum leqb hash hp s i)) <-> d = hp i \/ (In d (ct hp s) /\ keyof d <> keyof (hp i)).
Proof.
  intros O. unfold add_datum. destruct (pin leqb hash hp i s) eqn:P.
  - destruct (premove_spec hp i s O) as [O1 C1]. destruct (padd_ok hp _ i O1) as [O2 C2]. split; auto. intros d. rewrite C2, C1. split; [tauto|].
    intros [->|H]; auto. right. split; auto. intros J. rewrite in_map_iff in J. destruct J as (d & K & J). apply C1 in J. tauto.
  - destruct (padd_ok hp s i O) as [O2 C2]. split; auto. apply pin_false in P; [|apply O]. intros d. rewrite C2. split.
    + intros [I|[-> _]]; auto. right. split; auto. intros K. apply P. rewrite <- K. apply in_map. auto.
    + intros [->|[I _]]; auto.
Qed.
Lemma ids_nodup (hp : hp_t) s : one_per_key hp s -> NoDup (map snd s).
Proof.
  unfold one_per_key, contents. rewrite map_map. intros N. rewrite <- (map_map snd (fun i => keyof (hp i)) s) in N. apply NoDup_map_inv in N. auto.
Qed.
Lemma hset_eq (hp : hp_t) i d : hset hp i d i = d. Proof. unfold hset. rewrite Nat.eqb_refl. auto. Qed.
Lemma hset_neq (hp : hp_t) i j d : j <> i -> hset hp i d j = hp j.
Proof. intros N. unfold hset. destruct (Nat.eqb_spec j i); congruence. Qed.
Lemma change_all_get f : forall s (hp : hp_t), NoDup (map snd s) ->
  (forall i, In i (map snd s) -> change_all f hp s i = f (hp i)) /\ (forall i, ~ In i (map snd s) -> change_all f hp s i = hp i).
Proof.
  induction s as [|e s IH]; intros hp N; cbn [change_all fold_left map In]. { split; [intros i []|auto]. }
  inversion N as [|? ? NI N']; subst. destruct (IH (hset hp (snd e) (f (hp (snd e)))) N') as [A B]. unfold change_all in *. split.
  - intros i [<-|I]; [rewrite B by auto; apply hset_eq|]. rewrite A by auto. f_equal. apply hset_neq. intros ->. contradiction.
  - intros i J. rewrite B by tauto. apply hset_neq. intros ->. tauto.
Qed.
Lemma change_contents f (hp : hp_t) s : one_per_key hp s -> ct (change_all f hp s) s = map f (ct hp s).
Proof.
  intros N. apply ids_nodup in N. unfold contents. rewrite map_map. apply map_ext_in. intros e I. apply (change_all_get f s hp N). apply in_map. auto.
Qed.
Lemma change_ok f (hp : hp_t) s : (forall d, keyof (f d) = keyof d) -> ok hp s -> ok (change_all f hp s) s /\ ct (change_all f hp s) s = map f (ct hp s).
Proof.
  intros F [U N]. pose proof (change_contents f hp s N) as C. split; auto. split.
  - intros e I. rewrite (proj1 (change_all_get f s hp (ids_nodup hp s N)) (snd e) (in_map snd _ _ I)), F. auto.
  - unfold one_per_key. rewrite C, map_map. rewrite (map_ext _ keyof); auto.
Qed.
Lemma change_any f (hp : hp_t) s i : ~ In i (map snd s) -> change_all f hp s i = hp i.
Proof.
  revert hp. induction s as [|e s IH]; intros hp NI; auto. simpl in NI. unfold change_all in *. cbn [fold_left]. rewrite IH by tauto. apply hset_neq. intros ->. tauto.
Qed.
Lemma remove_internals_ok (hp : hp_t) s : one_per_key hp s -> ok hp (remove_internals leqb hash hp s) /\
  forall d, In d (ct hp (remove_internals leqb hash hp s)) <-> In d (ct hp s) /\ d_internal d = false.
Proof.
  intros N. unfold remove_internals, pset_of. set (l := filter (fun i => negb (d_internal (hp i))) (map snd s)).
  assert (Nl : NoDup (map (fun i => keyof (hp i)) l)).
  { unfold one_per_key, contents in N. rewrite map_map in N. unfold l. clear l. induction s as [|e s IH]; simpl; [constructor|]. simpl in N. inversion N as [|? ? NI N']; subst.
    destruct (negb (d_internal (hp (snd e)))); auto. simpl. constructor; auto. intros J. apply NI. rewrite in_map_iff in J |- *. destruct J as (i & K & J). apply filter_In in J. destruct J as [J _].
    rewrite in_map_iff in J. destruct J as (x & <- & J). exists x. auto. }
  destruct (fold_padd hp l [] (conj (fun e (I : In e []) => match I with end) (NoDup_nil _)) Nl) as [O C]. split; auto.
  intros d. rewrite C. assert (Cs : In d (ct hp s) <-> exists e, hp (snd e) = d /\ In e s) by (unfold contents; apply in_map_iff). rewrite Cs. split.
  - intros [[]|(i & I & -> & _)]. unfold l in I. apply filter_In in I. destruct I as [I H]. apply negb_true_iff in H. split; auto. rewrite in_map_iff in I. destruct I as (e & <- & I). exists e. auto.
  - intros [(e & <- & I) H]. right. exists (snd e). split; [|auto]. apply filter_In. split; [apply in_map; auto|]. rewrite H. auto.
Qed.

(** add_labels *)
Section Labels.
Variables (lmerge : Lab -> Lab -> Lab) (l : Lab).
Notation wl := (with_labels (V:=V) lmerge l).
Notation stepl := (fun st (e : Z * nat) => let hp' := hset (fst st) (snd e) (wl (fst st (snd e))) in (hp', padd leqb hash hp' (snd st) (snd e))).
Lemma ct_ext (hp hp' : hp_t) s : (forall e, In e s -> hp' (snd e) = hp (snd e)) -> ct hp' s = ct hp s.
Proof. intros H. apply map_ext_in. auto. Qed.
Lemma ok_ext (hp hp' : hp_t) s : (forall e, In e s -> hp' (snd e) = hp (snd e)) -> ok hp s -> ok hp' s.
Proof. intros H [U N]. split; [intros e I; rewrite H by auto; auto|]. unfold one_per_key. rewrite (ct_ext hp hp'); auto. Qed.
Lemma padd_ids (hp : hp_t) s i e : In e (padd leqb hash hp s i) -> In e s \/ snd e = i.
Proof. unfold padd. destruct (pin leqb hash hp i s); auto. intros I. apply in_app_or in I. destruct I as [I|[<-|[]]]; auto. Qed.
Lemma add_labels_gen : forall s (hp : hp_t) out, NoDup (map snd s) -> (forall e, In e out -> ~ In (snd e) (map snd s)) -> ok hp out ->
  let r := fold_left stepl s (hp, out) in
  ok (fst r) (snd r) /\
  (forall i, In i (map snd s) -> fst r i = wl (hp i)) /\ (forall i, ~ In i (map snd s) -> fst r i = hp i) /\
  (forall d, In d (ct (fst r) (snd r)) -> In d (ct hp out) \/ exists i, In i (map snd s) /\ d = wl (hp i)) /\
  (forall d, In d (ct hp out) -> In d (ct (fst r) (snd r))) /\
  (forall i, In i (map snd s) -> In (keyof (wl (hp i))) (map keyof (ct (fst r) (snd r)))).
Proof.
  induction s as [|e s IH]; intros hp out N D O; cbn [fold_left].
  - cbn [fst snd map]. split; [auto|]. split; [intros i []|]. split; [auto|]. split; [auto|]. split; [auto|]. intros i [].
  - cbn [map] in N, D. inversion N as [|? ? NI N']; subst. set (hp1 := hset hp (snd e) (wl (hp (snd e)))). cbn [fst snd]. fold hp1.
    assert (Ex : forall x, In x out -> hp1 (snd x) = hp (snd x)). { intros x I. apply hset_neq. intros E. apply (D x I). left. auto. }
    assert (O1 : ok hp1 out) by (apply (ok_ext hp hp1); auto). destruct (padd_ok hp1 out (snd e) O1) as [O2 C2].
    assert (He : hp1 (snd e) = wl (hp (snd e))) by apply hset_eq.
    destruct (IH hp1 (padd leqb hash hp1 out (snd e)) N') as (R1 & R2 & R3 & R4 & R5 & R6); auto.
    { intros x I J. apply padd_ids in I. destruct I as [I|I]; [apply (D x I); right; auto|]. apply NI. rewrite <- I. auto. }
    assert (Eo : forall i, In i (map snd s) -> hp1 i = hp i) by (intros i I; apply hset_neq; intros ->; contradiction).
    cbv zeta. split; auto. split; [|split; [|split; [|split]]].
    + intros i [<-|I]; [rewrite R3 by auto; auto|rewrite R2, Eo by auto; auto].
    + intros i J. simpl in J. rewrite R3 by tauto. apply hset_neq. intros ->. tauto.
    + intros d I. apply R4 in I. destruct I as [I|(i & I & ->)].
      * apply C2 in I. destruct I as [I|[-> _]]; [left; rewrite <- (ct_ext hp hp1); auto|]. right. exists (snd e). split; [left; auto|auto].
      * right. exists i. split; [right; auto|]. rewrite Eo; auto.
    + intros d I. apply R5. apply C2. left. rewrite (ct_ext hp hp1); auto.
    + intros i [<-|I].
      * rewrite <- He. destruct (in_dec (fun a b => match dkey_eqb leqb a b as b0 return (dkey_eqb leqb a b = b0 -> _) with true => fun H => left (proj1 (dkey_eqb_ok a b) H) | false => fun H => right (fun E => eq_ind true (fun b => if b then True else False) I false (eq_trans (eq_sym (proj2 (dkey_eqb_ok a b) E)) H)) end eq_refl) (keyof (hp1 (snd e))) (map keyof (ct hp1 out))) as [J|J].
        -- rewrite in_map_iff in J. destruct J as (d & K & J). rewrite <- K. apply in_map. apply R5. apply C2. auto.
        -- apply in_map. apply R5. apply C2. auto.
      * rewrite <- Eo by auto. auto.
Qed.
Lemma add_labels_ok (hp : hp_t) s : one_per_key hp s ->
  let r := add_labels leqb lmerge hash l hp s in
  ok (fst r) (snd r) /\
  (forall d, In d (ct (fst r) (snd r)) -> exists d0, In d0 (ct hp s) /\ d = wl d0) /\
  (forall d0, In d0 (ct hp s) -> exists d, In d (ct (fst r) (snd r)) /\ keyof d = keyof (wl d0)) /\
  (forall i, ~ In i (map snd s) -> fst r i = hp i).
Proof.
  intros N. destruct (add_labels_gen s hp [] (ids_nodup hp s N)) as (R1 & R2 & R3 & R4 & R5 & R6).
  { intros e []. } { split; [intros e []|constructor]. }
  cbv zeta in *. unfold add_labels. split; auto. split; [|split]; auto.
  - intros d I. apply R4 in I. destruct I as [[]|(i & I & ->)]. exists (hp i). split; auto. rewrite in_map_iff in I. destruct I as (e & <- & I). unfold contents. apply in_map_iff. exists e. auto.
  - intros d0 I. unfold contents in I. rewrite in_map_iff in I. destruct I as (e & <- & I). assert (J : In (snd e) (map snd s)) by (apply in_map; auto).
    apply R6 in J. rewrite in_map_iff in J. destruct J as (d & K & J). exists d. auto.
Qed.
End Labels.

(** strict_eq *)
Section Strict.
Variables (veqb : V -> V -> bool) (vok : eqb_ok veqb).
Lemma find_equal_Some (hp : hp_t) i : forall s j, find_equal leqb hp i s = Some j -> In (hp j) (ct hp s) /\ keyof (hp j) = keyof (hp i).
Proof.
  induction s as [|e s IH]; intros j; simpl; [discriminate|]. destruct (dkey_eqb leqb (keyof (hp i)) (keyof (hp (snd e)))) eqn:E.
  - apply dkey_eqb_ok in E. intros H. injection H as <-. auto.
  - intros H. destruct (IH j H). auto.
Qed.
Lemma find_equal_None (hp : hp_t) i : forall s, find_equal leqb hp i s = None <-> ~ In (keyof (hp i)) (map keyof (ct hp s)).
Proof.
  induction s as [|e s IH]; simpl; [tauto|]. destruct (dkey_eqb leqb (keyof (hp i)) (keyof (hp (snd e)))) eqn:E.
  - apply dkey_eqb_ok in E. split; [discriminate|]. intros H. exfalso. auto.
  - rewrite IH. split; [|tauto]. intros H [K|J]; auto. rewrite (proj2 (dkey_eqb_ok _ _) (eq_sym K)) in E. discriminate.
Qed.
Lemma strict_loop_spec (hp : hp_t) b : one_per_key hp b -> forall a n r, strict_loop leqb veqb hp a b n = Some r <->
  r = (n + length a)%nat /\ forall d, In d (ct hp a) -> exists d', In d' (ct hp b) /\ keyof d' = keyof d /\ d_value d' = d_value d.
Proof.
  intros N. induction a as [|e a IH]; intros n r; cbn [strict_loop].
  - simpl. split; [intros H; injection H as <-; split; [lia|tauto]|]. intros [-> _]. f_equal. lia.
  - destruct (find_equal leqb hp (snd e) b) as [j|] eqn:F.
    + apply find_equal_Some in F. destruct F as [Fj Fk]. destruct (veqb (d_value (hp (snd e))) (d_value (hp j))) eqn:Ve.
      * apply vok in Ve. rewrite IH. cbn [length]. split.
        -- intros [-> H]. split; [lia|]. intros d [<-|I]; auto. exists (hp j). auto.
        -- intros [-> H]. split; [lia|]. intros d I. apply H. right. auto.
      * split; [discriminate|]. intros [_ H]. exfalso. destruct (H (hp (snd e)) (or_introl eq_refl)) as (d' & I & K & Vd).
        assert (d' = hp j) by (apply (NoDup_key_eq keyof (ct hp b)); auto; congruence).
        subst d'. rewrite (proj2 (vok _ _) (eq_sym Vd)) in Ve. discriminate.
    + apply find_equal_None in F. split; [discriminate|]. intros [_ H]. exfalso. destruct (H (hp (snd e)) (or_introl eq_refl)) as (d' & I & K & _). apply F. rewrite <- K. apply in_map. auto.
Qed.
Lemma strict_eq_ok (hp : hp_t) a b : one_per_key hp a -> one_per_key hp b -> strict_eq leqb veqb hp a b = true <->
  forall k v, (exists d, In d (ct hp a) /\ keyof d = k /\ d_value d = v) <-> (exists d, In d (ct hp b) /\ keyof d = k /\ d_value d = v).
Proof.
  intros Na Nb. unfold strict_eq. destruct (strict_loop leqb veqb hp a b 0) as [n|] eqn:E.
  - apply strict_loop_spec in E; auto. destruct E as [-> H]. cbn [Nat.add]. rewrite Nat.eqb_eq.
    assert (Inc : incl (map keyof (ct hp a)) (map keyof (ct hp b))).
    { intros k J. rewrite in_map_iff in J. destruct J as (d & <- & J). destruct (H d J) as (d' & I' & K & _). rewrite <- K. apply in_map. auto. }
    split.
    + intros Le k v. split.
      * intros (d & I & <- & <-). destruct (H d I) as (d' & I' & K & Vd). exists d'. auto.
      * intros (d & I & <- & <-). assert (J : In (keyof d) (map keyof (ct hp a))).
        { refine (NoDup_length_incl (l' := map keyof (ct hp b)) Na _ Inc (keyof d) _); [unfold contents; rewrite !map_length; lia|]. apply in_map. auto. }
        rewrite in_map_iff in J. destruct J as (d0 & K0 & J). destruct (H d0 J) as (d' & I' & K & Vd). exists d0. split; auto. split; auto.
        assert (d' = d) by (apply (NoDup_key_eq keyof (ct hp b)); auto; congruence).
        subst. auto.
    + intros Eq. assert (Inc2 : incl (map keyof (ct hp b)) (map keyof (ct hp a))).
      { intros k J. rewrite in_map_iff in J. destruct J as (d & <- & J). destruct (proj2 (Eq (keyof d) (d_value d)) (ex_intro _ d (conj J (conj eq_refl eq_refl)))) as (d' & I' & K & _). rewrite <- K. apply in_map. auto. }
      apply NoDup_incl_length in Inc; auto. apply NoDup_incl_length in Inc2; auto. unfold contents in *. rewrite !map_length in *. lia.
  - split; [discriminate|]. intros Eq. exfalso.
    assert (X : strict_loop leqb veqb hp a b 0 = Some (0 + length a)%nat).
    { apply strict_loop_spec; auto. split; auto. intros d I. destruct (proj1 (Eq (keyof d) (d_value d)) (ex_intro _ d (conj I (conj eq_refl eq_refl)))) as (d' & I' & K & Vd). exists d'. auto. }
    congruence.
Qed.
End Strict.
End P.

(** ** JSON *)
Lemma sok : eqb_ok String.eqb. Proof. intros a b. apply String.eqb_eq. Qed.
Lemma dset_new (d : jdict) k v : ~ In k (dkeys d) -> dset String.eqb d k v = d ++ [(k, v)].
Proof.
  induction d as [|[k0 v0] d IH]; simpl; auto. intros N. destruct (String.eqb_spec k0 k) as [->|Ne]; [tauto|]. rewrite IH; auto.
Qed.
Lemma fold_labels : forall (l k : jdict), NoDup (map fst l) -> (forall n, In n (map fst l) -> ~ In n (dkeys k)) -> fold_left (fun k e => dset String.eqb k (fst e) (snd e)) l k = k ++ l.
Proof.
  induction l as [|[n v] l IH]; intros k N H; simpl. { rewrite app_nil_r. auto. }
  simpl in N. inversion N as [|? ? NI N']; subst. rewrite dset_new by (apply H; left; auto). rewrite IH; auto.
  - rewrite <- app_assoc. auto.
  - intros m I. unfold dkeys. rewrite map_app. simpl. intros J. apply in_app_or in J. destruct J as [J|[<-|[]]]; [apply (H m); [right; auto|auto]|]. contradiction.
Qed.
Lemma json_one_ok d : plain_labels (j_labels d) -> boolean (j_internal d) -> from_json (to_json d) = Ok d.
Proof.
  intros [N R] [b B]. destruct d as [nm vl lb tm it]. simpl in *. subst it. unfold to_json. cbn [j_name j_value j_labels j_time j_internal truthy].
  assert (Nr : forall r, In r reserved -> ~ In r (map fst lb)) by (intros r I J; apply (R r J I)).
  rewrite fold_labels; auto. 2:{ intros n I J. apply (R n I). simpl in J |- *. tauto. }
  assert (Dn : forall r (x : jdict), In r reserved -> dget String.eqb (lb ++ x) r = dget String.eqb x r).
  { intros r x I. clear -Nr I. specialize (Nr r I). induction lb as [|[k0 v0] lb IH]; simpl in *; auto. destruct (String.eqb_spec k0 r) as [->|]; [tauto|]. apply IH. tauto. }
  assert (Dd : forall r (x : jdict), In r reserved -> ddel String.eqb (lb ++ x) r = lb ++ ddel String.eqb x r).
  { intros r x I. clear -Nr I. specialize (Nr r I). induction lb as [|[k0 v0] lb IH]; simpl in *; auto. destruct (String.eqb_spec k0 r) as [->|]; [tauto|]. f_equal. apply IH. tauto. }
  assert (Ds : forall r v (x : jdict), In r reserved -> dset String.eqb (lb ++ x) r v = lb ++ dset String.eqb x r v).
  { intros r v x I. clear -Nr I. specialize (Nr r I). induction lb as [|[k0 v0] lb IH]; simpl in *; auto. destruct (String.eqb_spec k0 r) as [->|]; [tauto|]. f_equal. apply IH. tauto. }
  assert (I1 : In "_name"%string reserved) by (simpl; auto). assert (I2 : In "_"%string reserved) by (simpl; auto).
  assert (I3 : In "_timestamp"%string reserved) by (simpl; auto). assert (I4 : In "_internal"%string reserved) by (simpl; auto).
  assert (G : forall x : jdict, from_json (("_name"%string, nm) :: ("_"%string, vl) :: lb ++ x) =
     Ok {| j_name := nm; j_value := vl; j_labels := lb ++ ddel String.eqb (ddel String.eqb x "_timestamp"%string) "_internal"%string;
           j_time := or_else (dget String.eqb x "_timestamp"%string) JNull; j_internal := or_else (dget String.eqb (ddel String.eqb x "_timestamp"%string) "_internal"%string) (JBool false) |}).
  { intros x. unfold from_json, jpop. cbn [dget ddel String.eqb Ascii.eqb Bool.eqb]. rewrite (Dn _ x I3). pose proof (Dd _ x I3) as E3. cbv delta [jdict] in *. rewrite E3. rewrite (Dn _ _ I4), (Dd _ _ I4).
   reflexivity. }
  assert (A : forall r v (x : jdict), In r reserved -> r <> "_name"%string -> r <> "_"%string ->
     dset String.eqb (("_name"%string, nm) :: ("_"%string, vl) :: lb ++ x) r v = ("_name"%string, nm) :: ("_"%string, vl) :: lb ++ dset String.eqb x r v).
  { intros r v x I N1 N2. cbn [dset]. destruct (String.eqb_spec "_name" r); [congruence|]. destruct (String.eqb_spec "_" r); [congruence|]. do 2 f_equal. apply Ds. auto. }
  assert (L : [("_name"%string, nm); ("_"%string, vl)] ++ lb = ("_name"%string, nm) :: ("_"%string, vl) :: lb ++ []) by (rewrite app_nil_r; auto).
  pose proof (A _ (JBool true) [] I4 ltac:(discriminate) ltac:(discriminate)) as A4.
  assert (A3 : forall t, dset String.eqb (("_name"%string, nm) :: ("_"%string, vl) :: lb ++ []) "_timestamp"%string t = ("_name"%string, nm) :: ("_"%string, vl) :: lb ++ [("_timestamp"%string, t)]) by (intros t; apply (A _ t []); auto; discriminate).
  assert (A34 : forall t, dset String.eqb (("_name"%string, nm) :: ("_"%string, vl) :: lb ++ [("_timestamp"%string, t)]) "_internal"%string (JBool true) = ("_name"%string, nm) :: ("_"%string, vl) :: lb ++ [("_timestamp"%string, t); ("_internal"%string, JBool true)]) by (intros t; exact (A _ (JBool true) [("_timestamp"%string, t)] I4 ltac:(discriminate) ltac:(discriminate))).
  rewrite L. destruct tm, b; rewrite ?A3, ?A34, ?A4, G; cbn; rewrite app_nil_r; auto.
Qed.

Lemma label_merge_get {K W : Type} (keqb : K -> K -> bool) (ok : eqb_ok keqb) (l : dict K W) : dwf l -> forall d k,
  dget keqb (label_merge keqb d l) k = match dget keqb l k with Some v => Some v | None => dget keqb d k end.
Proof.
  unfold dwf, label_merge. induction l as [|[a v] l IH]; intros wf d k; auto. simpl in *. inversion wf as [|? ? W1 W2]; subst. rewrite IH; auto. destruct (keqb a k) eqn:E.
  - apply ok in E. subst a. rewrite (dget_dset_eq ok). destruct (dget keqb l k) eqn:El; auto. exfalso. apply W1. apply (dget_In ok) in El. apply (in_map fst) in El. auto.
  - destruct (dget keqb l k); auto. rewrite (dget_dset_neq ok); auto. intros ->. assert (keqb a a = true) by (apply ok; auto). congruence.
Qed.

Lemma names_joined (Lab V : Type) p (d : datum Lab V) : p <> ""%string -> d_name d <> ""%string ->
  d_name (prefixed p d) = (p ++ "." ++ d_name d)%string /\ d_name (postfixed p d) = (d_name d ++ "." ++ p)%string /\
  d_value (prefixed p d) = d_value d /\ d_labels (prefixed p d) = d_labels d /\ d_value (postfixed p d) = d_value d /\ d_labels (postfixed p d) = d_labels d.
Proof.
  intros H1 H2. unfold prefixed, postfixed, join_name. simpl. destruct (String.eqb_spec p ""); [tauto|]. destruct (String.eqb_spec (d_name d) ""); [tauto|]. repeat split.
Qed.

Lemma from_json_ok : forall x : jdict, NoDup (map fst x) ->
  match dget String.eqb x "_name"%string, dget String.eqb x "_"%string with
  | Some name, Some value =>
    exists d, from_json x = Ok d /\ j_name d = name /\ j_value d = value /\
      j_time d = match dget String.eqb x "_timestamp"%string with Some t => t | None => JNull end /\
      j_internal d = match dget String.eqb x "_internal"%string with Some i => i | None => JBool false end /\
      forall k, dget String.eqb (j_labels d) k = if in_dec string_dec k reserved then None else dget String.eqb x k
  | _, _ => from_json x = Err KeyError
  end.
Proof.
  intros x N. assert (sok : eqb_ok String.eqb) by (intros a b; apply String.eqb_eq).
  unfold from_json, jpop. destruct (dget String.eqb x "_name"%string) as [nm|] eqn:E1; auto.
  rewrite (dget_ddel_neq sok) by discriminate. destruct (dget String.eqb x "_"%string) as [vl|] eqn:E2; auto.
  rewrite !(dget_ddel_neq sok) by discriminate. eexists. split; [reflexivity|]. cbn [j_name j_value j_time j_internal j_labels]. repeat split; auto.
  assert (W1 := ddel_wf String.eqb "_name"%string N). assert (W2 := ddel_wf String.eqb "_"%string W1). assert (W3 := ddel_wf String.eqb "_timestamp"%string W2).
  intros k. destruct (in_dec string_dec k reserved) as [I|I].
  - simpl in I. destruct I as [<-|[<-|[<-|[<-|[]]]]].
    + rewrite !(@dget_ddel_neq _ _ _ sok _ _ "_name"%string) by discriminate. apply (dget_ddel_eq sok). auto.
    + rewrite !(@dget_ddel_neq _ _ _ sok _ _ "_"%string) by discriminate. apply (dget_ddel_eq sok). auto.
    + rewrite !(@dget_ddel_neq _ _ _ sok _ _ "_timestamp"%string) by discriminate. apply (dget_ddel_eq sok). auto.
    + apply (dget_ddel_eq sok). auto.
  - simpl in I. rewrite !(dget_ddel_neq sok) by (intros ->; tauto). auto.
Qed.

Lemma to_json_quiet : forall d, plain_labels (j_labels d) -> j_time d = JNull -> j_internal d = JNull \/ j_internal d = JBool false ->
  to_json d = ("_name"%string, j_name d) :: ("_"%string, j_value d) :: j_labels d.
Proof.
  intros d P T I.
  unfold to_json. rewrite T. replace (truthy (j_internal d)) with false by (destruct I as [->| ->]; auto). destruct P as [N R].
  enough (G : forall l acc : jdict, NoDup (map fst (acc ++ l)) -> fold_left (fun k e => dset String.eqb k (fst e) (snd e)) l acc = acc ++ l).
  { rewrite (G (j_labels d)); auto. simpl. constructor; [|constructor; auto].
    - simpl. intros [E|E]; [discriminate|]. apply (R _ E). simpl. auto.
    - intros E. apply (R _ E). simpl. auto. }
  clear. induction l as [|[k v] l IH]; intros acc N; simpl; [rewrite app_nil_r; auto|].
  assert (E : dset String.eqb acc k v = acc ++ [(k, v)]).
  { clear IH. induction acc as [|[a b] acc IH]; auto. simpl in *. inversion N as [|? ? N1 N2]; subst. destruct (String.eqb_spec a k) as [->|].
    - exfalso. apply N1. rewrite map_app, in_app_iff. simpl. auto.
    - rewrite IH; auto. }
  rewrite E, IH; rewrite <- app_assoc; auto.
Qed.
