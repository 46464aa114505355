From Coq Require Import String.
From Verif Require Import Prelude PreludeFacts Schema_Model Schema_Spec Schema_Proofs SchemaJson_Model SchemaJson_Spec.
Set Implicit Arguments.
Local Open Scope string_scope.
Open Scope list_scope.

Notation fld := (string * (option cv * ty))%type.

Section TyInd.
  Variable P : ty -> Prop.
  Hypothesis HA : P TAny.
  Hypothesis HP : forall n, P (TPlain n).
  Hypothesis HC : forall e s, P (TContents e s).
  Hypothesis HF : forall f, P (TCast f).
  Hypothesis HL : forall t, P t -> P (TList t).
  Hypothesis HU : forall ts, Forall P ts -> P (TUnion ts).
  Hypothesis HD : forall fs, Forall (fun f : fld => P (snd (snd f))) fs -> P (TDict fs).
  Fixpoint ty_ind' (t : ty) : P t :=
    match t with
    | TAny => HA | TPlain n => HP n | TContents e s => HC e s | TCast f => HF f
    | TList t => HL (ty_ind' t)
    | TUnion ts => HU ((fix go l : Forall P l := match l with [] => Forall_nil _ | x :: r => Forall_cons x (ty_ind' x) (go r) end) ts)
    | TDict fs => HD ((fix go l : Forall (fun f : fld => P (snd (snd f))) l :=
                         match l with [] => Forall_nil _ | x :: r => Forall_cons x (ty_ind' (snd (snd x))) (go r) end) fs)
    end.
End TyInd.

Lemma every_Forall {A} (P : A -> Prop) l : every P l <-> Forall P l.
Proof. induction l as [|x t IH]; simpl; split; intros H; auto.
  - constructor; tauto. - inversion H; subst. tauto. Qed.
Lemma pairwise_Forall2 {A B} (P : A -> B -> Prop) l m : pairwise P l m <-> Forall2 P l m.
Proof.
  revert m. induction l as [|x t IH]; intros [|y u]; simpl; split; intros H; auto; try contradiction; try solve [inversion H].
  - constructor; [tauto|]. apply IH. tauto.
  - inversion H; subst. split; auto. apply IH. auto.
Qed.
Lemma in_turn_in_order {A B} (f : A -> res B) l : in_turn f l = in_order f l.
Proof. induction l as [|x t IH]; simpl; auto. rewrite IH. reflexivity. Qed.
Lemma in_order_ext {A B} (f g : A -> res B) l : (forall x, In x l -> f x = g x) -> in_order f l = in_order g l.
Proof. induction l as [|x t IH]; simpl; intros H; auto. rewrite (H x) by auto. rewrite IH by auto. reflexivity. Qed.
Lemma max_le {A} (f : A -> nat) l n : Forall (fun x => f x <= n) l -> fold_right Nat.max 0 (map f l) <= n.
Proof. induction 1; simpl; lia. Qed.
Lemma Forall2_impl' {A B} (P Q : A -> B -> Prop) l m : (forall x y, In x l -> P x y -> Q x y) -> Forall2 P l m -> Forall2 Q l m.
Proof. intros H F. induction F; constructor; auto with datatypes. Qed.

(** ** dictionaries as lists *)
Lemma dset_fresh {V} (d : dict string V) k v : ~ In k (map fst d) -> dset String.eqb d k v = d ++ [(k, v)].
Proof.
  induction d as [|[k' v'] t IH]; simpl; intros H; auto. destruct (String.eqb k' k) eqn:E.
  - apply String.eqb_eq in E. tauto. - rewrite IH by tauto. reflexivity.
Qed.
Lemma ddel_filter {V} (d : dict string V) k : NoDup (map fst d) ->
  ddel String.eqb d k = filter (fun e => negb (String.eqb (fst e) k)) d.
Proof.
  induction d as [|[k' v'] t IH]; simpl; intros H; auto. inversion H as [|? ? Hn Ht]; subst. destruct (String.eqb k' k) eqn:E; simpl.
  - apply String.eqb_eq in E. subst k'. clear - Hn.
    assert (G : forall u, ~ In k (map fst u) -> @filter (string * V) (fun e => negb (String.eqb (fst e) k)) u = u).
    { induction u as [|[a b] u IH]; simpl; intros Hu; auto. destruct (String.eqb a k) eqn:E; simpl.
      - apply String.eqb_eq in E. tauto. - rewrite IH by tauto. reflexivity. }
    symmetry. apply G. exact Hn.
  - rewrite IH by auto. reflexivity.
Qed.
Lemma filter_filter {A} (f g : A -> bool) l : filter f (filter g l) = filter (fun x => g x && f x) l.
Proof. induction l as [|x t IH]; simpl; auto. destruct (g x) eqn:E; simpl; rewrite IH; reflexivity. Qed.
Lemma NoDup_filter_keys {V} (f : string * V -> bool) d : NoDup (map fst d) -> NoDup (map fst (filter f d)).
Proof.
  induction d as [|x t IH]; simpl; intros H; auto. inversion H as [|? ? Hn Ht]; subst. destruct (f x); simpl; auto. constructor; auto.
  intros Hi. apply Hn. apply in_map_iff in Hi. destruct Hi as (y & Ey & Hy). apply filter_In in Hy. rewrite <- Ey. apply in_map. tauto.
Qed.
Lemma dget_filter {V} (d : dict string V) k k' : k <> k' ->
  dget String.eqb (filter (fun e => negb (String.eqb (fst e) k')) d) k = dget String.eqb d k.
Proof.
  intros Hk. induction d as [|[a b] t IH]; simpl; auto. destruct (String.eqb a k') eqn:E; simpl.
  - apply String.eqb_eq in E. subst a. destruct (String.eqb k' k) eqn:E2; auto. apply String.eqb_eq in E2. congruence.
  - destruct (String.eqb a k); auto.
Qed.

(** what a key of a Dict contributes *)
Definition piece (cl : desc -> cv -> res cv * desc) (kvs : dict string cv) (e : string * (bool * cv * desc)) : res (string * cv) :=
  match e with (k, (o, df, d)) =>
    match dget String.eqb kvs k with
    | Some x => match fst (cl d x) with Ok w => Ok (k, w) | Err e => Err e end
    | None => if o then Ok (k, df) else Err ConfigurationValidationError
    end
  end.
Lemma keys_loop_exact cl keys : forall value output,
  NoDup (map fst keys) -> NoDup (map fst value) -> (forall k, In k (map fst keys) -> ~ In k (map fst output)) ->
  fst (keys_loop cl keys value output) =
  match in_order (piece cl value) keys with
  | Ok out => Ok (filter (fun e => negb (existsb (String.eqb (fst e)) (map fst keys))) value, output ++ out)
  | Err e => Err e
  end.
Proof.
  induction keys as [|[k0 [[o df] d]] t IH]; intros value output Hnd Hv Ho; simpl.
  - rewrite app_nil_r. f_equal. f_equal. clear. induction value as [|x u IH]; simpl; auto. rewrite <- IH. reflexivity.
  - inversion Hnd as [|? ? Hni Hnd']; subst.
    assert (Hstep : forall w, forall k, In k (map fst t) -> ~ In k (map fst (output ++ [(k0, w)]))).
    { intros w k Hk Hi. rewrite map_app, in_app_iff in Hi. simpl in Hi. destruct Hi as [Hi|[<-|[]]]; [|contradiction].
      eapply Ho; [right; exact Hk|exact Hi]. }
    assert (Hext : forall value', (forall k, In k (map fst t) -> dget String.eqb value' k = dget String.eqb value k) ->
                   in_order (piece cl value') t = in_order (piece cl value) t).
    { intros value' Hg. apply in_order_ext. intros [k [[o' df'] d']] Hin. unfold piece. rewrite Hg; auto. apply (in_map fst) in Hin. exact Hin. }
    destruct (dget String.eqb value k0) as [x|] eqn:Ex.
    + destruct (cl d x) as [[w|e] d'] eqn:Ec; simpl; auto.
      destruct (keys_loop cl t (ddel String.eqb value k0) (dset String.eqb output k0 w)) as [r t'] eqn:Ek.
      assert (E : r = fst (keys_loop cl t (ddel String.eqb value k0) (dset String.eqb output k0 w))) by (rewrite Ek; reflexivity).
      simpl. rewrite E. rewrite dset_fresh by (apply Ho; left; reflexivity). rewrite ddel_filter by auto.
      rewrite IH; auto; [|apply NoDup_filter_keys; auto].
      rewrite Hext. 2:{ intros k Hk. apply dget_filter. intros ->. contradiction. }
      destruct (in_order (piece cl value) t) as [out|e]; auto. rewrite filter_filter, <- app_assoc. f_equal. f_equal.
      apply filter_ext. intros [a b]. simpl. rewrite Bool.negb_orb. reflexivity.
    + destruct o; simpl; auto.
      destruct (keys_loop cl t value (dset String.eqb output k0 df)) as [r t'] eqn:Ek.
      assert (E : r = fst (keys_loop cl t value (dset String.eqb output k0 df))) by (rewrite Ek; reflexivity).
      simpl. rewrite E. rewrite dset_fresh by (apply Ho; left; reflexivity).
      rewrite IH; auto.
      destruct (in_order (piece cl value) t) as [out|e]; auto. rewrite <- app_assoc. f_equal. f_equal.
      apply filter_ext_in. intros [a b] Hab. simpl. rewrite Bool.negb_orb. destruct (String.eqb a k0) eqn:E2; auto.
      apply String.eqb_eq in E2. subst a. apply (dget_None streqb_ok) in Ex. exfalso. apply Ex. apply (in_map fst) in Hab. exact Hab.
Qed.
Lemma unknown_id value : forall output, NoDup (map fst value) -> (forall k, In k (map fst value) -> ~ In k (map fst output)) ->
  unknown_loop (fun _ v => Ok v) value output = Ok (output ++ value).
Proof.
  induction value as [|[k v] t IH]; intros output H Ho; simpl.
  - rewrite app_nil_r. reflexivity.
  - inversion H as [|? ? Hn Ht]; subst. rewrite dset_fresh by (apply Ho; left; reflexivity). rewrite IH; auto.
    + rewrite <- app_assoc. reflexivity.
    + intros k' Hk. rewrite map_app, in_app_iff. simpl. intros [Hi|[->|[]]]; [|contradiction]. eapply Ho; [right; exact Hk|exact Hi].
Qed.
Lemma in_order_keys cl kvs keys out : in_order (piece cl kvs) keys = Ok out -> map fst out = map fst keys.
Proof.
  revert out. induction keys as [|[k [[o df] d]] t IH]; simpl; intros out H.
  - injection H as <-. reflexivity.
  - destruct (dget String.eqb kvs k) as [x|].
    + destruct (fst (cl d x)); [|discriminate]. destruct (in_order (piece cl kvs) t); [|discriminate]. injection H as <-. simpl. f_equal. auto.
    + destruct o; [|discriminate]. destruct (in_order (piece cl kvs) t); [|discriminate]. injection H as <-. simpl. f_equal. auto.
Qed.
Lemma dict_exact n keys kvs : NoDup (map fst keys) -> NoDup (map fst kvs) ->
  fst (call (S n) (new_dict keys (fun _ v => Ok v)) (CDict kvs)) =
  match in_order (piece (call n) kvs) keys with
  | Ok out => Ok (CDict (out ++ filter (fun e => negb (existsb (String.eqb (fst e)) (map fst keys))) kvs))
  | Err e => Err e
  end.
Proof.
  intros H1 H2. unfold new_dict. rewrite dict_call_shape.
  2:{ intros c [<-|[]]. reflexivity. } 2:{ intros c []. }
  rewrite keys_loop_exact; auto. destruct (in_order (piece (call n) kvs) keys) as [out|e] eqn:E; auto. simpl.
  rewrite unknown_id; auto.
  - apply NoDup_filter_keys. auto.
  - intros k Hk. rewrite (in_order_keys _ _ _ E). intros Hi. apply in_map_iff in Hk. destruct Hk as ([a b] & Ea & Hab). simpl in Ea. subst a.
    apply filter_In in Hab. destruct Hab as [_ Hb]. simpl in Hb. apply Bool.negb_true_iff in Hb.
    assert (T : existsb (String.eqb k) (map fst keys) = true) by (apply existsb_exists; exists k; split; auto; apply String.eqb_refl).
    congruence.
Qed.

Section Main.
  Variable reg : registry.
  Variable qualname : nat -> option string.
  Variable resolve : dict string cv -> res (cv -> res cv).
  Variable prim : string -> cv -> res cv.
  Variable contents : cv -> cv -> cv -> res cv.

  Definition fits (p : option cv) (o : bool) (df : cv) : Prop :=
    match p with Some x => o = true /\ df = x | None => o = false end.
  (** the descriptor is one for the type *)
  Fixpoint describes (t : ty) (d : desc) : Prop :=
    match t with
    | TAny => d = any
    | TPlain n => simple d /\ forall v, fst (call 1 d v) = prim n v
    | TContents e s => d = DBasic [] [] (contents e s)
    | TCast f => d = DCaster f
    | TList t => exists td, d = new_list td /\ describes t td
    | TUnion ts => exists ds, d = DUnion ds /\ pairwise describes ts ds
    | TDict fs => exists keys, d = new_dict keys (fun _ v => Ok v) /\
        pairwise (fun (f : fld) (e : string * (bool * cv * desc)) =>
          let (k, pt) := f in let (p, t) := pt in
          k = fst e /\ fits p (fst (fst (snd e))) (snd (fst (snd e))) /\ describes t (snd (snd e))) fs keys
    end.
  Definition key_describes (f : fld) (e : string * (bool * cv * desc)) : Prop :=
    fst f = fst e /\ fits (fst (snd f)) (fst (fst (snd e))) (snd (fst (snd e))) /\ describes (snd (snd f)) (snd (snd e)).
  Lemma describes_dict fs d : describes (TDict fs) d <->
    exists keys, d = new_dict keys (fun _ v => Ok v) /\ Forall2 key_describes fs keys.
  Proof.
    simpl. split; intros (keys & E & H); exists keys; split; auto.
    - apply pairwise_Forall2 in H. eapply Forall2_impl'; [|exact H]. intros [k [p t]] e _ G. exact G.
    - apply pairwise_Forall2. eapply Forall2_impl'; [|exact H]. intros [k [p t]] e _ G. exact G.
  Qed.
  Lemma describes_union ts d : describes (TUnion ts) d <-> exists ds, d = DUnion ds /\ Forall2 describes ts ds.
  Proof. simpl. split; intros (ds & E & H); exists ds; split; auto; apply pairwise_Forall2; auto. Qed.

  Lemma simple_depth d : simple d -> depth d = 1.
  Proof. intros [(m & ->)|(m & mt & b & ->)]; reflexivity. Qed.

  Lemma describes_depth t : forall d, describes t d -> depth d <= nesting t.
  Proof.
    induction t as [|n|e s|f|t IH|ts IH|fs IH] using ty_ind'; intros d H.
    - simpl in H. subst d. simpl. lia.
    - destruct H as [H _]. rewrite (simple_depth H). simpl. lia.
    - simpl in H. subst d. simpl. lia.
    - simpl in H. subst d. simpl. lia.
    - destruct H as (td & -> & H). simpl. apply IH in H. lia.
    - apply describes_union in H. destruct H as (ds & -> & H). simpl. apply le_n_S. apply max_le.
      induction H as [|t0 d0 ts ds Hd H IH2]; [constructor|]. inversion IH as [|? ? H1 H2]; subst. simpl. constructor.
      + apply H1 in Hd. lia.
      + eapply Forall_impl; [|apply IH2; auto]. simpl. intros; lia.
    - apply describes_dict in H. destruct H as (keys & -> & H). simpl. apply le_n_S. apply max_le.
      induction H as [|f0 e0 fs keys Hd H IH2]; [constructor|]. inversion IH as [|? ? H1 H2]; subst. simpl. constructor.
      + destruct Hd as (_ & _ & Hd). apply H1 in Hd. lia.
      + eapply Forall_impl; [|apply IH2; auto]. simpl. intros; lia.
  Qed.

  Lemma describes_no_union t : forall d, describes t d -> no_unions t -> no_union d.
  Proof.
    induction t as [|n|e s|f|t IH|ts IH|fs IH] using ty_ind'; intros d H N; simpl in N; try contradiction.
    - simpl in H. subst d. exact I.
    - destruct H as [[(m & ->)|(m & mt & b & ->)] _]; exact I.
    - simpl in H. subst d. exact I.
    - simpl in H. subst d. exact I.
    - destruct H as (td & -> & H). simpl. auto.
    - apply describes_dict in H. destruct H as (keys & -> & H). simpl.
      induction H as [|f0 e0 fs keys Hd H IH2]; simpl; auto. inversion IH as [|? ? H1 H2]; subst. destruct N as [N1 N2].
      split; [|auto]. apply H1; auto. apply Hd.
  Qed.
  Lemma describes_no_lists t : forall d, describes t d -> no_lists t -> forall v, no_checker_refuses d v.
  Proof.
    induction t as [|n|e s|f|t IH|ts IH|fs IH] using ty_ind'; intros d H N v; simpl in N; try contradiction.
    - simpl in H. subst d. simpl. split; [intros c []|intros w _ c []].
    - destruct H as [[(m & ->)|(m & mt & b & ->)] _]; simpl; (split; [intros c []|intros w _ c []]).
    - simpl in H. subst d. simpl. split; [intros c []|intros w _ c []].
    - simpl in H. subst d. exact I.
    - apply describes_union in H. destruct H as (ds & -> & H). simpl.
      induction H as [|t0 d0 ts ds Hd H IH2]; simpl; auto. inversion IH as [|? ? H1 H2]; subst. destruct N as [N1 N2]. split; auto.
    - apply describes_dict in H. destruct H as (keys & -> & H). simpl. intros kvs ->.
      split; [intros c [<-|[]]; reflexivity|]. split; [intros c []|].
      induction H as [|f0 e0 fs keys Hd H IH2]; simpl; auto. inversion IH as [|? ? H1 H2]; subst. destruct N as [N1 N2].
      split; [|auto]. intros x _. apply H1; auto. apply Hd.
  Qed.

  Lemma dcall_basic m v : fst (fst (descriptor_call [] [] m v)) = converted (m v).
  Proof. unfold descriptor_call. simpl. destruct (m v) as [w|e]; [reflexivity|destruct e; reflexivity]. Qed.
  Lemma basic_call n m v : fst (call (S n) (DBasic [] [] m) v) = converted (m v).
  Proof. rewrite <- dcall_basic. cbn [call]. destruct (descriptor_call [] [] m v) as [[r p] q]. reflexivity. Qed.

  Lemma union_exact n ds v : fst (call (S n) (DUnion ds) v) = first_of (fun d => fst (call n d v)) ds.
  Proof.
    rewrite union_fst. induction ds as [|d t IH]; simpl; auto. destruct (call n d v) as [[w|e] d'] eqn:E; simpl; auto.
    destruct e; simpl; auto. destruct (union_loop (call n) t v). simpl in *. exact IH.
  Qed.

  (** the keys of every dictionary are different *)
  Fixpoint good (t : ty) : Prop :=
    match t with
    | TList t => good t
    | TUnion ts => every good ts
    | TDict fs => NoDup (map fst fs) /\ every (fun f : fld => good (snd (snd f))) fs
    | _ => True
    end.

  Lemma distinct_dget kvs k x : distinct (CDict kvs) -> dget String.eqb kvs k = Some x -> distinct x.
  Proof.
    simpl. intros [_ H] G. apply every_Forall in H. rewrite Forall_forall in H. apply (dget_In streqb_ok) in G. apply (H _ G).
  Qed.

  Lemma answers t : forall d, describes t d -> plain_lists t -> good t -> forall n v, nesting t <= n -> distinct v ->
    fst (call n d v) = ask prim contents t v.
  Proof.
    induction t as [|nm|e s|f|t IH|ts IH|fs IH] using ty_ind'; intros d H PL G n v Hn Hd; (destruct n as [|n]; [simpl in Hn; lia|]).
    - simpl in H. subst d. unfold any. rewrite basic_call. reflexivity.
    - destruct H as [Hs H]. cbn [ask]. rewrite <- H. f_equal. apply call_enough; rewrite (simple_depth Hs); lia.
    - simpl in H. subst d. rewrite basic_call. reflexivity.
    - simpl in H. subst d. simpl. destruct (f v) as [w|e]; [reflexivity|destruct e; reflexivity].
    - destruct H as (td & -> & H). simpl in PL, G, Hn. destruct PL as [PL PL'].
      assert (L : forall l, (v = CList l \/ v = CTuple l) -> fst (call (S n) (new_list td) v) =
                  match in_turn (ask prim contents t) l with Ok ws => Ok (CList ws) | Err e => Err e end).
      { intros l Hv. rewrite (@list_answer n td v l); auto.
        - rewrite in_turn_in_order. erewrite in_order_ext; [reflexivity|]. intros x Hx. unfold answer. apply IH; auto; [lia|].
          destruct Hv; subst v; simpl in Hd; apply every_Forall in Hd; rewrite Forall_forall in Hd; auto.
        - destruct PL' as [N|N]; [left|right; eapply describes_no_union; eauto]. apply Forall_forall. intros x _. eapply describes_no_lists; eauto. }
      destruct v; cbn [ask]; try (apply list_refuses; reflexivity); apply L; auto.
    - apply describes_union in H. destruct H as (ds & -> & H). rewrite union_exact. cbn [ask]. simpl in PL, G, Hn.
      apply le_S_n in Hn. apply every_Forall in PL. apply every_Forall in G.
      assert (Hn' : Forall (fun t => nesting t <= n) ts).
      { apply Forall_forall. intros t Ht. exact (max_In nesting ts t n Hn Ht). }
      clear Hn. induction H as [|t0 d0 ts ds H0 H IH2]; simpl; auto.
      inversion IH; inversion PL; inversion G; inversion Hn'; subst. rewrite IH2 by auto.
      rewrite (H3 d0) by auto. reflexivity.
    - apply describes_dict in H. destruct H as (keys & -> & H). simpl in PL, G, Hn. destruct G as [Gn G].
      assert (EK : map fst keys = map fst fs).
      { clear - H. induction H as [|f0 e0 fs keys H0 H IH]; simpl; auto. destruct H0 as [E _]. congruence. }
      destruct v as [| | | | | | |kvs]; try reflexivity.
      rewrite dict_exact; [|rewrite EK; auto|apply Hd]. cbn [ask]. rewrite EK.
      match goal with |- match ?a with _ => _ end = match ?b with _ => _ end => replace b with a; [reflexivity|] end.
      rewrite in_turn_in_order. apply every_Forall in PL. apply every_Forall in G. apply le_S_n in Hn.
      assert (Hn' : Forall (fun f : fld => nesting (snd (snd f)) <= n) fs).
      { apply Forall_forall. intros f Hf. exact (max_In (fun f : fld => nesting (snd (snd f))) fs f n Hn Hf). }
      clear Hn EK Gn. induction H as [|[k [p t]] [k' [[o df] d]] fs keys H0 H IH2]; simpl; auto.
      inversion IH; inversion PL; inversion G; inversion Hn'; subst. rewrite IH2 by auto.
      destruct H0 as (E1 & E2 & E3). simpl in *. subst k'.
      destruct (dget String.eqb kvs k) as [x|] eqn:Ex.
      + rewrite (H3 d) by (auto; eapply distinct_dget; eauto). reflexivity.
      + destruct p as [x|]; simpl in E2; [destruct E2 as [-> ->]; reflexivity|subst o; reflexivity].
  Qed.

  (** ** building *)
  Hypothesis Hknows : knows reg prim.
  Hypothesis Hstd : standard reg contents.
  Notation dfor := (descriptor_for reg qualname resolve).
  Notation writ := (written reg qualname resolve).

  Definition right_field (key : string) (v : cv) (t : ty) (f : field) : Prop :=
    describes t (what f) /\
    (v <> CStr "" -> name f = Some key /\ fits (presence v) (truthy (optional f)) (default f)).

  Lemma not_special n : ~ special n -> String.eqb n "list" = false /\ String.eqb n "caster" = false /\
     String.eqb n "file_contents" = false /\ String.eqb n "union" = false.
  Proof. intros H. repeat split; apply String.eqb_neq; intros ->; apply H; unfold special; simpl; auto. Qed.

  Lemma presence_fits d dflt0 opt0 : (exists ty, dget String.eqb d "type" = Some ty) ->
    (match dget String.eqb d "default" with Some x => (CBool true, x) | None => (CBool false, CNone) end) = (opt0, dflt0) ->
    fits (presence (CDict d)) (truthy (match dget String.eqb d "optional" with Some o => o | None => opt0 end)) dflt0.
  Proof.
    intros [ty Ht] H. unfold presence. rewrite Ht. unfold entry.
    assert (E : existsb (fun e : string * cv => String.eqb (fst e) "default") d = match dget String.eqb d "default" with Some _ => true | None => false end).
    { clear. induction d as [|[k v] t IH]; simpl; auto. destruct (String.eqb k "default"); simpl; auto. }
    rewrite E. destruct (dget String.eqb d "default") as [x|]; injection H as <- <-;
      destruct (dget String.eqb d "optional") as [o|]; simpl; try (destruct (truthy o)); simpl; auto.
  Qed.

  Lemma for_dict_typed n key d ty : dget String.eqb d "type" = Some ty ->
    forall args c r, args_of resolve (dfor n) ty d = Ok args -> class_of reg ty = Ok c -> c args = Ok r ->
    exists f, dfor (S n) key (CDict d) = Ok (Some f) /\ what f = r /\ name f = Some key /\
              fits (presence (CDict d)) (truthy (optional f)) (default f).
  Proof.
    intros Ht args c r Ha Hc Hr. cbn [descriptor_for]. unfold descriptor_for_dict. rewrite Ht, Ha. simpl.
    destruct (match dget String.eqb d "default" with Some x => (CBool true, x) | None => (CBool false, CNone) end) as [o df] eqn:E.
    rewrite Hc. simpl. rewrite Hr. simpl. eexists. split; [reflexivity|]. simpl. split; auto. split; auto.
    apply presence_fits; eauto.
  Qed.

  Lemma for_short n key nm v c d : short qualname nm v -> In nm (plain_entries reg) ->
    dget String.eqb (lookup reg) nm = Some c -> c [] = Ok d ->
    dfor (S n) key v = Ok (Some {| name := Some key; optional := CBool false; default := CNone; what := d |}) /\ presence v = None.
  Proof.
    intros [Hne Hv] Hi Hl Hc.
    assert (E : descriptor_for_str reg key nm = Ok (Some {| name := Some key; optional := CBool false; default := CNone; what := d |})).
    { unfold descriptor_for_str. rewrite (proj2 (memb_In streqb_ok nm (plain_entries reg)) Hi), Hl, Hc. reflexivity. }
    apply String.eqb_neq in Hne.
    destruct Hv as [->|(o & -> & Ho)]; cbn [descriptor_for]; [|rewrite Ho]; rewrite Hne, E; auto.
  Qed.

  Lemma build t : forall v, writ t v -> forall n key, nesting t <= n -> exists f, dfor n key v = Ok (Some f) /\ right_field key v t f.
  Proof.
    induction t as [|nm|e s|g|t IH|ts IH|fs IH] using ty_ind'; intros v H n key Hn; (destruct n as [|n]; [simpl in Hn; lia|]).
    - simpl in H. subst v. simpl. eexists. split; [reflexivity|]. split; [reflexivity|congruence].
    - destruct H as (Hi & Hs & H). destruct (Hknows Hi Hs) as (d & Hl & Hd & Hv).
      destruct H as [H|(kvs & -> & Ht)].
      + destruct (@for_short n key nm v _ d H Hi Hl eq_refl) as [E P]. eexists. split; [exact E|]. split; [split; auto|].
        intros _. rewrite P. simpl. auto.
      + destruct (@for_dict_typed n key kvs _ Ht [] (plain_class d) d) as (f & E & E1 & E2 & E3); auto.
        * unfold args_of. destruct (not_special Hs) as (-> & -> & -> & ->). reflexivity.
        * simpl. rewrite Hl. reflexivity.
        * exists f. split; [exact E|]. split; [rewrite E1; split; auto|auto].
    - destruct Hstd as (_ & _ & _ & Hl). destruct H as [(Hi & -> & -> & H)|(kvs & -> & Ht & -> & ->)].
      + destruct (@for_short n key "file_contents" v _ (DBasic [] [] (contents CNone (CBool false))) H Hi Hl eq_refl) as [E P].
        eexists. split; [exact E|]. split; [reflexivity|]. intros _. rewrite P. simpl. auto.
      + destruct (@for_dict_typed n key kvs _ Ht [AVal (entry kvs "encoding" CNone); AVal (entry kvs "strip_afterwards" (CBool false))]
                    (file_contents_class contents) (DBasic [] [] (contents (entry kvs "encoding" CNone) (entry kvs "strip_afterwards" (CBool false)))))
          as (f & E & E1 & E2 & E3); auto.
        * simpl. rewrite Hl. reflexivity.
        * exists f. split; [exact E|]. split; [rewrite E1; reflexivity|auto].
    - destruct Hstd as (_ & Hl & _ & _). destruct H as (kvs & -> & Ht & Hr).
      destruct (@for_dict_typed n key kvs _ Ht [AFun g] caster_class (DCaster g)) as (f & E & E1 & E2 & E3); auto.
      + simpl. rewrite Hr. reflexivity.
      + simpl. rewrite Hl. reflexivity.
      + exists f. split; [exact E|]. split; [rewrite E1; reflexivity|auto].
    - destruct Hstd as (Hl & _ & _ & _). destruct H as (kvs & -> & Ht & Hw). simpl in Hn. apply le_S_n in Hn.
      destruct (IH _ Hw n ""%string Hn) as (f0 & E0 & (D0 & _)).
      destruct (@for_dict_typed n key kvs _ Ht [ADesc (Some (what f0))] list_class (new_list (what f0))) as (f & E & E1 & E2 & E3); auto.
      + simpl. change (match dget String.eqb kvs "of" with Some o => o | None => CStr "" end) with (entry kvs "of" (CStr "")). rewrite E0. reflexivity.
      + simpl. rewrite Hl. reflexivity.
      + exists f. split; [exact E|]. split; [rewrite E1; simpl; eauto|auto].
    - destruct Hstd as (_ & _ & Hl & _). destruct H as (kvs & l & -> & Ht & Ho & Hw). simpl in Hn. apply le_S_n in Hn.
      apply pairwise_Forall2 in Hw.
      assert (A : exists ds, each (dfor n) l = Ok (map (fun d => ADesc (Some d)) ds) /\ Forall2 describes ts ds).
      { clear - IH Hw Hn. assert (Hn' : Forall (fun t => nesting t <= n) ts).
        { apply Forall_forall. intros t Ht. exact (max_In nesting ts t n Hn Ht). }
        clear Hn. induction Hw as [|t0 x ts l H0 H IH2]; [exists []; split; [reflexivity|constructor]|].
        inversion IH; inversion Hn'; subst. destruct IH2 as (ds & E & F); auto.
        destruct (H3 x H0 n ""%string) as (f & Ef & Df & _); auto.
        exists (what f :: ds). split; [|constructor; auto]. simpl. rewrite Ef. simpl. rewrite E. reflexivity. }
      destruct A as (ds & Ea & Fd).
      destruct (@for_dict_typed n key kvs _ Ht (map (fun d => ADesc (Some d)) ds) union_class (DUnion ds)) as (f & E & E1 & E2 & E3); auto.
      + simpl. change (match dget String.eqb kvs "of" with Some o => o | None => CList [] end) with (entry kvs "of" (CList [])).
        destruct Ho as [->| ->]; simpl; exact Ea.
      + simpl. rewrite Hl. reflexivity.
      + unfold union_class. rewrite map_map. rewrite map_id. reflexivity.
      + exists f. split; [exact E|]. split; [rewrite E1; apply describes_union; eauto|auto].
    - destruct H as (kvs & -> & Ht & Hnd & Hw). simpl in Hn. apply le_S_n in Hn. apply pairwise_Forall2 in Hw.
      assert (A : exists fl ks, fields_of (dfor n) kvs = Ok (map Some fl) /\ keys_of (map Some fl) = Ok ks /\ Forall2 key_describes fs ks).
      { clear - IH Hw Hn. assert (Hn' : Forall (fun f : fld => nesting (snd (snd f)) <= n) fs).
        { apply Forall_forall. intros f Hf. exact (max_In (fun f : fld => nesting (snd (snd f))) fs f n Hn Hf). }
        clear Hn. induction Hw as [|[k0 [p0 t0]] [k x] fs kvs H0 H IH2]; [exists [], []; repeat split; constructor|].
        inversion IH; inversion Hn'; subst. destruct IH2 as (fl & ks & E & Ek & F); auto. simpl in *.
        destruct H0 as (-> & Hx & -> & H0). destruct (H3 x H0 n k) as (f & Ef & Df & Pf); auto. destruct (Pf Hx) as [N1 N2].
        exists (f :: fl), (entry_of f :: ks). simpl. rewrite Ef. simpl. rewrite E. simpl. rewrite Ek. simpl. repeat split; auto.
        constructor; auto. unfold key_describes, entry_of. rewrite N1. simpl. auto. }
      destruct A as (fl & ks & E & Ek & F).
      eexists. split.
      + cbn [descriptor_for]. unfold descriptor_for_dict. rewrite Ht. rewrite E. simpl. unfold make_dict. rewrite Ek. simpl. reflexivity.
      + split; [simpl what; apply describes_dict; eauto|]. intros _. simpl. rewrite Ht. simpl. auto.
  Qed.
  Lemma build_dict fs dct n : written_dict reg qualname resolve fs dct -> nesting (TDict fs) <= S n ->
    exists fl ks, fields_of (dfor n) dct = Ok (map Some fl) /\ keys_of (map Some fl) = Ok ks /\ Forall2 key_describes fs ks.
  Proof.
    intros [Hnd Hw] Hn. simpl in Hn. apply le_S_n in Hn. apply pairwise_Forall2 in Hw.
    assert (Hn' : Forall (fun f : fld => nesting (snd (snd f)) <= n) fs).
    { apply Forall_forall. intros f Hf. exact (max_In (fun f : fld => nesting (snd (snd f))) fs f n Hn Hf). }
    clear Hn Hnd. induction Hw as [|[k0 [p0 t0]] [k x] fs kvs H0 H IH2]; [exists [], []; repeat split; constructor|].
    inversion Hn'; subst. destruct IH2 as (fl & ks & E & Ek & F); auto. simpl in *.
    destruct H0 as (-> & Hx & -> & H0). destruct (build t0 x H0 k H3) as (f & Ef & Df & Pf). destruct (Pf Hx) as [N1 N2].
    exists (f :: fl), (entry_of f :: ks). simpl. rewrite Ef. simpl. rewrite E. simpl. rewrite Ek. simpl. repeat split; auto.
    constructor; auto. unfold key_describes, entry_of. rewrite N1. simpl. auto.
  Qed.
  Lemma from_dict fs dct n : written_dict reg qualname resolve fs dct -> nesting (TDict fs) <= S n ->
    exists d, descriptor_from_dict reg qualname resolve n dct = Ok d /\ describes (TDict fs) d.
  Proof.
    intros H Hn. destruct (build_dict H Hn) as (fl & ks & E & Ek & F). unfold descriptor_from_dict. rewrite E. simpl. unfold make_dict. rewrite Ek. simpl.
    eexists. split; [reflexivity|]. apply describes_dict. eauto.
  Qed.
  Lemma pairwise_keys {B} (P : fld -> string * B -> Prop) fs d : (forall f e, P f e -> fst f = fst e) -> Forall2 P fs d -> map fst fs = map fst d.
  Proof. intros HP. induction 1; simpl; auto. f_equal; auto. Qed.
  Lemma written_good t : forall v, writ t v -> good t.
  Proof.
    induction t as [|nm|e s|g|t IH|ts IH|fs IH] using ty_ind'; intros v H; simpl; auto.
    - destruct H as (kvs & -> & Ht & Hw). eauto.
    - destruct H as (kvs & l & -> & Ht & Ho & Hw). apply pairwise_Forall2 in Hw. apply every_Forall. clear - IH Hw.
      induction Hw; auto. inversion IH; subst. constructor; eauto.
    - destruct H as (kvs & -> & Ht & Hnd & Hw). apply pairwise_Forall2 in Hw. split.
      + rewrite (pairwise_keys (d := kvs) (fs := fs)) with (2 := Hw); auto. intros [k [p t]] e (E & _). exact E.
      + apply every_Forall. clear - IH Hw. induction Hw as [|[k0 [p0 t0]] e fs kvs H0 H IH2]; auto. inversion IH; subst. constructor; auto.
        destruct H0 as (_ & _ & _ & H0). simpl. eauto.
  Qed.
  Lemma written_dict_good fs dct : written_dict reg qualname resolve fs dct -> good (TDict fs).
  Proof.
    intros [Hnd Hw]. apply pairwise_Forall2 in Hw. split.
    - rewrite (pairwise_keys (d := dct) (fs := fs)) with (2 := Hw); auto. intros [k [p t]] e (E & _). exact E.
    - apply every_Forall. clear - Hw. induction Hw as [|[k0 [p0 t0]] e fs kvs H0 H IH2]; auto. constructor; auto.
      destruct H0 as (_ & _ & _ & H0). simpl. eapply written_good; eauto.
  Qed.

  Lemma built_means fs dct n : written_dict reg qualname resolve fs dct -> nesting (TDict fs) <= S n -> plain_lists (TDict fs) ->
    exists d, descriptor_from_dict reg qualname resolve n dct = Ok d /\
      forall m v, nesting (TDict fs) <= m -> distinct v -> fst (call m d v) = ask prim contents (TDict fs) v.
  Proof.
    intros H Hn HP. destruct (from_dict H Hn) as (d & E & D). exists d. split; [exact E|]. intros m v Hm Hv.
    apply answers; auto. eapply written_dict_good; eauto.
  Qed.
  Lemma built_again fs dct n : written_dict reg qualname resolve fs dct -> nesting (TDict fs) <= S n ->
    exists d, descriptor_from_dict reg qualname resolve n dct = Ok d /\
      forall m vs v, nesting (TDict fs) <= m -> Forall distinct (vs ++ [v]) ->
        no_lists (TDict fs) \/ (no_unions (TDict fs) /\ Forall (fun v => accepted (ask prim contents (TDict fs) v)) vs) ->
        fst (call_run m d (vs ++ [v])) = map (ask prim contents (TDict fs)) (vs ++ [v]).
  Proof.
    intros H Hn. destruct (from_dict H Hn) as (d & E & D). exists d. split; [exact E|]. intros m vs v Hm Hv HC.
    assert (PL : plain_lists (TDict fs)).
    { clear - HC. assert (forall t, no_lists t \/ no_unions t -> plain_lists t) as G.
      { induction t as [|nm|e s|g|t IH|ts IH|gs IH] using ty_ind'; simpl; auto.
        - intros [[]|H]. split; auto.
        - intros [H|[]]. apply every_Forall. apply every_Forall in H. induction H; auto. inversion IH; subst. constructor; auto.
        - intros H. apply every_Forall. rewrite !every_Forall in H. induction IH; auto. constructor.
          + apply H0. destruct H as [H|H]; inversion H; auto.
          + apply IHIH. destruct H as [H|H]; inversion H; auto. }
      apply G. tauto. }
    assert (A : forall v, distinct v -> fst (call m d v) = ask prim contents (TDict fs) v).
    { intros x Hx. apply answers; auto. eapply written_dict_good; eauto. }
    rewrite run_until.
    - apply map_ext_in. intros x Hx. apply A. rewrite Forall_forall in Hv. auto.
    - apply Forall_app in Hv. destruct Hv as [Hv _]. destruct HC as [N|[N Ha]].
      + apply Forall_forall. intros x _. left. eapply describes_no_lists; eauto.
      + apply Forall_forall. intros x Hx. right. split; [eapply describes_no_union; eauto|].
        rewrite Forall_forall in *. unfold answer. rewrite A; auto.
  Qed.

  Scheme sens_ind := Minimality for senseless Sort Prop
    with sensd_ind := Minimality for senseless_dict Sort Prop.
  Combined Scheme senseless_mut from sens_ind, sensd_ind.

  Lemma each_app l1 l2 ts n : every (fun t => nesting t <= n) ts -> pairwise writ ts l1 ->
    exists r, each (dfor n) (l1 ++ l2) = res_bind (each (dfor n) l2) (fun x => Ok (r ++ x)).
  Proof.
    intros Hn Hw. apply every_Forall in Hn. apply pairwise_Forall2 in Hw. revert Hn. induction Hw as [|t x ts l H0 H IH]; intros Hn.
    - exists []. simpl. destruct (each (dfor n) l2); reflexivity.
    - inversion Hn; subst. destruct IH as [r E]; auto. destruct (build t x H0 "" H3) as (f & Ef & _).
      exists (ADesc (Some (what f)) :: r). simpl. rewrite Ef. simpl. rewrite E. destruct (each (dfor n) l2); reflexivity.
  Qed.
  Lemma fields_app d1 d2 fs n : nesting (TDict fs) <= S n -> written_dict reg qualname resolve fs d1 ->
    exists r, fields_of (dfor n) (d1 ++ d2) = res_bind (fields_of (dfor n) d2) (fun x => Ok (r ++ x)).
  Proof.
    intros Hn Hw. destruct (build_dict Hw Hn) as (fl & ks & E & _ & _). exists (map Some fl).
    clear - E. revert fl E. induction d1 as [|[k x] t IH]; intros fl E; simpl in *.
    - destruct fl; [|discriminate]. simpl. destruct (fields_of (dfor n) d2); reflexivity.
    - destruct (dfor n k x) as [f|]; [|discriminate]. simpl in *. destruct (fields_of (dfor n) t) as [r|] eqn:Er; [|discriminate]. simpl in E.
      destruct fl as [|f0 fl]; [discriminate|]. injection E as -> E. simpl. rewrite (IH fl) by congruence.
      destruct (fields_of (dfor n) d2); reflexivity.
  Qed.
  Lemma senseless_refused :
    (forall n v, senseless reg qualname resolve n v -> forall key, dfor n key v = Err ConfigurationError) /\
    (forall n d, senseless_dict reg qualname resolve n d -> fields_of (dfor n) d = Err ConfigurationError).
  Proof.
    apply (@senseless_mut reg qualname resolve (fun n v => forall key, dfor n key v = Err ConfigurationError)
             (fun n d => fields_of (dfor n) d = Err ConfigurationError)).
    - intros n v Hv key. destruct v; try contradiction; try reflexivity. simpl. rewrite Hv. reflexivity.
    - intros n d Ht _ IH key. cbn [descriptor_for]. unfold descriptor_for_dict. rewrite Ht. simpl.
      unfold entry in IH. rewrite IH. reflexivity.
    - intros n d l ts x l' Ht Ho Hn Hw _ IH key. cbn [descriptor_for]. unfold descriptor_for_dict. rewrite Ht. simpl.
      destruct (@each_app l (x :: l') ts n Hn Hw) as [r Er].
      assert (E : each (dfor n) (l ++ x :: l') = Err ConfigurationError) by (rewrite Er; simpl; rewrite IH; reflexivity).
      unfold entry in Ho. destruct Ho as [->| ->]; simpl; rewrite E; reflexivity.
    - intros n d Ht _ IH key. cbn [descriptor_for]. unfold descriptor_for_dict. rewrite Ht, IH. reflexivity.
    - intros n fs d k x d' Hn _ Hw _ IH. destruct (@fields_app d ((k, x) :: d') fs n Hn Hw) as [r Er]. rewrite Er. simpl. rewrite IH. reflexivity.
  Qed.
End Main.

(** ** the registry *)
Lemma builtin_knows k : knows (builtin k) (builtin_meaning k) /\ standard (builtin k) (file_contents k).
Proof.
  split; [|repeat split; reflexivity].
  intros n Hi Hs. simpl in Hi.
  assert (forall m, simple (DBasic [] [] m)) as S1 by (intros m; left; eauto).
  decompose [or] Hi; clear Hi; try contradiction; subst n; try (exfalso; apply Hs; unfold special; simpl; tauto);
    (eexists; split; [reflexivity|]; split; [solve [auto; left; eexists; reflexivity|right; do 3 eexists; reflexivity]|]); intros v;
    unfold builtin_meaning; simpl String.eqb; cbn iota; try (rewrite basic_call; reflexivity).
  - cbn [call]. pose proof (dcall_basic (to_str k) v) as E. destruct (descriptor_call [] [] (to_str k) v) as [[r p] q]. simpl in E. subst r.
    destruct (converted (to_str k v)) as [w|e]; [destruct (ipv4_matches k w); reflexivity|reflexivity].
  - unfold boolean. rewrite basic_call. destruct v; try reflexivity.
    simpl. destruct (String.eqb (upper s) "TRUE"); [reflexivity|]. destruct (String.eqb (upper s) "FALSE"); reflexivity.
  - unfold any. rewrite basic_call. reflexivity.
Qed.
Lemma register_knows reg prim contents n d : knows reg prim -> standard reg contents -> ~ special n -> simple d ->
  knows (register n true (plain_class d) reg) (fun m v => if String.eqb m n then fst (call 1 d v) else prim m v) /\
  standard (register n true (plain_class d) reg) contents.
Proof.
  intros K (S1 & S2 & S3 & S4) Hs Hd. split.
  - intros m Hi Hm. simpl in *. destruct (String.eqb m n) eqn:E.
    + apply String.eqb_eq in E. subst m. exists d. rewrite (dget_dset_eq streqb_ok). auto.
    + apply String.eqb_neq in E. destruct Hi as [Hi|Hi]; [congruence|]. rewrite (dget_dset_neq streqb_ok) by auto. apply K; auto.
  - unfold standard. simpl. repeat split; rewrite (dget_dset_neq streqb_ok); auto; intros E; subst n; apply Hs; unfold special; simpl; auto.
Qed.
