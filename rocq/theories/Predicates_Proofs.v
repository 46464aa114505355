(** Proofs about predicates. *)
From Coq Require Import String.
From Verif Require Import Prelude PreludeFacts MoreFacts Predicates_Model Predicates_Spec.

Section Values.
  Variable V : Type.
  Variables (op2 : binop -> V -> V -> res V) (op1 : unop -> V -> res V) (attr : V -> string -> res V) (call0 : V -> res V) (call1 : V -> V -> res V)
            (contains : V -> V -> res V) (truth : V -> bool) (of_bool : bool -> V) (own : binop -> V -> option (res V)).
  Hypothesis mirrored : forall a b, op2 Lt a b = op2 Gt b a /\ op2 Le a b = op2 Ge b a /\ op2 Eq a b = op2 Eq b a /\ op2 Ne a b = op2 Ne b a.
  Notation build := (build op2 op1 attr call0 call1 contains truth of_bool own).
  Notation meaning := (meaning op2 op1 attr call0 call1 contains truth of_bool).

  Definition right (e : expr V) : Prop :=
    match build e with
    | Ok (Plain c) => mentions e = false /\ forall v, meaning e v = Ok c
    | Ok (Pred p) => mentions e = true /\ forall v, p v = meaning e v
    | Ok (Bound _) => False
    | Err _ => forall v, exists ex, meaning e v = Err ex
    end.
  Lemma fwd_table : forall op, table (Fwd op) = Some (op, false).
  Proof. destruct op; reflexivity. Qed.
  Lemma refl_const : forall op c q, op <> Getitem -> exists p, match table (mirror op) with Some (f, swap) => Ok (two_args (op2 f) swap q (Plain c)) | None => Err TypeError end = Ok (Pred p)
    /\ forall v, p v = match q v with Ok r => op2 op c r | Err e => Err e end.
  Proof.
    intros op c q N. assert (M := mirrored). destruct op; try contradiction; simpl; eexists; (split; [reflexivity|]); intros v; simpl; unfold bind; destruct (q v) as [r|e]; auto;
      destruct (M c r) as (M1 & M2 & M3 & M4); destruct (M r c) as (M5 & M6 & M7 & M8); congruence.
  Qed.
  Local Opaque methods.
  Lemma build_right : forall e, operators_only own e -> right e.
  Proof.
    induction e as [|c|op a IHa b IHb|op a IHa|a IHa n|a IHa|a IHa b IHb|a IHa b IHb|a IHa c|a IHa c|a IHa b IHb|a IHa b IHb|a IHa]; intros O; unfold right; simpl in *; auto; unfold bind.
    - destruct O as (Oa & Ob & Oc). specialize (IHa Oa). specialize (IHb Ob). unfold right in *.
      destruct (build a) as [[x|p|]|e]; [| |contradiction|].
      + destruct IHa as (Ma & Ea). destruct (build b) as [[y|q|]|e]; [| |contradiction|].
        * destruct IHb as (Mb & Eb). simpl. unfold bind. destruct (op2 op x y) as [z|e] eqn:Z.
          { rewrite Ma, Mb. split; auto. intros v. rewrite Ea, Eb. auto. } { intros v. rewrite Ea, Eb. eauto. }
        * destruct IHb as (Mb & Eb). cbn [operate]. destruct (Oc Ma Mb) as (G & Ow). rewrite Ow. destruct (refl_const op x q G) as (p & -> & E). rewrite Ma, Mb. split; auto.
          intros v. rewrite E, Ea, Eb. auto.
        * intros v. rewrite Ea. destruct (IHb v) as (ex & ->). eauto.
      + destruct IHa as (Ma & Ea). destruct (build b) as [[y|q|]|e]; [| |contradiction|].
        * destruct IHb as (Mb & Eb). cbn [operate]. rewrite fwd_table. cbn [two_args]. rewrite Ma. split; auto. intros v. unfold bind. rewrite Ea, Eb. auto.
        * destruct IHb as (Mb & Eb). cbn [operate]. rewrite fwd_table. cbn [two_args]. rewrite Ma. split; auto. intros v. unfold bind. rewrite Ea, Eb. auto.
        * intros v. destruct (meaning a v); eauto. destruct (IHb v) as (ex & ->). eauto.
      + intros v. destruct (IHa v) as (ex & ->). eauto.
    - specialize (IHa O). unfold right in IHa. destruct (build a) as [[x|p|]|e]; [| |contradiction|].
      + destruct IHa as (Ma & Ea). destruct (op1 op x) as [z|e] eqn:Z; [split; auto|]; intros v; rewrite Ea; eauto.
      + destruct IHa as (Ma & Ea). simpl. split; auto. intros v. unfold bind. rewrite Ea. auto.
      + intros v. destruct (IHa v) as (ex & ->). eauto.
    - destruct O as (Oa & N). specialize (IHa Oa). unfold right in IHa. destruct (build a) as [[x|p|]|e]; [| |contradiction|].
      + destruct IHa as (Ma & Ea). destruct (attr x n) as [z|e] eqn:Z; [split; auto|]; intros v; rewrite Ea; eauto.
      + destruct IHa as (Ma & Ea). destruct (memb String.eqb n methods) eqn:M; [exfalso; apply (N Ma); apply (memb_In String.eqb_eq); auto|].
        split; auto. intros v. unfold bind. rewrite Ea. auto.
      + intros v. destruct (IHa v) as (ex & ->). eauto.
    - specialize (IHa O). unfold right in IHa. destruct (build a) as [[x|p|]|e]; [| |contradiction|].
      + destruct IHa as (Ma & Ea). destruct (call0 x) as [z|e] eqn:Z; [split; auto|]; intros v; rewrite Ea; eauto.
      + destruct IHa as (Ma & Ea). simpl. split; auto. intros v. unfold bind. rewrite Ea. auto.
      + intros v. destruct (IHa v) as (ex & ->). eauto.
    - destruct O as (Oa & Ob & Ma & Mb). specialize (IHa Oa). specialize (IHb Ob). unfold right in *. rewrite Ma, Mb in *.
      destruct (build a) as [[x|p|]|e]; [|destruct IHa; discriminate|contradiction|].
      + destruct IHa as (_ & Ea). destruct (build b) as [[y|q|]|e]; [|destruct IHb; discriminate|contradiction|].
        * destruct IHb as (_ & Eb). destruct (call1 x y) as [z|e] eqn:Z; [split; auto|]; intros v; rewrite Ea, Eb; eauto.
        * intros v. rewrite Ea. destruct (IHb v) as (ex & ->). eauto.
      + intros v. destruct (IHa v) as (ex & ->). eauto.
    - destruct O as (Oa & Ob & Ma & Mb). specialize (IHa Oa). specialize (IHb Ob). unfold right in *. rewrite Ma, Mb in *.
      destruct (build a) as [[x|p|]|e]; [|destruct IHa; discriminate|contradiction|].
      + destruct IHa as (_ & Ea). destruct (build b) as [[y|q|]|e]; [|destruct IHb; discriminate|contradiction|].
        * destruct IHb as (_ & Eb). destruct (contains y x) as [z|e] eqn:Z; [split; auto|]; intros v; rewrite Ea, Eb; eauto.
        * intros v. rewrite Ea. destruct (IHb v) as (ex & ->). eauto.
      + intros v. destruct (IHa v) as (ex & ->). eauto.
    - destruct O as (Oa & Ma). specialize (IHa Oa). unfold right in IHa. rewrite Ma in *. destruct (build a) as [[x|p|]|e]; [destruct IHa; discriminate| |contradiction|].
      + destruct IHa as (_ & Ea). simpl. split; auto. intros v. unfold bind. rewrite Ea. auto.
      + intros v. destruct (IHa v) as (ex & ->). eauto.
    - contradiction.
    - destruct O as (Oa & Ob & Ma & Mb). specialize (IHa Oa). specialize (IHb Ob). unfold right in *. rewrite Ma, Mb in *.
      destruct (build a) as [[x|p|]|e]; [|destruct IHa; discriminate|contradiction|].
      + destruct IHa as (_ & Ea). simpl. destruct (truth x) eqn:Tx; [|split; auto; intros v; rewrite Ea, Tx; auto].
        destruct (build b) as [[y|q|]|e]; [|destruct IHb; discriminate|contradiction|].
        * destruct IHb as (_ & Eb). split; auto. intros v. rewrite Ea, Tx. auto.
        * intros v. rewrite Ea, Tx. auto.
      + intros v. destruct (IHa v) as (ex & ->). eauto.
    - destruct O as (Oa & Ob & Ma & Mb). specialize (IHa Oa). specialize (IHb Ob). unfold right in *. rewrite Ma, Mb in *.
      destruct (build a) as [[x|p|]|e]; [|destruct IHa; discriminate|contradiction|].
      + destruct IHa as (_ & Ea). simpl. destruct (truth x) eqn:Tx; [split; auto; intros v; rewrite Ea, Tx; auto|].
        destruct (build b) as [[y|q|]|e]; [|destruct IHb; discriminate|contradiction|].
        * destruct IHb as (_ & Eb). split; auto. intros v. rewrite Ea, Tx. auto.
        * intros v. rewrite Ea, Tx. auto.
      + intros v. destruct (IHa v) as (ex & ->). eauto.
    - destruct O as (Oa & Ma). specialize (IHa Oa). unfold right in *. rewrite Ma in *. destruct (build a) as [[x|p|]|e]; [|destruct IHa; discriminate|contradiction|].
      + destruct IHa as (_ & Ea). simpl. split; auto. intros v. rewrite Ea. auto.
      + intros v. destruct (IHa v) as (ex & ->). eauto.
  Qed.
End Values.

Section Structs.
  Variable V : Type.
  Variable hashable : struct V -> bool.
  Notation rebuild := (rebuild hashable).
  Notation elems v := (fix elems (l : list (struct V)) : res (list (struct V)) :=
               match l with
               | [] => Ok []
               | e :: t =>
                 bind (match e with SPred p => bind (p v) (fun w => Ok (SVal w)) | _ => rebuild e v end) (fun e' => bind (elems t) (fun t' => Ok (e' :: t')))
               end).
  Lemma struct_ind' : forall (P : struct V -> Prop),
    (forall p, P (SPred p)) -> (forall v, P (SVal v)) -> (forall s, P (SStr V s)) -> (forall k l, Forall P l -> P (SSeq k l)) ->
    (forall l, Forall (fun e => P (fst e) /\ P (snd e)) l -> P (SDict l)) -> (forall s, P s -> P (SWrapped s)) -> forall s, P s.
  Proof.
    intros P H1 H2 H3 H4 H5 H6. fix IH 1. intros s. destruct s as [p|v|s|k l|l|s].
    - apply H1.
    - apply H2.
    - apply H3.
    - apply H4. induction l as [|e t It]; constructor; [apply IH|exact It].
    - apply H5. induction l as [|(a & b) t It]; constructor; [split; [apply IH|apply IH]|exact It].
    - apply H6. apply IH.
  Qed.
  Lemma elem_same : forall (e : struct V) v, match e with SPred p => bind (p v) (fun w => Ok (SVal w)) | _ => rebuild e v end = rebuild e v.
  Proof. destruct e; auto. Qed.
  Lemma rebuild_sound : forall v s r, simple s -> rebuild s v = Ok r -> replaced v s r.
  Proof.
    intros v s. induction s as [p|w|s|k l IH|l IH|s IH] using struct_ind'; intros r S E; simpl in E; unfold bind in E.
    - destruct (p v) eqn:P; inversion E; subst. constructor; auto.
    - inversion E; subst. constructor.
    - inversion S.
    - inversion S as [| |k0 l0 Nk Fl| |]; subst. assert (L : forall l' , elems v l = Ok l' -> Forall2 (replaced v) l l').
      { clear E S. induction l as [|e t It]; intros l' E; [inversion E; constructor|]. inversion IH as [|? ? IH1 IH2]; inversion Fl as [|? ? Fl1 Fl2]; subst. rewrite elem_same in E.
        unfold bind at 1 in E. destruct (rebuild e v) eqn:Re; [|discriminate]. unfold bind in E at 1. destruct (elems v t) eqn:Et; [|discriminate]. inversion E; subst. constructor; auto. }
      change (match elems v l with Ok l' => match k with KOther => Err TypeError | _ => Ok (SSeq k l') end | Err e => Err e end = Ok r) in E.
      destruct (elems v l) as [l'|e] eqn:El; [|discriminate]. destruct k; inversion E; subst; try contradiction; constructor; auto.
    - inversion S as [| | |k w Sk Sw|]; subst. inversion IH as [|? ? (Ik & Iw)]; subst. destruct (rebuild k v) as [k1|] eqn:Ek; [|discriminate]. destruct (rebuild w v) as [w1|] eqn:Ew; [|discriminate].
      destruct (hashable k1); inversion E; subst. constructor. constructor; [|constructor]. auto.
    - inversion S; subst. constructor. apply IH; auto.
  Qed.
  Lemma rebuild_complete : forall v s r, simple s -> replaced v s r -> hashable_keys hashable r -> rebuild s v = Ok r.
  Proof.
    intros v s. induction s as [p|w|s|k l IH|l IH|s IH] using struct_ind'; intros r S E Hk; simpl; unfold bind.
    - inversion E as [? ? P| | | | |]; subst. rewrite P. auto.
    - inversion E; subst. auto.
    - inversion S.
    - inversion S as [| |k0 l0 Nk Fl| |]; subst. inversion E as [| | |? ? l' F| |]; subst. inversion Hk as [|? ? K|]; subst.
      assert (L : elems v l = Ok l').
      { clear E S Hk. revert l' F K. induction l as [|e t It]; intros l' F K; inversion F as [|? e' ? t' F1 F2]; subst; auto.
        inversion IH as [|? ? IH1 IH2]; inversion Fl as [|? ? Fl1 Fl2]; inversion K as [|? ? K1 K2]; subst. rewrite elem_same.
        rewrite (IH1 _ Fl1 F1 K1). simpl. rewrite It with (l' := t'); auto. }
      change (match elems v l with Ok l' => match k with KOther => Err TypeError | _ => Ok (SSeq k l') end | Err e => Err e end = Ok (SSeq k l')).
      rewrite L. destruct k; auto; contradiction.
    - inversion S as [| | |k w Sk Sw|]; subst.
      inversion E as [| | | |? ? F|]; subst. inversion F as [|? (k' & w') ? ? (Fk & Fw) F']; subst. inversion F'; subst. inversion Hk as [| |? K]; subst. inversion K as [|? ? (K1 & K2 & K3)]; subst.
      inversion IH as [|? ? (Ik & Iw)]; subst. simpl in *. rewrite (Ik _ Sk Fk K2), (Iw _ Sw Fw K3), K1. auto.
    - inversion S; inversion E; subst. apply IH; auto.
  Qed.
End Structs.
