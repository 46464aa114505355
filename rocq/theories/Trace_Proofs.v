From Coq Require Import List Bool Arith ZArith Lia.
From Verif Require Import Prelude PreludeFacts Trace_Model Trace_Spec.
Import ListNotations.
Open Scope nat_scope.

Lemma text_eqb_ok : eqb_ok text_eqb.
Proof. intros a b. unfold text_eqb. destruct (list_eq_dec Nat.eq_dec a b); split; congruence. Qed.
Lemma text_eqb_refl a : text_eqb a a = true. Proof. apply (text_eqb_ok a a). reflexivity. Qed.

Lemma stored_eq_refl a : stored_eq a a = true. Proof. unfold stored_eq. now rewrite !text_eqb_refl. Qed.
Lemma stored_eq_json s : stored_eq s (stored_from_json (stored_to_json s)) = true /\ stored_eq (stored_from_json (stored_to_json s)) s = true.
Proof. unfold stored_eq. cbn. now rewrite !text_eqb_refl. Qed.

Lemma vars_eq_map (g : stored -> stored) l : (forall s, stored_eq s (g s) = true /\ stored_eq (g s) s = true) -> NoDup (map fst l) ->
  vars_eq l (map (fun kv => (fst kv, g (snd kv))) l) = true /\ vars_eq (map (fun kv => (fst kv, g (snd kv))) l) l = true.
Proof.
  intros G N. unfold vars_eq. rewrite map_length, Nat.eqb_refl. cbn [andb]. split; apply forallb_forall; intros (k & v) I; cbn [fst snd].
  - assert (E : dget text_eqb (map (fun kv : text * stored => (fst kv, g (snd kv))) l) k = Some (g v)).
    { apply (In_dget text_eqb_ok).
      - unfold dwf, dkeys. rewrite map_map. cbn. exact N.
      - apply in_map_iff. exists (k, v). split; auto. }
    rewrite E. apply G.
  - apply in_map_iff in I as ((k' & v') & E & I). cbn in E. injection E as <- <-.
    assert (E : dget text_eqb l k' = Some v') by (apply (In_dget text_eqb_ok); auto).
    rewrite E. apply G.
Qed.
Lemma frame_json_eq f : NoDup (map fst (f_locals f)) -> NoDup (map fst (f_globals f)) ->
  frame_eq f (frame_from_json (frame_to_json f)) = true /\ frame_eq (frame_from_json (frame_to_json f)) f = true.
Proof.
  intros N1 N2. unfold frame_eq. cbn. rewrite !text_eqb_refl, Z.eqb_refl, !map_map. cbn.
  destruct (vars_eq_map (fun s => stored_from_json (stored_to_json s)) (f_locals f) stored_eq_json N1) as (A & B).
  destruct (vars_eq_map (fun s => stored_from_json (stored_to_json s)) (f_globals f) stored_eq_json N2) as (C & D).
  cbn in A, B, C, D. now rewrite A, B, C, D.
Qed.
Lemma trace_json_eq t : names_once t -> trace_eq t (trace_from_json (trace_to_json t)) = true /\ trace_eq (trace_from_json (trace_to_json t)) t = true.
Proof.
  unfold names_once, trace_eq. cbn. induction (t_frames t) as [|f l IH]; intro N; [split; reflexivity|]. cbn [map frames_eq].
  destruct (N f (or_introl eq_refl)) as (N1 & N2). destruct (frame_json_eq f N1 N2) as (A & B). rewrite A, B.
  apply IH. intros g I. apply N. now right.
Qed.
(** equality of dictionaries of variables, said plainly *)
Lemma stored_eq_iff a b : stored_eq a b = true <-> s_repr a = s_repr b /\ s_type a = s_type b.
Proof. unfold stored_eq. rewrite andb_true_iff. now rewrite (text_eqb_ok (s_repr a)), (text_eqb_ok (s_type a)). Qed.
Lemma vars_eq_In a b : vars_eq a b = true -> forall k v, In (k, v) a -> exists w, In (k, w) b /\ s_repr v = s_repr w /\ s_type v = s_type w.
Proof.
  unfold vars_eq. intro H. apply andb_true_iff in H as (_ & H). rewrite forallb_forall in H. intros k v I. specialize (H _ I). cbn in H.
  destruct (dget text_eqb b k) as [w|] eqn:D; [|discriminate]. exists w. apply stored_eq_iff in H. split; [|exact H]. exact (dget_In text_eqb_ok b k D).
Qed.
Lemma frames_eq_Forall2 a b : frames_eq a b = true -> Forall2 (fun x y => frame_eq x y = true) a b.
Proof. revert b. induction a as [|x a IH]; intros [|y b]; cbn; intro H; try discriminate; constructor; apply andb_true_iff in H as (H1 & H2); auto. Qed.
Lemma frame_eq_places x y : frame_eq x y = true -> f_name x = f_name y /\ f_filename x = f_filename y /\ f_lineno x = f_lineno y /\ vars_eq (f_locals x) (f_locals y) = true /\ vars_eq (f_globals x) (f_globals y) = true.
Proof.
  unfold frame_eq. rewrite !andb_true_iff. intros ((((A & B) & C) & D) & E). apply (text_eqb_ok (f_name x)) in A. apply (text_eqb_ok (f_filename x)) in B. apply Z.eqb_eq in C. auto.
Qed.

Section World.
  Variables (repr_of type_of : Z -> res text) (dumps : Z -> res text) (loads : text -> res Z) (compress : nat -> text -> res text) (decompress : text -> res text).
  Variable reason : exn -> text.
  Variables (is_zlib_error is_unpickling_error : exn -> bool).
  Notation st := (store repr_of type_of dumps compress reason is_zlib_error).
  Notation ld := (load_value loads decompress is_unpickling_error).

  Lemma store_inv p v s : st p v = Ok s -> kept_as repr_of type_of p v s.
  Proof.
    unfold store, kept_as, res_bind. destruct (repr_of v) as [r|e] eqn:R; [|discriminate]. destruct (type_of v) as [t|e] eqn:T; [|discriminate].
    intro H. destruct (should_pickle p v); [|injection H as <-; cbn; eauto].
    destruct (dumps v) as [b|e]; [|injection H as <-; cbn; eauto].
    destruct (should_compress p b); [|injection H as <-; cbn; eauto].
    destruct (compress _ b) as [c|e]; [injection H as <-; cbn; eauto|].
    destruct (is_zlib_error e); [injection H as <-; cbn; eauto|discriminate].
  Qed.
  Lemma store_kind p v s : st p v = Ok s ->
    (should_pickle p v = false /\ s_kind s = PickleNone /\ s_pickle s = None) \/
    (should_pickle p v = true /\ exists e, dumps v = Err e /\ s_kind s = PFailed /\ s_pickle s = Some (reason e)) \/
    (should_pickle p v = true /\ exists b, dumps v = Ok b /\ should_compress p b = false /\ s_kind s = Pickled /\ s_pickle s = Some b) \/
    (should_pickle p v = true /\ exists b c, dumps v = Ok b /\ should_compress p b = true /\ compress (compression_level p b) b = Ok c /\ s_kind s = PickledGzip /\ s_pickle s = Some c) \/
    (should_pickle p v = true /\ exists b e, dumps v = Ok b /\ should_compress p b = true /\ compress (compression_level p b) b = Err e /\ is_zlib_error e = true /\ s_kind s = PFailedGzip /\ s_pickle s = Some (reason e)).
  Proof.
    unfold store, res_bind. destruct (repr_of v) as [r|e] eqn:R; [|discriminate]. destruct (type_of v) as [t|e] eqn:T; [|discriminate].
    intro H. destruct (should_pickle p v); [|injection H as <-; cbn; auto].
    destruct (dumps v) as [b|e]; [|injection H as <-; cbn; right; left; eauto 10].
    destruct (should_compress p b) eqn:SC; [|injection H as <-; cbn; right; right; left; eauto 10].
    destruct (compress _ b) as [c|e] eqn:C; [injection H as <-; cbn; right; right; right; left; split; [reflexivity|]; exists b, c; auto|].
    destruct (is_zlib_error e) eqn:Z; [injection H as <-; cbn; right; right; right; right; split; [reflexivity|]; exists b, e; auto 10|discriminate].
  Qed.
  Lemma store_total p v : is_ok (repr_of v) = true -> is_ok (type_of v) = true ->
    (forall l b e, compress l b = Err e -> is_zlib_error e = true) -> is_ok (st p v) = true.
  Proof.
    unfold store, res_bind. destruct (repr_of v); [|discriminate]. destruct (type_of v); [|discriminate]. intros _ _ Z.
    destruct (should_pickle p v); [|reflexivity]. destruct (dumps v) as [b|e]; [|reflexivity].
    destruct (should_compress p b); [|reflexivity]. destruct (compress _ b) as [c|e] eqn:C; [reflexivity|]. now rewrite (Z _ _ _ C).
  Qed.

  Lemma store_all_keeps p l r : store_all repr_of type_of dumps compress reason is_zlib_error p l = Ok r ->
    Forall2 (fun kv ks => fst kv = fst ks /\ st p (snd kv) = Ok (snd ks)) l r.
  Proof.
    revert r. induction l as [|(k & v) l IH]; cbn [store_all]; intros r H; [injection H as <-; constructor|].
    unfold res_bind in H. destruct (st p v) as [s|e] eqn:S; [|discriminate].
    destruct (store_all _ _ _ _ _ _ p l) as [r'|e]; [|discriminate]. injection H as <-. constructor; auto.
  Qed.
  Lemma store_all_total p l : (forall kv, In kv l -> is_ok (st p (snd kv)) = true) -> is_ok (store_all repr_of type_of dumps compress reason is_zlib_error p l) = true.
  Proof.
    induction l as [|(k & v) l IH]; cbn [store_all]; intro H; [reflexivity|]. unfold res_bind.
    generalize (H (k, v) (or_introl eq_refl)). cbn [snd]. destruct (st p v); [|discriminate]. intros _.
    destruct (store_all _ _ _ _ _ _ p l); [reflexivity|]. apply IH. intros; apply H; now right.
  Qed.
  Lemma Forall2_names (P : Z -> stored -> Prop) l r : Forall2 (fun kv ks => fst kv = fst ks /\ P (snd kv) (snd ks)) l r -> map fst (r : list (text * stored)) = map fst (l : list (text * Z)).
  Proof. induction 1 as [|? ? ? ? (E & _) _ IH]; cbn; [reflexivity|]. now rewrite E, IH. Qed.
  Lemma Forall2_impl' {X Y} (P Q : X -> Y -> Prop) l r : (forall x y, P x y -> Q x y) -> Forall2 P l r -> Forall2 Q l r.
  Proof. intros H; induction 1; constructor; auto. Qed.
  Notation sf := (stack_frame_of repr_of type_of dumps compress reason is_zlib_error).
  Lemma frame_kept p f s : sf p f = Ok s -> same_place f s /\ keeps repr_of type_of p f s /\
    (forall ks, In ks (f_locals s ++ f_globals s) -> exists v, In v (variables f) /\ st p v = Ok (snd ks)).
  Proof.
    destruct f as [n fn ln lo gl bk]. unfold stack_frame_of, res_bind. destruct (store_all _ _ _ _ _ _ p lo) as [l|e] eqn:L; [|discriminate].
    destruct (store_all _ _ _ _ _ _ p gl) as [g|e] eqn:G; [|discriminate]. intro H. injection H as <-.
    apply store_all_keeps in L, G. cbn. split; [|split].
    - repeat split; [exact (Forall2_names (fun v s => st p v = Ok s) _ _ L)|exact (Forall2_names (fun v s => st p v = Ok s) _ _ G)].
    - split; (eapply Forall2_impl'; [|eassumption]); intros x y (E & S); split; auto; now apply store_inv.
    - intros ks I. apply in_app_iff in I as [I|I].
      + clear G. induction L as [|x y l0 r0 (E & S) _ IH]; [easy|]. destruct I as [<-|I].
        * exists (snd x). cbn. auto.
        * destruct (IH I) as (v & Iv & Sv). exists v. split; auto. cbn. now right.
      + clear L. induction G as [|x y l0 r0 (E & S) _ IH]; [easy|]. destruct I as [<-|I].
        * exists (snd x). split; auto. apply in_app_iff. right. now left.
        * destruct (IH I) as (v & Iv & Sv). exists v. split; auto. apply in_app_iff in Iv as [Iv|Iv]; apply in_app_iff; [now left|right; now right].
  Qed.
  Lemma frame_total p f : (forall v, In v (variables f) -> is_ok (st p v) = true) -> is_ok (sf p f) = true.
  Proof.
    destruct f as [n fn ln lo gl bk]. unfold stack_frame_of, res_bind, variables. intro H.
    assert (A : is_ok (store_all repr_of type_of dumps compress reason is_zlib_error p lo) = true) by (apply store_all_total; intros kv I; apply H, in_app_iff; left; now apply in_map).
    assert (B : is_ok (store_all repr_of type_of dumps compress reason is_zlib_error p gl) = true) by (apply store_all_total; intros kv I; apply H, in_app_iff; right; now apply in_map).
    destruct (store_all _ _ _ _ _ _ p lo); [|discriminate]. destruct (store_all _ _ _ _ _ _ p gl); [reflexivity|discriminate].
  Qed.
  Notation fo := (frames_of repr_of type_of dumps compress reason is_zlib_error).
  Lemma frames_unfold p n fn ln lo gl bk : fo p (Frame n fn ln lo gl bk) = res_bind (sf p (Frame n fn ln lo gl bk)) (fun s => match bk with None => Ok [s] | Some b => res_bind (fo p b) (fun r => Ok (s :: r)) end).
  Proof. destruct bk; reflexivity. Qed.
  Lemma outwards_unfold n fn ln lo gl bk : outwards (Frame n fn ln lo gl bk) = Frame n fn ln lo gl bk :: match bk with Some b => outwards b | None => [] end.
  Proof. destruct bk; reflexivity. Qed.
  Fixpoint frames_kept p f : forall l, fo p f = Ok l -> Forall2 (fun x s => sf p x = Ok s) (outwards f) l.
  Proof.
    destruct f as [n fn ln lo gl bk]. intros l H. rewrite frames_unfold in H. rewrite outwards_unfold. unfold res_bind in H.
    destruct (sf p (Frame n fn ln lo gl bk)) as [s|e] eqn:S; [|discriminate]. destruct bk as [b|].
    - destruct (fo p b) as [r|e] eqn:R; [|discriminate]. injection H as <-. constructor; [exact S|]. now apply frames_kept.
    - injection H as <-. constructor; [exact S|constructor].
  Qed.
  Fixpoint frames_total p f : (forall x, In x (outwards f) -> is_ok (sf p x) = true) -> is_ok (fo p f) = true.
  Proof.
    destruct f as [n fn ln lo gl bk]. intro H. rewrite frames_unfold. rewrite outwards_unfold in H. unfold res_bind.
    assert (A := H _ (or_introl eq_refl)). destruct (sf p (Frame n fn ln lo gl bk)); [|discriminate]. destruct bk as [b|]; [|reflexivity].
    assert (B : is_ok (fo p b) = true) by (apply frames_total; intros x I; apply H; now right). destruct (fo p b); [reflexivity|discriminate].
  Qed.
  Lemma innermost tb next : frame_from_traceback tb next = last (tb :: next) tb.
  Proof. revert tb. induction next as [|f r IH]; intro tb; [reflexivity|]. cbn [frame_from_traceback]. rewrite IH. change (last (tb :: f :: r) tb) with (last (f :: r) tb). clear IH. revert f. induction r as [|g r IH]; intro f; [reflexivity|]. change (last (g :: r) f = last (g :: r) tb). rewrite <- (IH g). clear. revert f g. induction r as [|h r IH]; intros; [reflexivity|]. change (last (h :: r) f = last (h :: r) g). destruct r; [reflexivity|]. apply (IH f g). Qed.
End World.
