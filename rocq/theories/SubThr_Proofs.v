(** Proofs about SubThr_Model. *)
From Verif Require Import Prelude PreludeFacts MoreFacts MetrThr_Model MetrThr_Spec MetrThr_Proofs SubThr_Model SubThr_Spec.
Set Implicit Arguments.

Section SubThrProofs.
  Context {K V : Type}.
  Variable eqb : K -> K -> bool.
  Hypothesis ok : eqb_ok eqb.
  Local Notation state := (sub_state K V).
  Local Notation cfg := (config (sub_state K V) (call K V) (code K V) (answer K V)).
  Local Notation exec := (@exec K V eqb).
  Local Notation sub_run := (@sub_run K V eqb).
  Local Notation step := (turn (@first K V) (@SubThr_Model.exec K V eqb)).
  Local Notation pending := (@pending K V eqb).
  Local Notation logs := (list (call K V * res (answer K V))).

  (** ** one step *)
  Definition call_with (k : K) (w : todo_with V) : call K V := match w with ToPut v => Put k v | ToGet b => Get k b end.
  Definition call_of (a : code K V) : call K V :=
    match a with
    | Find k w | Lock k w | Again k w | Make k w | Look k w | Use k w _ => call_with k w
    | YStart | YNext _ _ | YTry _ _ _ _ => GetAny
    | QStart | QNext _ _ _ | QSize _ _ _ _ _ => Qsize
    end.
  Lemma first_call d : call_of (first d) = d.
  Proof. destruct d; auto. Qed.
  Definition holds (a : code K V) : bool := match a with Again _ _ | Make _ _ => true | _ => false end.
  Lemma first_free d : holds (first d) = false.
  Proof. destruct d; auto. Qed.
  Ltac split_exec :=
    repeat match goal with
    | H : context [match ?x with _ => _ end] |- _ => destruct x eqn:?
    | H : (_, _) = (_, _) |- _ => inversion H; clear H; subst
    end.
  Lemma exec_call a s s' a' : exec a s = (s', Next a') -> call_of a' = call_of a.
  Proof. destruct a; simpl; intros E; split_exec; simpl in *; auto; try discriminate; try congruence. Qed.
  Definition held_after (n : next (code K V) (answer K V)) : bool := match n with Next a' => holds a' | _ => false end.
  Lemma exec_lock a s s' n : exec a s = (s', n) ->
    (holds a = true -> locked s = true -> locked s' = held_after n) /\ (holds a = false -> held_after n = true -> locked s = false /\ locked s' = true) /\
    (holds a = false -> held_after n = false -> locked s' = locked s).
  Proof. destruct a; simpl; intros E; split_exec; simpl; repeat split; intros; try discriminate; auto. Qed.
  Lemma exec_names a s s' n : exec a s = (s', n) -> names s' = names s \/ exists k w, a = Make k w /\ names s' = dset eqb (names s) k (made s).
  Proof. destruct a; simpl; intros E; split_exec; simpl; eauto. Qed.

  Lemma eqb_refl k : eqb k k = true.
  Proof. apply ok. auto. Qed.
  Lemma eqb_neq k k' : k <> k' -> eqb k k' = false.
  Proof. intros N. destruct (eqb k k') eqn:E; auto. apply ok in E. contradiction. Qed.
  Lemma not_mem (d : dict K nat) k : dmem eqb d k = false -> dget eqb d k = None.
  Proof. intros M. apply (dget_None ok). intros I. apply (dmem_In ok) in I. congruence. Qed.
  Lemma is_mem (d : dict K nat) k : dmem eqb d k = true -> dget eqb d k <> None.
  Proof. intros M N. apply (dget_None ok) in N. apply N. apply (dmem_In ok). auto. Qed.
  Lemma dset_new (d : dict K nat) k v : dget eqb d k = None -> dset eqb d k v = d ++ [(k, v)].
  Proof.
    induction d as [|[k' v'] d IH]; simpl; intros N; auto. destruct (eqb k' k) eqn:E; [discriminate|]. rewrite IH; auto.
  Qed.
  Lemma pending_app l d r k : pending (l ++ [(d, r)]) k =
    match d, r with
    | Put k' v, Ok _ => if eqb k' k then pending l k ++ [v] else pending l k
    | Get k' _, Ok _ => if eqb k' k then tl (pending l k) else pending l k
    | GetAny, Ok (Item k' _) => if eqb k' k then tl (pending l k) else pending l k
    | _, _ => pending l k
    end.
  Proof. unfold SubThr_Spec.pending. rewrite fold_left_app. reflexivity. Qed.

  Definition ending (d : call K V) (n : next (code K V) (answer K V)) : logs :=
    match n with Next _ => [] | Returned r => [(d, Ok r)] | Raised e => [(d, Err e)] end.
  (** the queues hold what is pending *)
  Record right (s : state) (l : logs) : Prop := {
    r_wf : dwf (names s);
    r_one : forall k k' i, dget eqb (names s) k = Some i -> dget eqb (names s) k' = Some i -> k = k';
    r_made : forall k i, dget eqb (names s) k = Some i -> i < made s;
    r_pend : forall k, match dget eqb (names s) k with Some i => content s i = pending l k | None => pending l k = [] end }.
  (* what a thread knows of the names *)
  Definition knows (a : code K V) (s : state) : Prop :=
    match a with
    | Make k _ => dget eqb (names s) k = None
    | Look k _ => dget eqb (names s) k <> None
    | Use k _ i => dget eqb (names s) k = Some i
    | YTry _ _ k i | QSize _ _ _ k i => dget eqb (names s) k = Some i
    | _ => True
    end.
  Definition knows_next (n : next (code K V) (answer K V)) s : Prop := match n with Next a => knows a s | _ => True end.
  Lemma same_right s l b d n : right s l -> (forall k, pending (l ++ ending d n) k = pending l k) -> right (set_lock s b) (l ++ ending d n).
  Proof. intros [A B C D] P. constructor; simpl; auto. intros k. rewrite P. apply D. Qed.
  Lemma same_right' s l d n : right s l -> (forall k, pending (l ++ ending d n) k = pending l k) -> right s (l ++ ending d n).
  Proof. intros [A B C D] P. constructor; simpl; auto. intros k. rewrite P. apply D. Qed.
  Lemma content_right s l k i q d n : right s l -> dget eqb (names s) k = Some i -> pending (l ++ ending d n) k = q ->
    (forall k', k' <> k -> pending (l ++ ending d n) k' = pending l k') -> right (set_content s i q) (l ++ ending d n).
  Proof.
    intros [A B C D] G P O. constructor; simpl; auto. intros k'. destruct (eqb k' k) eqn:E.
    - apply ok in E. subst k'. rewrite G, put_eq. auto.
    - assert (N : k' <> k) by (intros ->; rewrite eqb_refl in E; discriminate). pose proof (D k') as Dk. rewrite (O _ N). destruct (dget eqb (names s) k') as [j|] eqn:X; auto.
      rewrite put_neq; auto. intros ->. apply N. eauto.
  Qed.
  Lemma nth_names s l i k q : right s l -> nth_error (names s) i = Some (k, q) -> dget eqb (names s) k = Some q.
  Proof. intros R X. apply (In_dget ok); [apply (r_wf R)|]. eapply nth_error_In; eauto. Qed.
  Lemma exec_right a s s' n l : right s l -> knows a s -> exec a s = (s', n) -> right s' (l ++ ending (call_of a) n) /\ knows_next n s'.
  Proof.
    intros R N E. destruct a; simpl in E, N.
    - inversion E; subst. split; [apply same_right'; simpl; auto; intros; rewrite app_nil_r; auto|]. simpl. destruct (dmem eqb (names s') k) eqn:M; simpl; auto. apply is_mem. auto.
    - destruct (locked s); inversion E; subst; simpl; rewrite app_nil_r; split; auto. destruct R; constructor; auto.
    - destruct (dmem eqb (names s) k) eqn:M; inversion E; subst; simpl; rewrite app_nil_r; split; auto; [destruct R; constructor; auto|apply is_mem; auto|apply not_mem; auto].
    - inversion E; subst. simpl. rewrite app_nil_r. pose proof R as [A B C D]. split; [|rewrite (dget_dset_eq ok); discriminate]. constructor; simpl.
      + apply (dset_wf ok). auto.
      + intros k1 k2 i X Y. destruct (eqb k1 k) eqn:E1, (eqb k2 k) eqn:E2.
        * apply ok in E1, E2. congruence.
        * apply ok in E1. subst k1. rewrite (dget_dset_eq ok) in X. injection X as <-. rewrite (dget_dset_neq ok) in Y by (intros ->; rewrite eqb_refl in E2; discriminate). apply C in Y. lia.
        * apply ok in E2. subst k2. rewrite (dget_dset_eq ok) in Y. injection Y as <-. rewrite (dget_dset_neq ok) in X by (intros ->; rewrite eqb_refl in E1; discriminate). apply C in X. lia.
        * rewrite (dget_dset_neq ok) in X by (intros ->; rewrite eqb_refl in E1; discriminate). rewrite (dget_dset_neq ok) in Y by (intros ->; rewrite eqb_refl in E2; discriminate). eauto.
      + intros k1 i X. destruct (eqb k1 k) eqn:E1; [apply ok in E1; subst k1; rewrite (dget_dset_eq ok) in X; injection X as <-; lia|].
        rewrite (dget_dset_neq ok) in X by (intros ->; rewrite eqb_refl in E1; discriminate). apply C in X. lia.
      + intros k1. pose proof (D k1) as D1. destruct (eqb k1 k) eqn:E1.
        * apply ok in E1. subst k1. rewrite (dget_dset_eq ok), put_eq. rewrite N in D1. auto.
        * rewrite (dget_dset_neq ok) by (intros ->; rewrite eqb_refl in E1; discriminate). destruct (dget eqb (names s) k1) as [j|] eqn:X; auto. rewrite put_neq; auto. apply C in X. lia.
    - destruct (dget eqb (names s) k) as [i|] eqn:G; [|contradiction]. inversion E; subst. simpl. rewrite app_nil_r. auto.
    - pose proof (r_pend R k) as P. rewrite N in P. destruct w as [v|b].
      + inversion E; subst. split; [|simpl; auto]. rewrite P. apply content_right with (k := k); auto; simpl; [rewrite pending_app, eqb_refl; auto|].
        intros k' N'. rewrite pending_app, eqb_neq; auto.
      + destruct (content s i) as [|v q] eqn:Q.
        * destruct b; inversion E; subst; simpl; split; auto; [rewrite app_nil_r; auto|]. apply (@same_right' s' l (Get k false) (Raised EmptyExn)); auto. intros k'. simpl. rewrite pending_app. auto.
        * inversion E; subst. split; [|simpl; auto]. apply content_right with (k := k); auto; simpl; [rewrite pending_app, eqb_refl, <- P; auto|]. intros k' N'. rewrite pending_app, eqb_neq; auto.
    - inversion E; subst. simpl. rewrite app_nil_r. auto.
    - destruct (negb (length (names s) =? n0)) eqn:L; [inversion E; subst; simpl; split; auto; apply (@same_right' s' l GetAny (Raised RuntimeError)); auto; intros k'; simpl; rewrite pending_app; auto|].
      destruct (nth_error (names s) i) as [[k q]|] eqn:X; inversion E; subst; simpl; split; auto.
      + rewrite app_nil_r. auto.
      + eapply nth_names; eauto.
      + apply (@same_right' s' l GetAny (Raised EmptyExn)); auto. intros k'. simpl. rewrite pending_app. auto.
    - pose proof (r_pend R k) as P. rewrite N in P. destruct (content s q) as [|v r] eqn:Q; inversion E; subst; simpl; [rewrite app_nil_r; auto|]. split; auto.
      apply (@content_right s l k q r GetAny (Returned (Item k v))); auto; simpl; [rewrite pending_app, eqb_refl, <- P; auto|]. intros k' N'. rewrite pending_app, eqb_neq; auto.
    - inversion E; subst. simpl. rewrite app_nil_r. auto.
    - destruct (negb (length (names s) =? n0)) eqn:L; [inversion E; subst; simpl; split; auto; apply (@same_right' s' l Qsize (Raised RuntimeError)); auto; intros k'; simpl; rewrite pending_app; auto|].
      destruct (nth_error (names s) i) as [[k q]|] eqn:X; inversion E; subst; simpl; split; auto.
      + rewrite app_nil_r. auto.
      + eapply nth_names; eauto.
      + apply (@same_right' s' l Qsize (Returned (Num acc))); auto. intros k'. simpl. rewrite pending_app. auto.
    - inversion E; subst. simpl. rewrite app_nil_r. auto.
  Qed.
  Lemma names_last a s s' n k i : (forall k w, a = Make k w -> dget eqb (names s) k = None) -> exec a s = (s', n) -> dget eqb (names s) k = Some i -> dget eqb (names s') k = Some i.
  Proof.
    intros M E G. destruct (exec_names _ _ E) as [->|(k' & w & -> & ->)]; auto. rewrite (dget_dset_neq ok); auto. intros ->. rewrite (M _ _ eq_refl) in G. discriminate.
  Qed.
  (* what another thread knows lasts *)
  Lemma knows_lasts a b s s' n : knows a s -> (holds b = true -> holds a = false) -> exec a s = (s', n) -> knows b s -> knows b s'.
  Proof.
    intros Ka H E N. assert (M : forall k w, a = Make k w -> dget eqb (names s) k = None) by (intros k w ->; auto).
    destruct b; simpl in *; auto; try (eapply names_last; eauto; fail).
    - destruct (exec_names _ _ E) as [->|(k' & w' & -> & _)]; auto. specialize (H eq_refl). discriminate.
    - intros X. destruct (dget eqb (names s) k) as [i|] eqn:G; [|contradiction]. assert (Z : dget eqb (names s') k = Some i) by (eapply names_last; eauto). congruence.
  Qed.

  Lemma step_cases (c : cfg) t : step c t = c \/
    (exists d r, current c t = None /\ todo c t = d :: r /\ shared (step c t) = shared c /\ current (step c t) = put (current c) t (Some (d, first d)) /\
       log (step c t) = log c /\ todo (step c t) = put (todo c) t r) \/
    (exists d a s n, current c t = Some (d, a) /\ exec a (shared c) = (s, n) /\ shared (step c t) = s /\ todo (step c t) = todo c /\
       current (step c t) = put (current c) t (match n with Next a' => Some (d, a') | _ => None end) /\
       log (step c t) = log c ++ ending d n).
  Proof.
    unfold turn. destruct (current c t) as [[d a]|] eqn:E.
    - right. right. exists d, a. destruct (exec a (shared c)) as [s n] eqn:X. exists s, n. destruct n; simpl; rewrite ?app_nil_r; repeat (split; auto).
    - destruct (todo c t) as [|d r] eqn:T; auto. right. left. exists d, r. simpl. repeat (split; auto).
  Qed.

  (** ** the monitor *)
  Record sound (c : cfg) : Prop := {
    s_call : forall t d a, current c t = Some (d, a) -> d = call_of a;
    s_one : forall t u d a d' a', current c t = Some (d, a) -> current c u = Some (d', a') -> holds a = true -> holds a' = true -> t = u;
    s_lock : locked (shared c) = true <-> exists t d a, current c t = Some (d, a) /\ holds a = true;
    s_right : right (shared c) (log c);
    s_knows : forall t d a, current c t = Some (d, a) -> knows a (shared c) }.
  Lemma sound_step c t : sound c -> sound (step c t).
  Proof.
    intros [H1 H2 H3 H4 H6]. destruct (step_cases c t) as [->|[(d & r & C & T & S' & C' & L' & _)|(d & a & s & n & C & E & S' & T' & C' & L')]]; [constructor; auto| |].
    - constructor; rewrite ?S', ?C', ?L'; auto.
      + intros u d' a' X. destruct (Nat.eq_dec u t) as [->|N]; [rewrite put_eq in X; inversion X; subst; rewrite first_call; auto|rewrite put_neq in X by auto; eauto].
      + intros u w d1 a1 d2 a2 X Y A B.
        destruct (Nat.eq_dec u t) as [->|N]; [rewrite put_eq in X; inversion X; subst; rewrite first_free in A; discriminate|].
        destruct (Nat.eq_dec w t) as [->|N']; [rewrite put_eq in Y; inversion Y; subst; rewrite first_free in B; discriminate|].
        rewrite put_neq in X, Y by auto. eauto.
      + rewrite H3. split; intros (u & d' & a' & X & A).
        * exists u, d', a'. split; auto. rewrite put_neq; auto. congruence.
        * destruct (Nat.eq_dec u t) as [->|N]; [rewrite put_eq in X; inversion X; subst; rewrite first_free in A; discriminate|]. rewrite put_neq in X by auto. eauto.
      + intros u d' a' X. destruct (Nat.eq_dec u t) as [->|N]; [rewrite put_eq in X; inversion X; subst; destruct d'; simpl; auto|rewrite put_neq in X by auto; eauto].
    - pose proof (exec_lock a (shared c) E) as (L1 & L2 & L3). pose proof (H1 _ _ _ C) as D. subst d.
      destruct (exec_right a H4 (H6 _ _ _ C) E) as (W1 & W4).
      constructor; rewrite ?S', ?C', ?L'; auto.
      + intros u d' a' X. destruct (Nat.eq_dec u t) as [->|N]; [|rewrite put_neq in X by auto; eauto].
        rewrite put_eq in X. destruct n as [a1| |]; try discriminate. inversion X; subst. symmetry. eapply exec_call; eauto.
      + assert (Z : forall w d2 a2, w <> t -> put (current c) t (match n with Next a' => Some (call_of a, a') | _ => None end) w = Some (d2, a2) -> holds a2 = true -> held_after n = false).
        { intros w d2 a2 Nw Y B. rewrite put_neq in Y by auto. destruct (held_after n) eqn:Hn; auto. exfalso. destruct (holds a) eqn:Ha.
          - apply Nw. apply (H2 w t d2 a2 (call_of a) a); auto.
          - destruct (L2 eq_refl eq_refl) as [F _]. assert (locked (shared c) = true) by (apply H3; eauto). congruence. }
        intros u w d1 a1 d2 a2 X Y A B.
        destruct (Nat.eq_dec u t) as [->|N], (Nat.eq_dec w t) as [->|N']; auto.
        * exfalso. pose proof (Z _ _ _ N' Y B) as Q. rewrite put_eq in X. destruct n as [a3| |]; try discriminate. inversion X; subst. simpl in Q. congruence.
        * exfalso. pose proof (Z _ _ _ N X A) as Q. rewrite put_eq in Y. destruct n as [a3| |]; try discriminate. inversion Y; subst. simpl in Q. congruence.
        * rewrite put_neq in X, Y by auto. eauto.
      + destruct (holds a) eqn:Ha.
        * rewrite L1; auto; [|apply H3; eauto]. split.
          -- intros Hn. destruct n as [a3| |]; try discriminate. exists t, (call_of a), a3. rewrite put_eq. auto.
          -- intros (u & d' & a' & X & A). destruct (Nat.eq_dec u t) as [->|N].
             ++ rewrite put_eq in X. destruct n; inversion X; subst. auto.
             ++ rewrite put_neq in X by auto. exfalso. apply N. eauto.
        * destruct (held_after n) eqn:Hn.
          -- destruct (L2 eq_refl eq_refl) as [_ ->]. split; auto. intros _. destruct n as [a3| |]; try discriminate. exists t, (call_of a), a3. rewrite put_eq. auto.
          -- rewrite L3, H3 by auto. split; intros (u & d' & a' & X & A).
             ++ exists u, d', a'. split; auto. rewrite put_neq; auto. intros ->. rewrite C in X. inversion X; subst. congruence.
             ++ destruct (Nat.eq_dec u t) as [->|N]; [rewrite put_eq in X; destruct n; inversion X; subst; simpl in Hn; congruence|]. rewrite put_neq in X by auto. eauto.
      + intros u d' a' X. destruct (Nat.eq_dec u t) as [->|N].
        * rewrite put_eq in X. destruct n as [a3| |]; try discriminate. injection X as <- <-. auto.
        * rewrite put_neq in X by auto. apply (@knows_lasts a a' (shared c) s n); [exact (H6 _ _ _ C)| |exact E|exact (H6 _ _ _ X)]. intros Ha'. destruct (holds a) eqn:Ha; auto. exfalso. apply N. eauto.
  Qed.
  Lemma sound_on c schedule : sound c -> sound (sub_run c schedule).
  Proof. intros H. unfold SubThr_Model.sub_run. apply run_inv with (P := sound); [auto|intros; apply sound_step; auto]. Qed.
  Lemma sound_start programs : sound (sub_start programs).
  Proof.
    constructor; simpl; try discriminate.
    - split; [discriminate|]. intros (t & d & a & X & _). discriminate.
    - constructor; simpl; try discriminate; auto. constructor.
  Qed.
  Lemma sound_run programs schedule : sound (sub_run (sub_start programs) schedule).
  Proof. apply sound_on, sound_start. Qed.

  (** ** how calls end *)
  Lemma app_same {A : Type} (l : list A) m : l = l ++ m -> m = [].
  Proof. intros E. rewrite <- (app_nil_r l) in E at 1. apply app_inv_head in E. auto. Qed.
  Lemma fits_step c t d r : sound c -> log (step c t) = log c ++ [(d, r)] -> fits eqb (log c) d r \/ slips d r.
  Proof.
    intros H L. destruct (step_cases c t) as [Q|[(d' & r' & C & T & S' & C' & L' & _)|(d' & a & s & n & C & E & S' & T' & C' & L')]].
    - rewrite Q in L. apply app_same in L. discriminate.
    - rewrite L' in L. apply app_same in L. discriminate.
    - rewrite L' in L. apply app_inv_head in L. pose proof (s_call H _ C). subst d'. pose proof (s_knows H _ C) as N. pose proof (r_pend (s_right H)) as P.
      destruct a; simpl in E, N.
      + inversion E; subst. discriminate.
      + destruct (locked (shared c)); inversion E; subst; discriminate.
      + destruct (dmem eqb (names (shared c)) k); inversion E; subst; discriminate.
      + inversion E; subst; discriminate.
      + destruct (dget eqb (names (shared c)) k); [inversion E; subst; discriminate|contradiction].
      + specialize (P k). rewrite N in P. destruct w as [v|b]; simpl in L.
        * inversion E; subst. inversion L; subst. left. reflexivity.
        * destruct (content (shared c) i) as [|v q] eqn:Q; [destruct b|]; inversion E; subst; try discriminate; inversion L; subst; left; simpl; rewrite <- P; auto.
      + inversion E; subst; discriminate.
      + destruct (negb (length (names (shared c)) =? n0)); [|destruct (nth_error (names (shared c)) i) as [[k q]|]]; inversion E; subst; try discriminate; inversion L; subst; right; simpl; auto.
      + specialize (P k). rewrite N in P. destruct (content (shared c) q) as [|v l] eqn:Q; inversion E; subst; try discriminate. inversion L; subst. left. left. exists k, v, l. auto.
      + inversion E; subst; discriminate.
      + destruct (negb (length (names (shared c)) =? n0)); [|destruct (nth_error (names (shared c)) i) as [[k q]|]]; inversion E; subst; try discriminate; inversion L; subst; right; simpl; eauto.
      + inversion E; subst; discriminate.
  Qed.

  (** ** nothing is lost, the order is kept *)
  Lemma fifo_run programs schedule k : let c := sub_run (sub_start programs) schedule in sent eqb (log c) k = received eqb (log c) k ++ pending (log c) k.
  Proof.
    enough (H : let c := sub_run (sub_start programs) schedule in sound c /\ sent eqb (log c) k = received eqb (log c) k ++ pending (log c) k) by apply H.
    unfold SubThr_Model.sub_run. apply run_inv with (P := fun c => sound c /\ sent eqb (log c) k = received eqb (log c) k ++ pending (log c) k).
    - split; [apply sound_start|reflexivity].
    - intros c t (Hs & H). split; [apply sound_step; auto|].
      assert (X : log (step c t) = log c \/ exists d r, log (step c t) = log c ++ [(d, r)]).
      { destruct (step_cases c t) as [->|[(d' & r' & C & T & S' & C' & L' & _)|(d' & a & s & n & C & E & S' & T' & C' & L')]]; auto. rewrite L'. destruct n; simpl; rewrite ?app_nil_r; eauto. }
      destruct X as [->|(d & r & X)]; auto. pose proof (@fits_step c t d r Hs X) as F. rewrite X. unfold sent, received in *. rewrite !flat_map_app, pending_app. simpl. rewrite !app_nil_r.
      destruct d as [k' v|k' b| |]; simpl in F.
      + destruct F as [->|[]]. simpl. rewrite H. destruct (eqb k' k); rewrite ?app_nil_r, ?app_assoc; auto.
      + destruct F as [F|[]]. simpl. rewrite app_nil_r. destruct (pending (log c) k') as [|v q] eqn:P.
        * destruct F as (_ & ->). rewrite app_nil_r. auto.
        * rewrite F. rewrite H. destruct (eqb k' k) eqn:E; [|rewrite app_nil_r; auto]. apply ok in E. subst k'. rewrite P. simpl. rewrite <- app_assoc. auto.
      + rewrite app_nil_r. destruct F as [[(k' & v & q & P & ->)|(-> & _)]|[->| ->]]; rewrite ?app_nil_r; auto.
        rewrite H. destruct (eqb k' k) eqn:E; [|rewrite app_nil_r; auto]. apply ok in E. subst k'. rewrite P. simpl. rewrite <- app_assoc. auto.
      + rewrite !app_nil_r. auto.
  Qed.

  (** ** calls one at a time *)
  Definition mid (a : code K V) (s : state) : Prop :=
    match a with
    | YNext n i => n = length (names s) /\ forall j k q, j < i -> nth_error (names s) j = Some (k, q) -> content s q = []
    | YTry n i k q => (n = length (names s) /\ forall j k q, j < i -> nth_error (names s) j = Some (k, q) -> content s q = []) /\ nth_error (names s) i = Some (k, q)
    | QNext n i acc => n = length (names s) /\ acc = sum (map (fun e => length (content s (snd e))) (firstn i (names s)))
    | QSize n i acc k q => (n = length (names s) /\ acc = sum (map (fun e => length (content s (snd e))) (firstn i (names s)))) /\ nth_error (names s) i = Some (k, q)
    | _ => True
    end.
  Lemma sum_app l m : sum (l ++ m) = sum l + sum m.
  Proof. induction l as [|x l IH]; simpl; auto. rewrite IH. lia. Qed.
  Lemma firstn_next {A : Type} (l : list A) : forall i x, nth_error l i = Some x -> firstn (S i) l = firstn i l ++ [x].
  Proof.
    induction l as [|y l IH]; intros [|i] x E; try discriminate; [simpl in E; injection E as ->; reflexivity|]. simpl in E. change (firstn (S (S i)) (y :: l)) with (y :: firstn (S i) l). rewrite (IH _ _ E). reflexivity.
  Qed.
  Lemma exec_mid a s s' a' : mid a s -> exec a s = (s', Next a') -> mid a' s'.
  Proof.
    intros M E. destruct a; simpl in E, M.
    - inversion E; subst. destruct (dmem eqb (names s') k); simpl; auto.
    - destruct (locked s); inversion E; subst; simpl; auto.
    - destruct (dmem eqb (names s) k); inversion E; subst; simpl; auto.
    - inversion E; subst; simpl; auto.
    - destruct (dget eqb (names s) k); inversion E; subst; simpl; auto.
    - destruct w as [v|b]; [discriminate|]. destruct (content s i); [|discriminate]. destruct b; inversion E; subst; simpl; auto.
    - inversion E; subst; simpl. split; auto. intros. lia.
    - destruct (negb (length (names s) =? n)); [discriminate|]. destruct (nth_error (names s) i) as [[k q]|] eqn:X; inversion E; subst. simpl. auto.
    - destruct (content s q) eqn:Q; inversion E; subst. simpl. destruct M as ((M1 & M2) & M3). split; auto. intros j k' q' L X. destruct (Nat.eq_dec j i) as [->|N]; [congruence|]. eapply M2; eauto. lia.
    - inversion E; subst; simpl. auto.
    - destruct (negb (length (names s) =? n)); [discriminate|]. destruct (nth_error (names s) i) as [[k q]|] eqn:X; inversion E; subst. simpl. auto.
    - inversion E; subst. destruct M as ((M1 & M2) & M3). unfold mid. split; auto. rewrite (firstn_next _ _ M3), map_app, sum_app, <- M2. simpl. lia.
  Qed.
  Lemma mid_fits c t d r : sound c -> (forall d a, current c t = Some (d, a) -> mid a (shared c)) -> log (step c t) = log c ++ [(d, r)] -> fits eqb (log c) d r.
  Proof.
    intros H Mc L. destruct (@fits_step c t d r H L) as [F|Sl]; auto.
    destruct (step_cases c t) as [Q|[(d' & r' & C & T & S' & C' & L' & _)|(d' & a & s & n & C & E & S' & T' & C' & L')]].
    - rewrite Q in L. apply app_same in L. discriminate.
    - rewrite L' in L. apply app_same in L. discriminate.
    - rewrite L' in L. apply app_inv_head in L. pose proof (s_call H _ C). subst d'. pose proof (r_pend (s_right H)) as P. pose proof (Mc _ _ C) as M. pose proof (s_knows H _ C) as N.
      destruct d as [k v|k b| |]; try destruct Sl; (destruct a; simpl in E, M; try (destruct w; fail)); try (destruct n; simpl in L; try discriminate; destruct w; discriminate).
      all: try (inversion E; subst; discriminate).
      + destruct M as (-> & M). rewrite Nat.eqb_refl in E. simpl in E. destruct (nth_error (names (shared c)) i) as [[k q]|] eqn:X; inversion E; subst; discriminate.
      + destruct (content (shared c) q); inversion E; subst; discriminate.
      + destruct M as (-> & M). rewrite Nat.eqb_refl in E. simpl in E. destruct (nth_error (names (shared c)) i) as [[k q]|] eqn:X; inversion E; subst; try discriminate. inversion L; subst. right. split; auto.
        intros k. specialize (P k). destruct (dget eqb (names (shared c)) k) as [q|] eqn:G; auto. apply (dget_In ok) in G. destruct (In_nth_error _ _ G) as (j & J). rewrite <- P. eapply M; eauto.
        apply nth_error_None in X. assert (j < length (names (shared c))) by (apply nth_error_Some; congruence). lia.
      + destruct (content (shared c) q); inversion E; subst; discriminate.
      + destruct M as (-> & M). rewrite Nat.eqb_refl in E. simpl in E. destruct (nth_error (names (shared c)) i) as [[k q]|] eqn:X; inversion E; subst; discriminate.
      + destruct M as (-> & M). rewrite Nat.eqb_refl in E. simpl in E. destruct (nth_error (names (shared c)) i) as [[k q]|] eqn:X; inversion E; subst; try discriminate. inversion L; subst.
        apply nth_error_None in X. rewrite firstn_all2 by auto. exists (dkeys (names (shared c))). split; [apply (r_wf (s_right H))|]. split.
        * intros k Z. specialize (P k). destruct (dget eqb (names (shared c)) k) as [q|] eqn:G; [eapply (dget_Some_key ok); eauto|contradiction].
        * f_equal. f_equal. f_equal. unfold dkeys. rewrite map_map. apply map_ext_in. intros [k q] I. simpl. specialize (P k). rewrite (In_dget ok _ _ (r_wf (s_right H)) I) in P. congruence.
  Qed.
  Definition solo (c : cfg) : Prop := sound c /\ (forall t d a, current c t = Some (d, a) -> mid a (shared c) /\ forall u, u <> t -> current c u = None) /\
    forall l1 d r l2, log c = l1 ++ (d, r) :: l2 -> fits eqb l1 d r.
  Lemma snoc_log (P : logs -> call K V -> res (answer K V) -> Prop) l d0 r0 : (forall l1 d r l2, l = l1 ++ (d, r) :: l2 -> P l1 d r) -> P l d0 r0 ->
    forall l1 d r l2, l ++ [(d0, r0)] = l1 ++ (d, r) :: l2 -> P l1 d r.
  Proof.
    intros H H0 l1 d r l2 E. destruct (@exists_last _ ((d, r) :: l2)) as (m & x & X); [discriminate|]. rewrite X, app_assoc in E. apply app_inj_tail in E. destruct E as [E <-].
    destruct m as [|y m]; [rewrite app_nil_r in E; inversion X; subst; auto|]. inversion X; subst. eapply H. eauto.
  Qed.
  Lemma solo_step c t : solo c -> (todo c t = [] /\ current c t = None \/ forall u, u <> t -> current c u = None) -> solo (step c t).
  Proof.
    intros (H & M & F) O. split; [apply sound_step; auto|]. assert (F' : forall d r, log (step c t) = log c ++ [(d, r)] -> fits eqb (log c) d r) by (intros; eapply mid_fits; eauto; intros; eapply M; eauto).
    destruct (step_cases c t) as [->|[(d' & r' & C & T & S' & C' & L' & _)|(d' & a & s & n & C & E & S' & T' & C' & L')]]; auto.
    - destruct O as [(O & _)|O]; [congruence|]. rewrite S', C', L'. split; auto. intros u d a X. destruct (Nat.eq_dec u t) as [->|N]; [|rewrite put_neq, O in X by auto; discriminate].
      rewrite put_eq in X. injection X as <- <-. split; [destruct d'; simpl; auto|]. intros w W. rewrite put_neq; auto.
    - destruct O as [(_ & O)|O]; [congruence|]. rewrite S', C'. split.
      + intros u d a' X. destruct (Nat.eq_dec u t) as [->|N]; [|rewrite put_neq, O in X by auto; discriminate]. rewrite put_eq in X. destruct n as [a1| |]; try discriminate. injection X as <- <-.
        split; [eapply exec_mid; eauto; eapply M; eauto|]. intros w W. rewrite put_neq; auto.
      + rewrite L'. rewrite L' in F'. destruct n; simpl in *; [rewrite app_nil_r; auto| |]; apply snoc_log; auto.
  Qed.
  Lemma solo_run schedule : forall c, one_at_a_time (@first K V) exec c schedule -> solo c -> solo (sub_run c schedule).
  Proof.
    induction schedule as [|t l IH]; intros c O H; auto. destruct O as (O & O'). change (sub_run c (t :: l)) with (sub_run (step c t) l). apply IH; auto. apply solo_step; auto.
  Qed.
  Lemma alone_run programs schedule : one_at_a_time (@first K V) exec (sub_start programs) schedule ->
    forall l1 d r l2, log (sub_run (sub_start programs) schedule) = l1 ++ (d, r) :: l2 -> fits eqb l1 d r.
  Proof.
    intros O. assert (S0 : solo (sub_start programs)) by (split; [apply sound_start|]; simpl; split; [discriminate|]; intros [|x l1] d r l2 E; discriminate).
    destruct (@solo_run schedule (sub_start programs) O S0) as (_ & _ & X). exact X.
  Qed.

  (** ** when no new names are used *)
  Definition calls_of (c : cfg) (t : nat) : list (call K V) := match current c t with Some (d, _) => d :: todo c t | None => todo c t end.
  Lemma calls_step c t u d : In d (calls_of (step c t) u) -> In d (calls_of c u).
  Proof.
    unfold calls_of. destruct (step_cases c t) as [->|[(d' & r' & C & T & S' & C' & L' & T')|(d' & a & s & n & C & E & S' & T' & C' & L')]]; auto.
    - rewrite C', T'. destruct (Nat.eq_dec u t) as [->|N]; [rewrite !put_eq, C, T; auto|rewrite !put_neq by auto; auto].
    - rewrite C', T'. destruct (Nat.eq_dec u t) as [->|N]; [rewrite !put_eq, C; destruct n; simpl; auto|rewrite !put_neq by auto; auto].
  Qed.
  Definition used (c : cfg) : Prop := forall d r k, In (d, r) (log c) -> name_of d = Some k -> dget eqb (names (shared c)) k <> None.
  Lemma step_names c t k i : sound c -> dget eqb (names (shared c)) k = Some i -> dget eqb (names (shared (step c t))) k = Some i.
  Proof.
    intros H G. destruct (step_cases c t) as [->|[(d' & r' & C & T & S' & C' & L' & _)|(d' & a & s & n & C & E & S' & T' & C' & L')]]; auto; rewrite S'; auto.
    eapply names_last; eauto. intros k' w ->. apply (s_knows H _ C).
  Qed.
  Lemma step_known c t k : sound c -> dget eqb (names (shared c)) k <> None -> dget eqb (names (shared (step c t))) k <> None.
  Proof. intros H N. destruct (dget eqb (names (shared c)) k) as [i|] eqn:G; [|contradiction]. rewrite (step_names t k H G). discriminate. Qed.
  Lemma used_step c t : sound c -> used c -> used (step c t).
  Proof.
    intros H U d r k I N. apply step_known; auto.
    destruct (step_cases c t) as [Q|[(d' & r' & C & T & S' & C' & L' & _)|(d' & a & s & n & C & E & S' & T' & C' & L')]]; [rewrite Q in I; eauto|rewrite L' in I; eauto|].
    rewrite L' in I. apply in_app_iff in I. destruct I as [I|I]; [eauto|]. pose proof (s_call H _ C). subst d'. pose proof (s_knows H _ C) as X.
    assert (D : d = call_of a) by (destruct n; simpl in I; [destruct I| |]; destruct I as [I|[]]; congruence). subst d.
    destruct a; simpl in N, X, E; try discriminate; auto.
    - inversion E; subst. destruct I.
    - destruct (locked (shared c)); inversion E; subst; destruct I.
    - destruct (dmem eqb (names (shared c)) k0); inversion E; subst; destruct I.
    - inversion E; subst. destruct I.
    - destruct w; injection N as <-; auto.
    - destruct w; injection N as <-; congruence.
  Qed.
  Lemma used_run programs schedule : used (sub_run (sub_start programs) schedule).
  Proof.
    enough (H : let c := sub_run (sub_start programs) schedule in sound c /\ used c) by apply H. unfold SubThr_Model.sub_run. apply run_inv with (P := fun c => sound c /\ used c).
    - split; [apply sound_start|]. intros d r k [].
    - intros c t (H & U). split; [apply sound_step|apply used_step]; auto.
  Qed.
  Definition counted (a : code K V) (s : state) : Prop := match a with YNext n _ | YTry n _ _ _ | QNext n _ _ | QSize n _ _ _ _ => n = length (names s) | _ => True end.
  Definition known (c : cfg) : Prop := sound c /\ (forall t d k, In d (calls_of c t) -> name_of d = Some k -> dget eqb (names (shared c)) k <> None) /\
    (forall t d a, current c t = Some (d, a) -> counted a (shared c)).
  Lemma call_name k w : name_of (call_with k w) = Some k.
  Proof. destruct w; auto. Qed.
  Lemma known_step c t : known c -> known (step c t) /\ exists l, log (step c t) = log c ++ l /\ forall d, ~ In (d, Err RuntimeError) l.
  Proof.
    intros (H & Hk & Hc). assert (H' : forall u d k, In d (calls_of (step c t) u) -> name_of d = Some k -> dget eqb (names (shared (step c t))) k <> None).
    { intros u d k I N. apply step_known; auto. apply calls_step in I. eauto. }
    destruct (step_cases c t) as [Q|[(d' & r' & C & T & S' & C' & L' & _)|(d' & a & s & n & C & E & S' & T' & C' & L')]].
    - rewrite Q. split; [split; auto|]. exists []. rewrite app_nil_r. auto.
    - split; [split; [apply sound_step; auto|split; auto]|exists []; rewrite L', app_nil_r; auto]. rewrite S', C'. intros u d a X. destruct (Nat.eq_dec u t) as [->|N]; [|rewrite put_neq in X by auto; eauto].
      rewrite put_eq in X. injection X as <- <-. destruct d'; simpl; auto.
    - pose proof (s_call H _ C). subst d'. pose proof (s_knows H _ C) as X. pose proof (Hc _ _ _ C) as Y.
      assert (Z : names s = names (shared c)).
      { destruct (exec_names _ _ E) as [Z|(k & w & -> & _)]; auto. exfalso. simpl in X. apply (Hk t (call_with k w) k); auto; [|apply call_name]. unfold calls_of. rewrite C. simpl. auto. }
      split; [split; [apply sound_step; auto|split; auto]|].
      + rewrite S', C'. intros u d a' W. destruct (Nat.eq_dec u t) as [->|N].
        * rewrite put_eq in W. destruct n as [a1| |]; try discriminate. injection W as <- <-. clear - E Y Z. destruct a; simpl in E, Y; split_exec; simpl in *; auto; try discriminate; try congruence.
        * rewrite put_neq in W by auto. apply Hc in W. unfold counted in *. destruct a'; rewrite ?Z; auto.
      + exists (ending (call_of a) n). split; auto. intros d I. destruct n as [|r|e]; simpl in I; [destruct I| |]; destruct I as [I|[]]; try discriminate. injection I as <- ->.
        clear - E Y X. destruct a; simpl in E, Y, X; try (rewrite Y, Nat.eqb_refl in E; simpl in E); split_exec; try discriminate; try contradiction.
  Qed.
  Lemma known_run schedule : forall c, known c -> exists l, log (sub_run c schedule) = log c ++ l /\ forall d, ~ In (d, Err RuntimeError) l.
  Proof.
    induction schedule as [|t m IH]; intros c H; [exists []; rewrite app_nil_r; auto|]. destruct (known_step t H) as (H1 & l1 & L1 & N1). destruct (IH _ H1) as (l2 & L2 & N2).
    exists (l1 ++ l2). change (sub_run c (t :: m)) with (sub_run (step c t) m). rewrite L2, L1, app_assoc. split; auto. intros d I. apply in_app_iff in I. destruct I; [eapply N1|eapply N2]; eauto.
  Qed.
  Lemma known_start programs before : let c := sub_run (sub_start programs) before in idle c ->
    (forall t d k, In d (todo c t) -> name_of d = Some k -> exists d' r, In (d', r) (log c) /\ name_of d' = Some k) -> known c.
  Proof.
    intros c Id N. split; [apply sound_run|]. split; [|intros t d a C; rewrite Id in C; discriminate]. intros t d k I Nm. unfold calls_of in I. rewrite Id in I. destruct (N t d k I Nm) as (d' & r & I' & N').
    eapply used_run; eauto.
  Qed.

  (** ** the only thread that takes *)
  Definition at_most (a : code K V) (k : K) (s : state) : Prop :=
    match a with
    | YStart => True
    | YNext _ i => exists j q, nth_error (names s) j = Some (k, q) /\ i <= j
    | YTry _ i k' q' => nth_error (names s) i = Some (k', q') /\ exists j q, nth_error (names s) j = Some (k, q) /\ i <= j
    | _ => False
    end.
  Definition stage (t : nat) (k : K) (rest : list (call K V)) (c : cfg) : Prop := sound c /\ (forall u d, u <> t -> In d (calls_of c u) -> ~ takes d) /\
    (current c t = None /\ todo c t = GetAny :: rest /\ pending (log c) k <> [] \/
     (exists a, current c t = Some (GetAny, a) /\ todo c t = rest /\ pending (log c) k <> [] /\ at_most a k (shared c)) \/
     current c t = None /\ todo c t = rest \/ length (todo c t) < length rest).
  Lemma nth_lasts c t j x : sound c -> nth_error (names (shared c)) j = Some x -> nth_error (names (shared (step c t))) j = Some x.
  Proof.
    intros H G. destruct (step_cases c t) as [->|[(d' & r' & C & T & S' & C' & L' & _)|(d' & a & s & n & C & E & S' & T' & C' & L')]]; auto; rewrite S'; auto.
    destruct (exec_names _ _ E) as [->|(k & w & -> & ->)]; auto. rewrite dset_new by (apply (s_knows H _ C)). rewrite nth_error_app1; auto. apply nth_error_Some. congruence.
  Qed.
  Lemma at_lasts c u a k : sound c -> at_most a k (shared c) -> at_most a k (shared (step c u)).
  Proof.
    intros H. destruct a; simpl; auto.
    - intros (j & q & J & L). exists j, q. split; auto. apply nth_lasts; auto.
    - intros (I & j & q' & J & L). split; [apply nth_lasts; auto|]. exists j, q'. split; auto. apply nth_lasts; auto.
  Qed.
  Lemma other_pending c u k : sound c -> (forall d, In d (calls_of c u) -> ~ takes d) -> pending (log c) k <> [] -> pending (log (step c u)) k <> [].
  Proof.
    intros H N P. destruct (step_cases c u) as [->|[(d' & r' & C & T & S' & C' & L' & _)|(d' & a & s & n & C & E & S' & T' & C' & L')]]; auto; rewrite L'; auto.
    assert (D : ~ takes d') by (apply N; unfold calls_of; rewrite C; simpl; auto). destruct n; simpl; [rewrite app_nil_r; auto| |]; rewrite pending_app; destruct d'; simpl in D; try tauto.
    destruct (eqb k0 k); auto. intros X. apply app_eq_nil in X. destruct X. discriminate.
  Qed.
  Lemma stage_step t k rest c u : stage t k rest c -> stage t k rest (step c u).
  Proof.
    intros (H & O & S0). split; [apply sound_step; auto|]. split; [intros u' d N I; apply (O u' d N); eapply calls_step; eauto|].
    destruct (Nat.eq_dec u t) as [->|N].
    - destruct (step_cases c t) as [->|[(d & r & C & T & S' & C' & L' & T')|(d & a & s & n & C & E & S' & T' & C' & L')]]; auto.
      + destruct S0 as [(_ & T0 & P)|[(a & C0 & _)|[(_ & T0)|T0]]].
        * rewrite T in T0. injection T0 as -> ->. right. left. exists YStart. rewrite C', T', L', !put_eq. simpl. auto.
        * congruence.
        * right. right. right. rewrite T', put_eq. rewrite T in T0. subst rest. simpl. lia.
        * right. right. right. rewrite T', put_eq. rewrite T in T0. simpl in T0. lia.
      + destruct S0 as [(C0 & _)|[(a0 & C0 & T0 & P & A)|[(C0 & _)|T0]]]; try congruence; [|right; right; right; rewrite T'; auto].
        rewrite C in C0. injection C0 as -> ->. destruct n as [a'| |].
        * right. left. exists a'. rewrite C', T', put_eq, L'. simpl. rewrite app_nil_r. split; auto. split; auto. split; auto. rewrite S'.
          pose proof (r_pend (s_right H) k) as Pk. destruct a0; simpl in A, E; try destruct A.
          -- inversion E; subst. simpl. destruct (dget eqb (names (shared c)) k) as [q|] eqn:G; [|contradiction]. apply (dget_In ok) in G. destruct (In_nth_error _ _ G) as (j & J). exists j, q. split; auto. lia.
          -- destruct (negb (length (names (shared c)) =? n)); [discriminate|]. destruct (nth_error (names (shared c)) i) as [[k' q']|] eqn:X; inversion E; subst. simpl. split; auto. eauto.
          -- destruct (content (shared c) q) eqn:Q; inversion E; subst. destruct H1 as (j & q' & J & Le). simpl. exists j, q'. split; auto. destruct (Nat.eq_dec i j) as [->|Ne]; [|lia]. exfalso.
             rewrite H0 in J. injection J as -> ->. rewrite (nth_names _ (s_right H) H0) in Pk. congruence.
        * right. right. left. rewrite C', T', put_eq. auto.
        * right. right. left. rewrite C', T', put_eq. auto.
    - assert (C0 : current (step c u) t = current c t /\ todo (step c u) t = todo c t).
      { destruct (step_cases c u) as [->|[(d & r & C & T & S' & C' & L' & T')|(d & a & s & n & C & E & S' & T' & C' & L')]]; auto; rewrite C', T'; rewrite ?put_neq by auto; auto. }
      destruct C0 as [-> ->]. assert (P' : pending (log c) k <> [] -> pending (log (step c u)) k <> []) by (intros P; apply other_pending; auto; intros d; apply O; auto).
      destruct S0 as [(C & T & P)|[(a & C & T & P & A)|[S0|S0]]]; auto. right. left. exists a. split; auto. split; auto. split; auto. apply at_lasts; auto.
  Qed.
  Lemma stage_run t k rest c schedule : stage t k rest c -> stage t k rest (sub_run c schedule).
  Proof. intros H. unfold SubThr_Model.sub_run. apply run_inv with (P := stage t k rest); auto. intros. apply stage_step. auto. Qed.
  Lemma others_run programs schedule t : (forall u d, u <> t -> In d (programs u) -> ~ takes d) ->
    forall u d, u <> t -> In d (calls_of (sub_run (sub_start programs) schedule) u) -> ~ takes d.
  Proof.
    intros N. unfold SubThr_Model.sub_run. apply run_inv with (P := fun c => forall u d, u <> t -> In d (calls_of c u) -> ~ takes d); [intros u d' U I; eapply N; eauto|].
    intros c1 u H u' d' U I. apply (H u' d' U). eapply calls_step; eauto.
  Qed.
  Lemma stage_end t k rest c d : stage t k rest c -> todo c t = rest -> log (step c t) = log c ++ [(d, Err EmptyExn)] -> False.
  Proof.
    intros (H & _ & S0) T0 L. destruct (step_cases c t) as [Q|[(d' & r' & C & T & S' & C' & L' & _)|(d' & a & s & n & C & E & S' & T' & C' & L')]].
    - rewrite Q in L. apply app_same in L. discriminate.
    - rewrite L' in L. apply app_same in L. discriminate.
    - rewrite L' in L. apply app_inv_head in L. destruct S0 as [(C0 & _)|[(a0 & C0 & _ & P & A)|[(C0 & _)|S0]]]; try congruence; [|rewrite T0 in S0; lia].
      rewrite C in C0. injection C0 as -> ->. destruct a0; simpl in A, E; try destruct A; try (inversion E; subst; discriminate).
      + destruct (negb (length (names (shared c)) =? n0)); [inversion E; subst; discriminate|]. destruct H0 as (q & J & Le). destruct (nth_error (names (shared c)) i) as [[k' q']|] eqn:X; inversion E; subst; try discriminate.
        apply nth_error_None in X. assert (x < length (names (shared c))) by (apply nth_error_Some; congruence). lia.
      + destruct (content (shared c) q); inversion E; subst; discriminate.
  Qed.

  (** ** all threads can end *)
  Definition rank (a : code K V) (s : state) : nat :=
    match a with
    | Find _ _ => 6 | Lock _ _ => 5 | Again _ _ => 4 | Make _ _ => 3 | Look _ _ => 2 | Use _ _ _ => 1
    | YStart | QStart => 2 * length (names s) + 2
    | YNext _ i | QNext _ i _ => 2 * (length (names s) - i) + 1
    | YTry _ i _ _ | QSize _ i _ _ _ => 2 * (length (names s) - S i) + 2
    end.
  Lemma exec_rank a s s' a' : exec a s = (s', Next a') -> holds a = true \/ locked s = false -> (forall k, call_of a <> Get k true) -> rank a' s' < rank a s.
  Proof.
    intros E H W. destruct a; simpl in E; split_exec; simpl in *; try discriminate; try lia; try (destruct H; discriminate); try (exfalso; eapply W; reflexivity);
      match goal with X : nth_error ?l ?i = Some _ |- _ => assert (i < length l) by (apply nth_error_Some; congruence); lia | _ => idtac end.
  Qed.
  Record brisk (c : cfg) : Prop := { b_sound : sound c; b_calls : forall t k, ~ In (Get k true) (calls_of c t) }.
  Lemma brisk_step c t : brisk c -> brisk (step c t).
  Proof. intros [A B]. split; [apply sound_step; auto|]. intros u k I. apply calls_step in I. eapply B; eauto. Qed.
  Lemma brisk_on c schedule : brisk c -> brisk (sub_run c schedule).
  Proof. intros H. unfold SubThr_Model.sub_run. apply run_inv with (P := brisk); [auto|intros; apply brisk_step; auto]. Qed.
  Lemma brisk_run programs schedule : (forall t k, ~ In (Get k true) (programs t)) -> brisk (sub_run (sub_start programs) schedule).
  Proof. intros N. apply brisk_on. split; [apply sound_start|]. intros t k. apply N. Qed.
  Lemma brisk_at c t d a : brisk c -> current c t = Some (d, a) -> forall k, call_of a <> Get k true.
  Proof. intros [A B] C k E. apply (B t k). unfold calls_of. rewrite C, (s_call A _ C), E. simpl. auto. Qed.
  (* thread [t] alone ends what it is at *)
  Lemma thread_ends n : forall (c : cfg) t d a, brisk c -> current c t = Some (d, a) -> (rank a (shared c) < n)%nat -> holds a = true \/ locked (shared c) = false ->
    exists m, let c' := sub_run c (repeat t m) in current c' t = None /\ (forall u, u <> t -> current c' u = current c u) /\ todo c' = todo c /\ locked (shared c') = false.
  Proof.
    induction n as [|n IH]; intros c t d a Hs C R H; [lia|]. pose proof (brisk_step t Hs) as Hs'.
    destruct (step_cases c t) as [Q|[(d' & r & C2 & _)|(d' & a' & s & nx & C2 & E & S' & T' & C' & L')]]; [|congruence|].
    - exfalso. unfold turn in Q. rewrite C in Q. destruct (exec a (shared c)) as [s nx] eqn:E. destruct nx as [a1|r|e].
      + assert (X : current c t = Some (d, a1)) by (rewrite <- Q; simpl; apply put_eq). assert (Y : shared c = s) by (rewrite <- Q; auto). rewrite C in X. inversion X; subst a1.
        pose proof (exec_rank _ _ E H (brisk_at t Hs C)). subst s. lia.
      + assert (X : current c t = None) by (rewrite <- Q; simpl; apply put_eq). congruence.
      + assert (X : current c t = None) by (rewrite <- Q; simpl; apply put_eq). congruence.
    - rewrite C in C2. inversion C2; subst d' a'. pose proof (exec_lock a (shared c) E) as (L1 & L2 & L3).
      assert (Lk : held_after nx = true \/ locked (shared (step c t)) = false).
      { rewrite S'. destruct (held_after nx) eqn:Hn; auto. right. destruct (holds a) eqn:Ha; [apply L1; auto; apply (s_lock (b_sound Hs)); eauto|]. rewrite L3; auto. destruct H; [discriminate|auto]. }
      destruct nx as [a1|r|e].
      + assert (X : current (step c t) t = Some (d, a1)) by (rewrite C'; apply put_eq). assert (Rk : (rank a1 (shared (step c t)) < n)%nat) by (rewrite S'; pose proof (exec_rank _ _ E H (brisk_at t Hs C)); lia).
        destruct (IH (step c t) t d a1 Hs' X Rk Lk) as (m & M1 & M2 & M3 & M4). exists (S m). simpl. change (sub_run c (t :: repeat t m)) with (sub_run (step c t) (repeat t m)). split; auto.
        split; [|split; auto; congruence]. intros u N. rewrite M2 by auto. rewrite C'. apply put_neq. auto.
      + exists 1%nat. simpl. change (sub_run c [t]) with (step c t). rewrite C', T'. split; [apply put_eq|]. split; [intros; apply put_neq; auto|]. split; auto. destruct Lk; [discriminate|auto].
      + exists 1%nat. simpl. change (sub_run c [t]) with (step c t). rewrite C', T'. split; [apply put_eq|]. split; [intros; apply put_neq; auto|]. split; auto. destruct Lk; [discriminate|auto].
  Qed.
  Lemma run_run (c : cfg) l m : sub_run c (l ++ m) = sub_run (sub_run c l) m.
  Proof. unfold SubThr_Model.sub_run, run. apply fold_left_app. Qed.
  Lemma call_done c t : brisk c -> locked (shared c) = false ->
    exists l, let c' := sub_run c l in current c' t = None /\ (forall u, u <> t -> current c' u = current c u) /\ todo c' = todo c /\ locked (shared c') = false.
  Proof.
    intros H L. destruct (current c t) as [[d a]|] eqn:C.
    - destruct (thread_ends t H C (Nat.lt_succ_diag_r _)) as (m & M); auto. exists (repeat t m). auto.
    - exists []. simpl. auto.
  Qed.
  Lemma thread_done n : forall c t, brisk c -> locked (shared c) = false -> length (todo c t) = n ->
    exists l, let c' := sub_run c l in current c' t = None /\ todo c' t = [] /\ (forall u, u <> t -> current c' u = current c u /\ todo c' u = todo c u) /\ locked (shared c') = false.
  Proof.
    induction n as [|n IH]; intros c t H L N; destruct (call_done t H L) as (l & C1 & C2 & C3 & C4).
    - exists l. simpl. split; auto. rewrite C3. destruct (todo c t); [|discriminate]. auto.
    - pose (c1 := sub_run c l). fold c1 in C1, C2, C3, C4. destruct (todo c t) as [|d r] eqn:T; [discriminate|].
      assert (Hs : brisk c1) by (apply brisk_on; auto).
      destruct (step_cases c1 t) as [Q|[(d' & r' & D1 & D2 & D3 & D4 & D5 & D6)|(d' & a & s & nx & D1 & _)]]; [| |congruence].
      + exfalso. unfold turn in Q. rewrite C1, C3, T in Q. apply (f_equal (fun c : cfg => todo c t)) in Q. simpl in Q. rewrite put_eq, C3, T in Q. apply (f_equal (@length _)) in Q. simpl in Q. lia.
      + rewrite C3, T in D2. inversion D2; subst d' r'. destruct (IH (step c1 t) t) as (m & M1 & M2 & M3 & M4).
        * apply brisk_step. auto.
        * rewrite D3. auto.
        * rewrite D6, put_eq. simpl in N. lia.
        * exists (l ++ t :: m). simpl. rewrite run_run. fold c1. change (sub_run c1 (t :: m)) with (sub_run (step c1 t) m). split; auto. split; auto. split; auto.
          intros u Nu. destruct (M3 u Nu) as [X Y]. rewrite X, Y, D4, D6, !put_neq by auto. rewrite C2, C3 by auto. auto.
  Qed.
  Lemma all_done n : forall c, brisk c -> locked (shared c) = false ->
    exists l, let c' := sub_run c l in (forall t, (t < n)%nat -> current c' t = None /\ todo c' t = []) /\ (forall u, (n <= u)%nat -> current c' u = current c u /\ todo c' u = todo c u) /\ locked (shared c') = false.
  Proof.
    induction n as [|n IH]; intros c H L.
    - exists []. simpl. split; [intros; lia|auto].
    - destruct (IH c H L) as (l & A & B & D). pose (c1 := sub_run c l). fold c1 in A, B, D. assert (Hs : brisk c1) by (apply brisk_on; auto).
      destruct (thread_done n Hs D eq_refl) as (m & M1 & M2 & M3 & M4). exists (l ++ m). simpl. rewrite run_run. fold c1. split; [|split; auto].
      + intros t Lt. destruct (Nat.eq_dec t n) as [->|N]; auto. destruct (M3 t N) as [X Y]. rewrite X, Y. apply A. lia.
      + intros u Lu. destruct (M3 u) as [X Y]; [lia|]. rewrite X, Y. apply B. lia.
  Qed.
  Lemma below_run n (programs : nat -> list (call K V)) schedule : threads_below n programs -> let c := sub_run (sub_start programs) schedule in forall t, (n <= t)%nat -> current c t = None /\ todo c t = [].
  Proof.
    intros B. unfold SubThr_Model.sub_run. apply run_inv with (P := fun c => forall t, (n <= t)%nat -> current c t = None /\ todo c t = []).
    - intros t L. simpl. split; auto.
    - intros c u H t L. destruct (step_cases c u) as [->|[(d & r & C & T & S' & C' & L' & T')|(d & a & s & nx & C & E & S' & T' & C' & L')]]; auto; rewrite C', T'; (destruct (Nat.eq_dec t u) as [->|N]; [destruct (H u L); congruence|rewrite !put_neq by auto; auto]).
  Qed.
  Lemma can_finish n (programs : nat -> list (call K V)) schedule : threads_below n programs -> (forall t k, ~ In (Get k true) (programs t)) -> exists l, finished (sub_run (sub_run (sub_start programs) schedule) l).
  Proof.
    intros B NB. pose (c := sub_run (sub_start programs) schedule). fold c. assert (H : brisk c) by (apply brisk_run; auto). pose proof (below_run schedule B) as W. fold c in W. simpl in W.
    assert (Q : exists l, let c' := sub_run c l in locked (shared c') = false /\ forall t, (n <= t)%nat -> current c' t = None /\ todo c' t = []).
    { destruct (locked (shared c)) eqn:L; [|exists []; simpl; auto]. apply (s_lock (b_sound H)) in L. destruct L as (t & d & a & C & Ha).
      destruct (thread_ends t H C (Nat.lt_succ_diag_r _)) as (m & M1 & M2 & M3 & M4); auto. exists (repeat t m). simpl. split; auto. intros u Lu. rewrite M3. destruct (W u Lu) as [X Y]. split; auto.
      destruct (Nat.eq_dec u t) as [->|N]; auto. rewrite M2; auto. }
    destruct Q as (l1 & L1 & W1). pose (c1 := sub_run c l1). fold c1 in L1, W1. assert (H1 : brisk c1) by (apply brisk_on; auto).
    destruct (all_done n H1 L1) as (l2 & A & B2 & _). exists (l1 ++ l2). rewrite run_run. fold c1. split; intros t.
    - destruct (Nat.lt_ge_cases t n) as [Lt|Ge]; [apply A; auto|]. destruct (B2 t Ge) as [X _]. rewrite X. apply W1. auto.
    - destruct (Nat.lt_ge_cases t n) as [Lt|Ge]; [apply A; auto|]. destruct (B2 t Ge) as [_ X]. rewrite X. apply W1. auto.
  Qed.
End SubThrProofs.
