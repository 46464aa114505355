(** Proofs about ScdThr_Model. *)
From Verif Require Import Prelude PreludeFacts MoreFacts MetrThr_Model MetrThr_Spec MetrThr_Proofs ScdThr_Model ScdThr_Spec.
Set Implicit Arguments.

Section ScdThrProofs.
  Context {K V : Type}.
  Variable eqb : K -> K -> bool.
  Hypothesis ok : eqb_ok eqb.
  Variable veqb : V -> V -> bool.
  Variable zero : V.
  Variable background : bool.
  Local Notation state := (scd_state K V).
  Local Notation cfg := (config (scd_state K V) (call K V) (code K V) (answer V)).
  Local Notation exec := (@exec K V eqb veqb zero background).
  Local Notation scd_run := (@scd_run K V eqb veqb zero background).
  Local Notation step := (turn (@first K V) (@ScdThr_Model.exec K V eqb veqb zero background)).
  Local Notation value := (@value K V eqb veqb zero).

  (** ** one step *)
  Definition call_of (a : code K V) : call K V :=
    match a with
    | GLock k | GRead k | GDrop k _ | GMake k => Get k
    | SLock k v | SIn k v | SDrop k v | SPut k v => Set_ k v
    | DIn k | DDrop k => Del k
    | CLock w | CKeys w | CLoop w _ | CDrop w _ _ => match w with ForCleanup => Cleanup | ForLen => Len end
    | LLen => Len
    end.
  Lemma first_call d : call_of (first d) = d.
  Proof. destruct d; auto. Qed.
  Definition holds (a : code K V) : bool :=
    match a with GRead _ | GDrop _ _ | GMake _ | SIn _ _ | SDrop _ _ | SPut _ _ | CKeys _ | CLoop _ _ | CDrop _ _ _ => true | _ => false end.
  Lemma first_free d : holds (first d) = false.
  Proof. destruct d; auto. Qed.
  Ltac split_exec :=
    unfold cleaned in *;
    repeat match goal with
    | H : context [match ?x with _ => _ end] |- _ => destruct x eqn:?
    | H : (_, _) = (_, _) |- _ => inversion H; clear H; subst
    end.
  Lemma exec_call a s s' a' : exec a s = (s', Next a') -> call_of a' = call_of a.
  Proof. destruct a; simpl; intros E; split_exec; simpl in *; auto; try discriminate; try congruence. Qed.
  Definition held_after (n : next (code K V) (answer V)) : bool := match n with Next a' => holds a' | _ => false end.
  Lemma exec_lock a s s' n : exec a s = (s', n) ->
    (holds a = true -> locked s = true -> locked s' = held_after n) /\ (holds a = false -> held_after n = true -> locked s = false /\ locked s' = true) /\
    (holds a = false -> held_after n = false -> locked s' = locked s).
  Proof. destruct a; simpl; intros E; split_exec; simpl; repeat split; intros; try discriminate; auto. Qed.

  (** *** the value of a key *)
  Definition after (d : call K V) (k : K) (x : V) : V :=
    match d with
    | Set_ k' v => if eqb k' k then (if veqb v zero then zero else v) else x
    | Del k' => if eqb k' k then zero else x
    | _ => x
    end.
  Lemma value_app l d r k : value (l ++ [(d, r)]) k = after d k (value l k).
  Proof. unfold ScdThr_Spec.value. rewrite fold_left_app. reflexivity. Qed.
  Lemma value_zero l k : veqb (value l k) zero = true -> value l k = zero.
  Proof.
    induction l as [|[d r] l IH] using rev_ind; auto. rewrite value_app. destruct d; simpl; auto; destruct (eqb k0 k); auto.
    destruct (veqb v zero) eqn:E; auto. congruence.
  Qed.
  Lemma eqb_refl k : eqb k k = true.
  Proof. apply ok. auto. Qed.
  Lemma eqb_neq k k' : k <> k' -> eqb k k' = false.
  Proof. intros N. destruct (eqb k k') eqn:E; auto. apply ok in E. contradiction. Qed.

  Definition ending (d : call K V) (n : next (code K V) (answer V)) : list (call K V * res (answer V)) :=
    match n with Next _ => [] | Returned r => [(d, Ok r)] | Raised e => [(d, Err e)] end.
  Definition matches (s : state) (l : list (call K V * res (answer V))) : Prop :=
    forall k, match dget eqb (data s) k with Some v => v = value l k | None => value l k = zero end.
  Definition no_zero (s : state) : Prop := background = true -> forall k v, dget eqb (data s) k = Some v -> veqb v zero = false.
  (* what a thread inside of the monitor knows *)
  Definition knows (a : code K V) (l : list (call K V * res (answer V))) : Prop :=
    match a with
    | GDrop k v => v = zero /\ value l k = zero /\ background = false
    | GMake k => value l k = zero
    | SDrop k v => veqb v zero = true
    | SPut k v => veqb v zero = false
    | CDrop _ k _ => value l k = zero /\ background = false
    | _ => True
    end.
  Definition knows_next (n : next (code K V) (answer V)) l : Prop := match n with Next a => knows a l | _ => True end.

  Lemma not_mem (s : state) k : dmem eqb (data s) k = false -> dget eqb (data s) k = None.
  Proof. intros M. apply (dget_None ok). intros I. apply (dmem_In ok) in I. congruence. Qed.
  Lemma del_matches s l k b : dwf (data s) -> matches s l -> (forall k', k' <> k -> value (l ++ b) k' = value l k') -> value (l ++ b) k = zero ->
    forall d', d' = ddel eqb (data s) k -> forall k', match dget eqb d' k' with Some v => v = value (l ++ b) k' | None => value (l ++ b) k' = zero end.
  Proof.
    intros W M N Z d' -> k'. destruct (eqb k' k) eqn:E.
    - apply ok in E. subst k'. rewrite (dget_ddel_eq ok) by auto. auto.
    - assert (k' <> k) by (intros ->; rewrite eqb_refl in E; discriminate). rewrite (dget_ddel_neq ok) by auto. rewrite N by auto. apply M.
  Qed.
  Lemma exec_matches a s s' n l : dwf (data s) -> matches s l -> no_zero s -> knows a l -> exec a s = (s', n) ->
    dwf (data s') /\ matches s' (l ++ ending (call_of a) n) /\ no_zero s' /\ knows_next n (l ++ ending (call_of a) n).
  Proof.
    intros W M Z N E.
    assert (Other : forall d r, (forall k, after d k (value l k) = value l k) -> matches s (l ++ [(d, r)])) by (intros d r H k; rewrite value_app, H; apply M).
    destruct a; simpl in E.
    - destruct (locked s); inversion E; subst; simpl; rewrite app_nil_r; auto.
    - pose proof (M k) as Mk. destruct (dget eqb (data s) k) as [v|] eqn:G.
      + destruct (veqb v zero) eqn:Q; inversion E; subst; simpl.
        * rewrite app_nil_r. repeat (split; auto). { apply value_zero; auto. } { apply value_zero; auto. } destruct background eqn:B; auto. rewrite (Z B k _ G) in Q. discriminate.
        * repeat (split; auto). apply Other. auto.
      + inversion E; subst; simpl. rewrite app_nil_r. auto.
    - simpl in N. destruct N as (-> & N & B). destruct (dmem eqb (data s) k) eqn:G; inversion E; subst; simpl.
      + split; [apply (@ddel_wf _ _ eqb); auto|]. split; [|split; auto].
        * unfold matches. simpl. eapply (@del_matches s l k); eauto; intros; rewrite value_app; auto.
        * intros B'. congruence.
      + rewrite app_nil_r. auto.
    - simpl in N. inversion E; subst; simpl. destruct background eqn:B.
      + split; auto. split; [|split; auto]. apply (Other (Get k)). auto.
      + simpl. split; [apply (dset_wf ok); auto|]. split; [|split; auto; unfold no_zero; congruence]. unfold matches. simpl. intros k'. rewrite value_app. simpl.
        destruct (eqb k' k) eqn:Q; [apply ok in Q; subst; rewrite (dget_dset_eq ok); auto|]. rewrite (dget_dset_neq ok); [apply M|intros ->; rewrite eqb_refl in Q; discriminate].
    - destruct (locked s); inversion E; subst; simpl; rewrite app_nil_r; auto.
    - destruct (veqb v zero) eqn:Q.
      + destruct (dmem eqb (data s) k) eqn:G; inversion E; subst; simpl; [rewrite app_nil_r; auto|].
        repeat (split; auto). apply Other. intros k'. simpl. rewrite Q. destruct (eqb k k') eqn:X; auto. apply ok in X. subst. pose proof (M k') as Mk. rewrite (not_mem _ _ G) in Mk. auto.
      + inversion E; subst; simpl. rewrite app_nil_r. auto.
    - simpl in N. destruct (dmem eqb (data s) k) eqn:G; inversion E; subst; simpl.
      + split; [apply (@ddel_wf _ _ eqb); auto|]. split; [|split; auto].
        * unfold matches. simpl. eapply (@del_matches s l k); eauto; intros; rewrite value_app; simpl; [rewrite eqb_neq; auto|rewrite eqb_refl, N; auto].
        * intros B k' v' X. apply (Z B k'). simpl in X. destruct (eqb k' k) eqn:Y; [apply ok in Y; subst; rewrite (dget_ddel_eq ok) in X by auto; discriminate|].
          rewrite (dget_ddel_neq ok) in X; auto. intros ->. rewrite eqb_refl in Y. discriminate.
      + split; auto. split; [|split; auto]. apply Other. intros k'. simpl. rewrite N. destruct (eqb k k') eqn:X; auto. apply ok in X. subst. pose proof (M k') as Mk. rewrite (not_mem _ _ G) in Mk. auto.
    - simpl in N. inversion E; subst; simpl. split; [apply (dset_wf ok); auto|]. split; [|split; auto].
      + unfold matches. simpl. intros k'. rewrite value_app. simpl. rewrite N. destruct (eqb k' k) eqn:Q.
        * apply ok in Q. subst. rewrite (dget_dset_eq ok), eqb_refl. auto.
        * assert (k' <> k) by (intros ->; rewrite eqb_refl in Q; discriminate). rewrite (dget_dset_neq ok), eqb_neq by auto. apply M.
      + intros B k' v' X. simpl in X. destruct (eqb k' k) eqn:Y; [apply ok in Y; subst; rewrite (dget_dset_eq ok) in X; inversion X; subst; auto|].
        rewrite (dget_dset_neq ok) in X; [apply (Z B k'); auto|]. intros ->. rewrite eqb_refl in Y. discriminate.
    - destruct (dmem eqb (data s) k) eqn:G; inversion E; subst; simpl; [rewrite app_nil_r; auto|].
      split; auto. split; [|split; auto]. apply Other. intros k'. simpl. destruct (eqb k k') eqn:X; auto. apply ok in X. subst. pose proof (M k') as Mk. rewrite (not_mem _ _ G) in Mk. auto.
    - destruct (dmem eqb (data s) k) eqn:G; inversion E; subst; simpl.
      + split; [apply (@ddel_wf _ _ eqb); auto|]. split; [|split; auto].
        * unfold matches. simpl. eapply (@del_matches s l k); eauto; intros; rewrite value_app; simpl; [rewrite eqb_neq; auto|rewrite eqb_refl; auto].
        * intros B k' v' X. apply (Z B k'). simpl in X. destruct (eqb k' k) eqn:Y; [apply ok in Y; subst; rewrite (dget_ddel_eq ok) in X by auto; discriminate|].
          rewrite (dget_ddel_neq ok) in X; auto. intros ->. rewrite eqb_refl in Y. discriminate.
      + split; auto. split; [|split; auto]. apply Other. intros k'. simpl. destruct (eqb k k') eqn:X; auto. apply ok in X. subst. pose proof (M k') as Mk. rewrite (not_mem _ _ G) in Mk. auto.
    - destruct (locked s); inversion E; subst; simpl; rewrite app_nil_r; auto.
    - inversion E; subst; simpl; rewrite app_nil_r; auto.
    - assert (C : forall w, matches s (l ++ ending (match w with ForCleanup => Cleanup | ForLen => Len end) (cleaned w)) /\ knows_next (cleaned w) (l ++ ending (match w with ForCleanup => Cleanup | ForLen => Len end) (cleaned w))).
      { intros w'. destruct w'; simpl; (split; [|exact I]); [apply Other; auto|rewrite app_nil_r; auto]. }
      destruct l0 as [|k l0]; [inversion E; subst; simpl; destruct (C w); auto|]. pose proof (M k) as Mk.
      destruct (dget eqb (data s) k) as [v|] eqn:G; inversion E; subst s' n; simpl; [|destruct (C w); auto]. rewrite app_nil_r. split; auto. split; auto. split; auto.
      destruct (veqb v zero) eqn:Q; simpl; auto. subst v. split; [apply value_zero; auto|]. destruct background eqn:B; auto. rewrite (Z B k _ G) in Q. discriminate.
    - simpl in N. destruct N as (N & B). destruct (dmem eqb (data s) k) eqn:G; inversion E; subst; simpl.
      + split; [apply (@ddel_wf _ _ eqb); auto|]. split; [|split; auto].
        * unfold matches. simpl. eapply (@del_matches s l k); eauto; intros; rewrite app_nil_r; auto.
        * intros B'. congruence.
      + split; auto. destruct w; simpl; [split; [apply Other; auto|auto]|rewrite app_nil_r; auto].
    - inversion E; subst; simpl. repeat (split; auto).
  Qed.
  (* what another thread knows lasts *)
  Lemma knows_lasts a b s s' n l : holds a = false -> exec a s = (s', n) -> knows b l -> knows b (l ++ ending (call_of a) n).
  Proof.
    intros H E N.
    assert (P : forall k, value l k = zero -> value (l ++ ending (call_of a) n) k = zero).
    { intros k Q. destruct n; simpl; [rewrite app_nil_r; auto| |]; rewrite value_app, Q; destruct a; simpl in *; try discriminate; auto;
        try (destruct (eqb k0 k); auto; fail); try (destruct (locked s); discriminate); try (destruct w; auto); destruct (locked s); discriminate. }
    destruct b; simpl in *; auto; intuition.
  Qed.

  Lemma step_cases (c : cfg) t : step c t = c \/
    (exists d r, current c t = None /\ todo c t = d :: r /\ shared (step c t) = shared c /\ current (step c t) = put (current c) t (Some (d, first d)) /\
       log (step c t) = log c /\ todo (step c t) = put (todo c) t r) \/
    (exists d a s n, current c t = Some (d, a) /\ exec a (shared c) = (s, n) /\ shared (step c t) = s /\ todo (step c t) = todo c /\
       current (step c t) = put (current c) t (match n with Next a' => Some (d, a') | _ => None end) /\
       log (step c t) = log c ++ ending d n).
  Proof.
    unfold turn. destruct (current c t) as [[d a]|] eqn:E.
    - right. right. exists d, a. destruct (exec a (shared c)) as [s n] eqn:X. exists s, n. destruct n; simpl; rewrite ?app_nil_r; repeat (split; auto).
    - destruct (todo c t) as [|d r] eqn:T; auto. right. left. exists d, r. simpl. repeat (split; auto).
  Qed.

  (** ** the monitor *)
  Record sound (c : cfg) : Prop := {
    s_call : forall t d a, current c t = Some (d, a) -> d = call_of a;
    s_one : forall t u d a d' a', current c t = Some (d, a) -> current c u = Some (d', a') -> holds a = true -> holds a' = true -> t = u;
    s_lock : locked (shared c) = true <-> exists t d a, current c t = Some (d, a) /\ holds a = true;
    s_data : dwf (data (shared c));
    s_value : matches (shared c) (log c);
    s_zero : no_zero (shared c);
    s_knows : forall t d a, current c t = Some (d, a) -> knows a (log c) }.
  Lemma sound_step c t : sound c -> sound (step c t).
  Proof.
    intros [H1 H2 H3 H4 H5 H7 H6]. destruct (step_cases c t) as [->|[(d & r & C & T & S' & C' & L' & _)|(d & a & s & n & C & E & S' & T' & C' & L')]]; [constructor; auto| |].
    - constructor; rewrite ?S', ?C', ?L'; auto.
      + intros u d' a' X. destruct (Nat.eq_dec u t) as [->|N]; [rewrite put_eq in X; inversion X; subst; rewrite first_call; auto|rewrite put_neq in X by auto; eauto].
      + intros u w d1 a1 d2 a2 X Y A B.
        destruct (Nat.eq_dec u t) as [->|N]; [rewrite put_eq in X; inversion X; subst; rewrite first_free in A; discriminate|].
        destruct (Nat.eq_dec w t) as [->|N']; [rewrite put_eq in Y; inversion Y; subst; rewrite first_free in B; discriminate|].
        rewrite put_neq in X, Y by auto. eauto.
      + rewrite H3. split; intros (u & d' & a' & X & A).
        * exists u, d', a'. split; auto. rewrite put_neq; auto. congruence.
        * destruct (Nat.eq_dec u t) as [->|N]; [rewrite put_eq in X; inversion X; subst; rewrite first_free in A; discriminate|]. rewrite put_neq in X by auto. eauto.
      + intros u d' a' X. destruct (Nat.eq_dec u t) as [->|N]; [rewrite put_eq in X; inversion X; subst; destruct d'; simpl; auto|rewrite put_neq in X by auto; eauto].
    - pose proof (exec_lock a (shared c) E) as (L1 & L2 & L3). pose proof (H1 _ _ _ C) as D. subst d.
      destruct (exec_matches a H4 H5 H7 (H6 _ _ _ C) E) as (W1 & W2 & W3 & W4).
      constructor; rewrite ?S', ?C', ?L'; auto.
      + intros u d' a' X. destruct (Nat.eq_dec u t) as [->|N]; [|rewrite put_neq in X by auto; eauto].
        rewrite put_eq in X. destruct n as [a1| |]; try discriminate. inversion X; subst. symmetry. eapply exec_call; eauto.
      + assert (Z : forall w d2 a2, w <> t -> put (current c) t (match n with Next a' => Some (call_of a, a') | _ => None end) w = Some (d2, a2) -> holds a2 = true -> held_after n = false).
        { intros w d2 a2 Nw Y B. rewrite put_neq in Y by auto. destruct (held_after n) eqn:Hn; auto. exfalso. destruct (holds a) eqn:Ha.
          - apply Nw. apply (H2 w t d2 a2 (call_of a) a); auto.
          - destruct (L2 eq_refl eq_refl) as [F _]. assert (locked (shared c) = true) by (apply H3; eauto). congruence. }
        intros u w d1 a1 d2 a2 X Y A B.
        destruct (Nat.eq_dec u t) as [->|N], (Nat.eq_dec w t) as [->|N']; auto.
        * exfalso. pose proof (Z _ _ _ N' Y B) as Q. rewrite put_eq in X. destruct n as [a3| |]; try discriminate. inversion X; subst. simpl in Q. congruence.
        * exfalso. pose proof (Z _ _ _ N X A) as Q. rewrite put_eq in Y. destruct n as [a3| |]; try discriminate. inversion Y; subst. simpl in Q. congruence.
        * rewrite put_neq in X, Y by auto. eauto.
      + destruct (holds a) eqn:Ha.
        * rewrite L1; auto; [|apply H3; eauto]. split.
          -- intros Hn. destruct n as [a3| |]; try discriminate. exists t, (call_of a), a3. rewrite put_eq. auto.
          -- intros (u & d' & a' & X & A). destruct (Nat.eq_dec u t) as [->|N].
             ++ rewrite put_eq in X. destruct n; inversion X; subst. auto.
             ++ rewrite put_neq in X by auto. exfalso. apply N. eauto.
        * destruct (held_after n) eqn:Hn.
          -- destruct (L2 eq_refl eq_refl) as [_ ->]. split; auto. intros _. destruct n as [a3| |]; try discriminate. exists t, (call_of a), a3. rewrite put_eq. auto.
          -- rewrite L3, H3 by auto. split; intros (u & d' & a' & X & A).
             ++ exists u, d', a'. split; auto. rewrite put_neq; auto. intros ->. rewrite C in X. inversion X; subst. congruence.
             ++ destruct (Nat.eq_dec u t) as [->|N]; [rewrite put_eq in X; destruct n; inversion X; subst; simpl in Hn; congruence|]. rewrite put_neq in X by auto. eauto.
      + intros u d' a' X. destruct (Nat.eq_dec u t) as [->|N].
        * rewrite put_eq in X. destruct n as [a3| |]; try discriminate. injection X as <- <-. auto.
        * rewrite put_neq in X by auto. destruct (holds a) eqn:Ha.
          -- destruct (holds a') eqn:Ha'; [exfalso; apply N; eauto|]. destruct a'; simpl in *; auto; discriminate.
          -- eapply knows_lasts; eauto.
  Qed.
  Lemma sound_on c schedule : sound c -> sound (scd_run c schedule).
  Proof. intros H. unfold ScdThr_Model.scd_run. apply run_inv with (P := sound); [auto|intros; apply sound_step; auto]. Qed.
  Lemma sound_start programs : sound (scd_start programs).
  Proof.
    constructor; simpl; try discriminate; try constructor; try discriminate; auto. intros (t & d & a & X & _). discriminate.
  Qed.
  Lemma sound_run programs schedule : sound (scd_run (scd_start programs) schedule).
  Proof. apply sound_on, sound_start. Qed.

  (** ** how calls end *)
  Lemma app_same {A : Type} (l : list A) m : l = l ++ m -> m = [].
  Proof. intros E. rewrite <- (app_nil_r l) in E at 1. apply app_inv_head in E. auto. Qed.
  Lemma fits_step c t d r : veqb zero zero = true -> sound c -> log (step c t) = log c ++ [(d, r)] -> fits eqb veqb zero (log c) d r \/ slips eqb veqb zero background (log c) d r.
  Proof.
    intros Rf H L. destruct (step_cases c t) as [Q|[(d' & r' & C & T & S' & C' & L' & _)|(d' & a & s & n & C & E & S' & T' & C' & L')]].
    - rewrite Q in L. apply app_same in L. discriminate.
    - rewrite L' in L. apply app_same in L. discriminate.
    - rewrite L' in L. apply app_inv_head in L. pose proof (s_call H _ C). subst d'. pose proof (s_knows H _ C) as N. pose proof (s_value H) as M.
      destruct a; simpl in E.
      + destruct (locked (shared c)); inversion E; subst; discriminate.
      + pose proof (M k) as Mk. destruct (dget eqb (data (shared c)) k) as [v|] eqn:G; [destruct (veqb v zero)|]; inversion E; subst; try discriminate. inversion L; subst. left. simpl. auto.
      + simpl in N. destruct N as (-> & N & _). destruct (dmem eqb (data (shared c)) k); inversion E; subst; try discriminate. inversion L; subst. left. simpl. rewrite N. auto.
      + simpl in N. inversion E; subst. inversion L; subst. left. simpl. rewrite N. auto.
      + destruct (locked (shared c)); inversion E; subst; discriminate.
      + destruct (veqb v zero); [destruct (dmem eqb (data (shared c)) k)|]; inversion E; subst; try discriminate. inversion L; subst. left. reflexivity.
      + simpl in N. destruct (dmem eqb (data (shared c)) k) eqn:G; inversion E; subst; inversion L; subst; [left; reflexivity|right]. simpl. repeat (split; auto). pose proof (M k) as Mk. rewrite (not_mem _ _ G) in Mk. auto.
      + inversion E; subst. inversion L; subst. left. reflexivity.
      + destruct (dmem eqb (data (shared c)) k); inversion E; subst; try discriminate. inversion L; subst. left. reflexivity.
      + destruct (dmem eqb (data (shared c)) k) eqn:G; inversion E; subst; inversion L; subst; [left; reflexivity|right]. simpl. repeat (split; auto). pose proof (M k) as Mk. rewrite (not_mem _ _ G) in Mk. auto.
      + destruct (locked (shared c)); inversion E; subst; discriminate.
      + inversion E; subst; discriminate.
      + destruct l as [|k l]; [|destruct (dget eqb (data (shared c)) k) as [v|]]; inversion E; subst; try discriminate; destruct w; try discriminate; inversion L; subst; left; reflexivity.
      + destruct (dmem eqb (data (shared c)) k); inversion E; subst; try discriminate; destruct w; try discriminate; inversion L; subst; left; reflexivity.
      + inversion E; subst. inversion L; subst. simpl.
        assert (In_ : forall k, veqb (value (log c) k) zero = false -> In k (dkeys (data (shared c)))).
        { intros k Q. pose proof (M k) as Mk. destruct (dget eqb (data (shared c)) k) as [v|] eqn:G; [eapply (dget_Some_key ok); eauto|]. rewrite Mk in Q. congruence. }
        destruct background eqn:B.
        * left. exists (dkeys (data (shared c))). split; [apply (s_data H)|]. split; [|unfold dkeys; rewrite map_length; auto]. intros k. split; auto. intros I.
          destruct (dget_key_Some ok _ _ I) as (v & G). pose proof (M k) as Mk. rewrite G in Mk. subst v. pose proof (s_zero H) as Z. unfold no_zero in Z. rewrite B in Z. eapply Z; eauto.
        * right. split; auto. exists (dkeys (data (shared c))). split; [apply (s_data H)|]. split; [auto|unfold dkeys; rewrite map_length; auto].
  Qed.

  (** ** when nobody deletes *)
  Definition calls_of (c : cfg) (t : nat) : list (call K V) := match current c t with Some (d, _) => d :: todo c t | None => todo c t end.
  Lemma calls_step c t u d : sound c -> In d (calls_of (step c t) u) -> In d (calls_of c u).
  Proof.
    intros H. unfold calls_of. destruct (step_cases c t) as [->|[(d' & r' & C & T & S' & C' & L' & T')|(d' & a & s & n & C & E & S' & T' & C' & L')]]; auto.
    - rewrite C', T'. destruct (Nat.eq_dec u t) as [->|N]; [rewrite !put_eq, C, T; auto|rewrite !put_neq by auto; auto].
    - rewrite C', T'. destruct (Nat.eq_dec u t) as [->|N]; [rewrite !put_eq, C; destruct n; simpl; auto|rewrite !put_neq by auto; auto].
  Qed.
  (* what a thread inside of the monitor knows about the data *)
  Definition sees (a : code K V) (s : state) : Prop :=
    match a with
    | GDrop k _ | SDrop k _ => In k (dkeys (data s))
    | CLoop _ l => NoDup l /\ (forall k, In k l -> In k (dkeys (data s))) /\ (forall k v, dget eqb (data s) k = Some v -> veqb v zero = true -> In k l)
    | CDrop _ k l => NoDup (k :: l) /\ (forall k', In k' (k :: l) -> In k' (dkeys (data s))) /\ (forall k' v, dget eqb (data s) k' = Some v -> veqb v zero = true -> In k' (k :: l))
    | _ => True
    end.
  Lemma exec_sees a s s' n : dwf (data s) -> sees a s -> exec a s = (s', n) -> (forall k, call_of a <> Del k) ->
    (match n with Next a' => sees a' s' | Returned _ => True | Raised _ => False end) /\ (holds a = false -> data s' = data s).
  Proof.
    intros W N E D. destruct a; simpl in E, N, D; try (exfalso; eapply D; reflexivity).
    - destruct (locked s); inversion E; subst; simpl; auto.
    - split; [|discriminate]. destruct (dget eqb (data s) k) as [v|] eqn:G; [destruct (veqb v zero)|]; inversion E; subst; simpl; auto. eapply (dget_Some_key ok); eauto.
    - split; [|discriminate]. destruct (dmem eqb (data s) k); inversion E; subst; simpl; auto.
    - split; [|discriminate]. inversion E; subst; simpl; auto.
    - destruct (locked s); inversion E; subst; simpl; auto.
    - split; [|discriminate]. destruct (veqb v zero); [destruct (dmem eqb (data s) k) eqn:G|]; inversion E; subst; simpl; auto. apply (dmem_In ok); auto.
    - split; [|discriminate]. apply (dmem_In ok) in N. rewrite N in E. inversion E; subst; simpl; auto.
    - split; [|discriminate]. inversion E; subst; simpl; auto.
    - destruct (locked s); inversion E; subst; simpl; auto.
    - split; [|discriminate]. inversion E; subst; simpl; auto. repeat split; auto. intros k v G _. eapply (dget_Some_key ok); eauto.
    - split; [|discriminate]. destruct l as [|k l]; [inversion E; subst; destruct w; simpl; auto|]. destruct N as (N1 & N2 & N3).
      destruct (dget_key_Some ok _ _ (N2 k (or_introl eq_refl))) as (v & G). rewrite G in E. inversion E; subst. destruct (veqb v zero) eqn:Q; simpl; auto.
      inversion N1; subst. repeat split; auto. { intros; apply N2; simpl; auto. } intros k' v' G' Q'. destruct (N3 _ _ G' Q') as [->|I]; auto. congruence.
    - split; [|discriminate]. destruct N as (N1 & N2 & N3). pose proof (proj2 (dmem_In ok _ _) (N2 k (or_introl eq_refl))) as M. rewrite M in E. inversion E; subst. simpl.
      inversion N1; subst. repeat split; auto.
      + intros k' I. apply (ddel_In_keys ok); auto. split; [apply N2; simpl; auto|intros ->; contradiction].
      + intros k' v' G Q. destruct (eqb k' k) eqn:Y; [apply ok in Y; subst; rewrite (dget_ddel_eq ok) in G by auto; discriminate|].
        rewrite (dget_ddel_neq ok) in G; [|intros ->; rewrite eqb_refl in Y; discriminate]. destruct (N3 _ _ G Q) as [->|I]; auto. rewrite eqb_refl in Y. discriminate.
    - inversion E; subst; simpl; auto.
  Qed.
  Lemma sees_free a s : holds a = false -> sees a s.
  Proof. destruct a; simpl; auto; discriminate. Qed.
  Record calm (c : cfg) : Prop := {
    c_sound : sound c;
    c_del : forall t k, ~ In (Del k) (calls_of c t);
    c_sees : forall t d a, current c t = Some (d, a) -> sees a (shared c);
    c_log : forall d e, ~ In (d, Err e) (log c) }.
  Lemma calm_step c t : calm c -> calm (step c t).
  Proof.
    intros [Hs Hd Hk Hl]. pose proof (sound_step t Hs) as Hs'.
    assert (Hd' : forall u k, ~ In (Del k) (calls_of (step c t) u)) by (intros u k I; apply (Hd u k); apply calls_step in I; auto).
    destruct (step_cases c t) as [Q|[(d & r & C & T & S' & C' & L' & _)|(d & a & s & n & C & E & S' & T' & C' & L')]]; [rewrite Q in *; constructor; auto| |].
    - constructor; auto; rewrite ?S', ?C', ?L'; auto. intros u d' a' X. destruct (Nat.eq_dec u t) as [->|N]; [rewrite put_eq in X; inversion X; subst; apply sees_free, first_free|rewrite put_neq in X by auto; eauto].
    - pose proof (s_call Hs _ C). subst d. destruct (@exec_sees a (shared c) s n (s_data Hs) (Hk _ _ _ C) E) as (X1 & X2).
      { intros k X. apply (Hd t k). unfold calls_of. rewrite C, X. simpl. auto. }
      constructor; auto; rewrite ?S', ?C', ?L'.
      + intros u d' a' X. destruct (Nat.eq_dec u t) as [->|N].
        * rewrite put_eq in X. destruct n; inversion X; subst. auto.
        * rewrite put_neq in X by auto. destruct (holds a') eqn:Ha'; [|apply sees_free; auto]. destruct (holds a) eqn:Ha; [exfalso; apply N; eapply (s_one Hs); eauto|].
          pose proof (Hk _ _ _ X) as Y. specialize (X2 eq_refl). clear - Y X2. unfold sees in *. destruct a'; rewrite ?X2; auto.
      + intros d' e I. apply in_app_iff in I. destruct I as [I|I]; [eapply Hl; eauto|]. destruct n; simpl in I; [destruct I|destruct I as [I|[]]; discriminate|destruct X1].
  Qed.
  Lemma calm_run programs schedule : (forall t k, ~ In (Del k) (programs t)) -> calm (scd_run (scd_start programs) schedule).
  Proof.
    intros N. unfold ScdThr_Model.scd_run. apply run_inv with (P := calm); [|intros; apply calm_step; auto]. constructor; simpl; auto; try discriminate. apply sound_start.
  Qed.
  (** a cleanup() leaves no default value *)
  Lemma cleaned_step c t r : calm c -> log (step c t) = log c ++ [(Cleanup, r)] -> forall k v, dget eqb (data (shared (step c t))) k = Some v -> veqb v zero = false.
  Proof.
    intros H L k v. destruct (step_cases c t) as [Q|[(d' & r' & C & T & S' & C' & L' & _)|(d' & a & s & n & C & E & S' & T' & C' & L')]].
    - rewrite Q in L. apply app_same in L. discriminate.
    - rewrite L' in L. apply app_same in L. discriminate.
    - rewrite L' in L. apply app_inv_head in L. rewrite S'. pose proof (s_call (c_sound H) _ C). subst d'. pose proof (c_sees H _ C) as N.
      assert (W : exists w, a = CLoop w [] \/ (exists k' l, a = CLoop w (k' :: l) /\ dget eqb (data (shared c)) k' = None) \/ (exists k' l, a = CDrop w k' l /\ dmem eqb (data (shared c)) k' = false)).
      { destruct a; simpl in L, E; try (destruct n; simpl in L; discriminate); try (destruct (locked (shared c)); inversion E; subst; simpl in L; discriminate).
        - exists w. destruct l as [|k' l]; auto. destruct (dget eqb (data (shared c)) k') eqn:G; [inversion E; subst; discriminate|]. right. left. eauto.
        - exists w. destruct (dmem eqb (data (shared c)) k0) eqn:G; [inversion E; subst; discriminate|]. right. right. eauto. }
      destruct W as (w & [->|[(k' & l & -> & G)|(k' & l & -> & G)]]); simpl in N, E.
      + inversion E; subst. simpl. intros X. destruct (veqb v zero) eqn:Q; auto. destruct N as (_ & _ & N). destruct (N _ _ X Q).
      + destruct N as (_ & N & _). apply (dget_None ok) in G. exfalso. apply G. apply N. simpl. auto.
      + destruct N as (_ & N & _). exfalso. pose proof (proj2 (dmem_In ok _ _) (N k' (or_introl eq_refl))). congruence.
  Qed.

  (** ** a key that one thread uses *)
  Lemma exec_other a s s' n k : dwf (data s) -> no_zero s -> (forall l w, a = CDrop w k l -> background = false) -> background = true -> exec a s = (s', n) -> ~ about (call_of a) k ->
    (forall w k' l, a <> CDrop w k' l) -> dget eqb (data s') k = dget eqb (data s) k.
  Proof.
    intros W Z _ B E A ND. destruct a; simpl in E, A; try (exfalso; eapply ND; reflexivity); split_exec; simpl; auto; try discriminate; try (rewrite (dget_ddel_neq ok); auto); try (rewrite (dget_dset_neq ok); auto).
  Qed.
  Definition certain (a : code K V) (k : K) (s : state) : Prop :=
    match a with DDrop k' | SDrop k' _ => k' = k -> dget eqb (data s) k <> None | _ => True end.
  Record own (t : nat) (k : K) (c : cfg) : Prop := {
    o_sound : sound c;
    o_others : forall u d, u <> t -> In d (calls_of c u) -> ~ about d k;
    o_certain : forall d a, current c t = Some (d, a) -> certain a k (shared c);
    o_log : forall d e, In (d, Err e) (log c) -> ~ about d k }.
  Lemma own_step t k c u : background = true -> own t k c -> own t k (step c u).
  Proof.
    intros B [Hs Ho Hc Hl]. pose proof (sound_step u Hs) as Hs'.
    assert (Ho' : forall u' d, u' <> t -> In d (calls_of (step c u) u') -> ~ about d k) by (intros u' d N I; apply (Ho u' d N); apply calls_step in I; auto).
    destruct (step_cases c u) as [Q|[(d & r & C & T & S' & C' & L' & _)|(d & a & s & n & C & E & S' & T' & C' & L')]]; [rewrite Q in *; constructor; auto| |].
    - constructor; auto; rewrite ?S', ?C', ?L'; auto. intros d' a' X. destruct (Nat.eq_dec t u) as [->|N]; [rewrite put_eq in X; inversion X; subst; destruct d'; simpl; auto|rewrite put_neq in X by auto; eauto].
    - pose proof (s_call Hs _ C). subst d.
      assert (ND : forall w k' l, a <> CDrop w k' l) by (intros w k' l ->; destruct (s_knows Hs _ C); congruence).
      constructor; auto; rewrite ?S', ?C', ?L'.
      + intros d' a' X. destruct (Nat.eq_dec t u) as [->|N].
        * rewrite put_eq in X. destruct n as [a3| |]; inversion X; subst. clear - E B ok. destruct a; simpl in E; split_exec; simpl in *; auto; try discriminate;
            intros ->; intros X; apply (dget_None ok) in X; apply X; apply (dmem_In ok); auto.
        * rewrite put_neq in X by auto. assert (D : dget eqb (data s) k = dget eqb (data (shared c)) k).
          { eapply (@exec_other a); eauto; [apply (s_data Hs)|apply (s_zero Hs)|intros l w ->; exfalso; eapply ND; reflexivity|]. apply (Ho u); auto. unfold calls_of. rewrite C. simpl. auto. }
          pose proof (Hc _ _ X) as Y. clear - Y D. unfold certain in *. destruct a'; rewrite ?D; auto.
      + intros d' e I. apply in_app_iff in I. destruct I as [I|I]; [eapply Hl; eauto|]. destruct n as [|r|e']; simpl in I; [destruct I|destruct I as [I|[]]; discriminate|]. destruct I as [I|[]].
        injection I as <- <-. intros A. destruct (Nat.eq_dec u t) as [->|N]; [|eapply (Ho u); eauto; unfold calls_of; rewrite C; simpl; auto].
        pose proof (Hc _ _ C) as Y. clear - Y A E ok. destruct a; simpl in E, A, Y; split_exec; try discriminate; subst; apply (Y eq_refl); apply not_mem; auto.
  Qed.
  Lemma own_run programs schedule t k : background = true -> (forall u d, u <> t -> In d (programs u) -> ~ about d k) -> own t k (scd_run (scd_start programs) schedule).
  Proof.
    intros B N. unfold ScdThr_Model.scd_run. apply run_inv with (P := own t k); [|intros; apply own_step; auto]. constructor; simpl; auto; try discriminate; try contradiction. apply sound_start.
  Qed.

  (** ** all threads can end *)
  Definition rank (a : code K V) (s : state) : nat :=
    match a with
    | GLock _ => 4 | GRead _ => 3 | GDrop _ _ => 2 | GMake _ => 1
    | SLock _ _ => 3 | SIn _ _ => 2 | SDrop _ _ | SPut _ _ => 1
    | DIn _ => 2 | DDrop _ => 1
    | CLock _ => 2 * length (data s) + 4 | CKeys _ => 2 * length (data s) + 3 | CLoop _ l => 2 * length l + 2 | CDrop _ _ l => 2 * length l + 3
    | LLen => 1
    end.
  Lemma exec_rank a s s' a' : exec a s = (s', Next a') -> holds a = true \/ locked s = false -> rank a' s' < rank a s.
  Proof.
    intros E H. destruct a; simpl in E; split_exec; simpl; try discriminate; try lia; try (destruct H; discriminate). unfold dkeys. rewrite map_length. lia.
  Qed.
  (* thread [t] alone ends what it is at *)
  Lemma thread_ends n : forall (c : cfg) t d a, sound c -> current c t = Some (d, a) -> (rank a (shared c) < n)%nat -> holds a = true \/ locked (shared c) = false ->
    exists m, let c' := scd_run c (repeat t m) in current c' t = None /\ (forall u, u <> t -> current c' u = current c u) /\ todo c' = todo c /\ locked (shared c') = false.
  Proof.
    induction n as [|n IH]; intros c t d a Hs C R H; [lia|]. pose proof (sound_step t Hs) as Hs'.
    destruct (step_cases c t) as [Q|[(d' & r & C2 & _)|(d' & a' & s & nx & C2 & E & S' & T' & C' & L')]]; [|congruence|].
    - exfalso. unfold turn in Q. rewrite C in Q. destruct (exec a (shared c)) as [s nx] eqn:E. destruct nx as [a1|r|e].
      + assert (X : current c t = Some (d, a1)) by (rewrite <- Q; simpl; apply put_eq). assert (Y : shared c = s) by (rewrite <- Q; auto). rewrite C in X. inversion X; subst a1.
        pose proof (exec_rank _ _ E H). subst s. lia.
      + assert (X : current c t = None) by (rewrite <- Q; simpl; apply put_eq). congruence.
      + assert (X : current c t = None) by (rewrite <- Q; simpl; apply put_eq). congruence.
    - rewrite C in C2. inversion C2; subst d' a'. pose proof (exec_lock a (shared c) E) as (L1 & L2 & L3).
      assert (Lk : held_after nx = true \/ locked (shared (step c t)) = false).
      { rewrite S'. destruct (held_after nx) eqn:Hn; auto. right. destruct (holds a) eqn:Ha; [apply L1; auto; apply (s_lock Hs); eauto|]. rewrite L3; auto. destruct H; [discriminate|auto]. }
      destruct nx as [a1|r|e].
      + assert (X : current (step c t) t = Some (d, a1)) by (rewrite C'; apply put_eq). assert (Rk : (rank a1 (shared (step c t)) < n)%nat) by (rewrite S'; pose proof (exec_rank _ _ E H); lia).
        destruct (IH (step c t) t d a1 Hs' X Rk Lk) as (m & M1 & M2 & M3 & M4). exists (S m). simpl. change (scd_run c (t :: repeat t m)) with (scd_run (step c t) (repeat t m)). split; auto.
        split; [|split; auto; congruence]. intros u N. rewrite M2 by auto. rewrite C'. apply put_neq. auto.
      + exists 1%nat. simpl. change (scd_run c [t]) with (step c t). rewrite C', T'. split; [apply put_eq|]. split; [intros; apply put_neq; auto|]. split; auto. destruct Lk; [discriminate|auto].
      + exists 1%nat. simpl. change (scd_run c [t]) with (step c t). rewrite C', T'. split; [apply put_eq|]. split; [intros; apply put_neq; auto|]. split; auto. destruct Lk; [discriminate|auto].
  Qed.
  Lemma run_run (c : cfg) l m : scd_run c (l ++ m) = scd_run (scd_run c l) m.
  Proof. unfold ScdThr_Model.scd_run, run. apply fold_left_app. Qed.
  Lemma call_done c t : sound c -> locked (shared c) = false ->
    exists l, let c' := scd_run c l in current c' t = None /\ (forall u, u <> t -> current c' u = current c u) /\ todo c' = todo c /\ locked (shared c') = false.
  Proof.
    intros H L. destruct (current c t) as [[d a]|] eqn:C.
    - destruct (thread_ends t H C (Nat.lt_succ_diag_r _)) as (m & M); auto. exists (repeat t m). auto.
    - exists []. simpl. auto.
  Qed.
  Lemma thread_done n : forall c t, sound c -> locked (shared c) = false -> length (todo c t) = n ->
    exists l, let c' := scd_run c l in current c' t = None /\ todo c' t = [] /\ (forall u, u <> t -> current c' u = current c u /\ todo c' u = todo c u) /\ locked (shared c') = false.
  Proof.
    induction n as [|n IH]; intros c t H L N; destruct (call_done t H L) as (l & C1 & C2 & C3 & C4).
    - exists l. simpl. split; auto. rewrite C3. destruct (todo c t); [|discriminate]. auto.
    - pose (c1 := scd_run c l). fold c1 in C1, C2, C3, C4. destruct (todo c t) as [|d r] eqn:T; [discriminate|].
      assert (Hs : sound c1) by (apply sound_on; auto).
      destruct (step_cases c1 t) as [Q|[(d' & r' & D1 & D2 & D3 & D4 & D5 & D6)|(d' & a & s & nx & D1 & _)]]; [| |congruence].
      + exfalso. unfold turn in Q. rewrite C1, C3, T in Q. apply (f_equal (fun c : cfg => todo c t)) in Q. simpl in Q. rewrite put_eq, C3, T in Q. apply (f_equal (@length _)) in Q. simpl in Q. lia.
      + rewrite C3, T in D2. inversion D2; subst d' r'. destruct (IH (step c1 t) t) as (m & M1 & M2 & M3 & M4).
        * apply sound_step. auto.
        * rewrite D3. auto.
        * rewrite D6, put_eq. simpl in N. lia.
        * exists (l ++ t :: m). simpl. rewrite run_run. fold c1. change (scd_run c1 (t :: m)) with (scd_run (step c1 t) m). split; auto. split; auto. split; auto.
          intros u Nu. destruct (M3 u Nu) as [X Y]. rewrite X, Y, D4, D6, !put_neq by auto. rewrite C2, C3 by auto. auto.
  Qed.
  Lemma all_done n : forall c, sound c -> locked (shared c) = false ->
    exists l, let c' := scd_run c l in (forall t, (t < n)%nat -> current c' t = None /\ todo c' t = []) /\ (forall u, (n <= u)%nat -> current c' u = current c u /\ todo c' u = todo c u) /\ locked (shared c') = false.
  Proof.
    induction n as [|n IH]; intros c H L.
    - exists []. simpl. split; [intros; lia|auto].
    - destruct (IH c H L) as (l & A & B & D). pose (c1 := scd_run c l). fold c1 in A, B, D. assert (Hs : sound c1) by (apply sound_on; auto).
      destruct (thread_done n Hs D eq_refl) as (m & M1 & M2 & M3 & M4). exists (l ++ m). simpl. rewrite run_run. fold c1. split; [|split; auto].
      + intros t Lt. destruct (Nat.eq_dec t n) as [->|N]; auto. destruct (M3 t N) as [X Y]. rewrite X, Y. apply A. lia.
      + intros u Lu. destruct (M3 u) as [X Y]; [lia|]. rewrite X, Y. apply B. lia.
  Qed.
  Lemma below_run n (programs : nat -> list (call K V)) schedule : threads_below n programs -> let c := scd_run (scd_start programs) schedule in forall t, (n <= t)%nat -> current c t = None /\ todo c t = [].
  Proof.
    intros B. unfold ScdThr_Model.scd_run. apply run_inv with (P := fun c => forall t, (n <= t)%nat -> current c t = None /\ todo c t = []).
    - intros t L. simpl. split; auto.
    - intros c u H t L. destruct (step_cases c u) as [->|[(d & r & C & T & S' & C' & L' & T')|(d & a & s & nx & C & E & S' & T' & C' & L')]]; auto; rewrite C', T'; (destruct (Nat.eq_dec t u) as [->|N]; [destruct (H u L); congruence|rewrite !put_neq by auto; auto]).
  Qed.
  Lemma can_finish n (programs : nat -> list (call K V)) schedule : threads_below n programs -> exists l, finished (scd_run (scd_run (scd_start programs) schedule) l).
  Proof.
    intros B. pose (c := scd_run (scd_start programs) schedule). fold c. assert (H : sound c) by apply sound_run. pose proof (below_run schedule B) as W. fold c in W. simpl in W.
    assert (Q : exists l, let c' := scd_run c l in locked (shared c') = false /\ forall t, (n <= t)%nat -> current c' t = None /\ todo c' t = []).
    { destruct (locked (shared c)) eqn:L; [|exists []; simpl; auto]. apply (s_lock H) in L. destruct L as (t & d & a & C & Ha).
      destruct (thread_ends t H C (Nat.lt_succ_diag_r _)) as (m & M1 & M2 & M3 & M4); auto. exists (repeat t m). simpl. split; auto. intros u Lu. rewrite M3. destruct (W u Lu) as [X Y]. split; auto.
      destruct (Nat.eq_dec u t) as [->|N]; auto. rewrite M2; auto. }
    destruct Q as (l1 & L1 & W1). pose (c1 := scd_run c l1). fold c1 in L1, W1. assert (H1 : sound c1) by (apply sound_on; auto).
    destruct (all_done n H1 L1) as (l2 & A & B2 & _). exists (l1 ++ l2). rewrite run_run. fold c1. split; intros t.
    - destruct (Nat.lt_ge_cases t n) as [Lt|Ge]; [apply A; auto|]. destruct (B2 t Ge) as [X _]. rewrite X. apply W1. auto.
    - destruct (Nat.lt_ge_cases t n) as [Lt|Ge]; [apply A; auto|]. destruct (B2 t Ge) as [_ X]. rewrite X. apply W1. auto.
  Qed.
  (** ** calls one at a time *)
  Local Notation stored := (@stored K V eqb veqb zero background).
  Definition sweep (o : option V) : option V := match o with Some v => if veqb v zero then None else Some v | None => None end.
  Definition store (d : call K V) (k : K) (o : option V) : option V :=
    match d with
    | Get k' => if eqb k' k then match o with Some _ => sweep o | None => if background then None else Some zero end else o
    | Set_ k' v => if eqb k' k then sweep (Some v) else o
    | Del k' => if eqb k' k then None else o
    | Cleanup | Len => sweep o
    end.
  Lemma stored_app l d k : stored (l ++ [d]) k = store d k (stored l k).
  Proof. unfold ScdThr_Spec.stored. rewrite fold_left_app. reflexivity. Qed.
  Lemma stored_value l k : match stored (map fst l) k with Some v => v = value l k | None => value l k = zero end.
  Proof.
    induction l as [|[d r] l IH] using rev_ind; [reflexivity|]. rewrite map_app, value_app. simpl map. rewrite stored_app.
    assert (Sw : match sweep (stored (map fst l) k) with Some v => v = value l k | None => value l k = zero end).
    { destruct (stored (map fst l) k) as [v|]; simpl; auto. destruct (veqb v zero) eqn:Q; auto. subst v. apply value_zero. auto. }
    destruct d as [k'|k' v'|k'| |]; cbn -[sweep]; auto; destruct (eqb k' k) eqn:X; auto.
    - destruct (stored (map fst l) k) as [v|] eqn:Y; auto. destruct background; auto.
    - simpl. destruct (veqb v' zero); auto.
  Qed.
  Definition exactly (L : list (call K V)) (s : state) : Prop := forall k, dget eqb (data s) k = stored L k.
  Definition partly (L : list (call K V)) (l : list K) (s : state) : Prop :=
    NoDup l /\ (forall k, In k l -> dget eqb (data s) k = stored L k /\ dget eqb (data s) k <> None) /\ (forall k, ~ In k l -> dget eqb (data s) k = sweep (stored L k)).
  Definition mid (L : list (call K V)) (d : call K V) (a : code K V) (s : state) : Prop :=
    d = call_of a /\ dwf (data s) /\ locked s = holds a /\
    match a with
    | GDrop k v => exactly L s /\ dget eqb (data s) k = Some v /\ veqb v zero = true
    | GMake k => exactly L s /\ dget eqb (data s) k = None
    | SDrop k v => exactly L s /\ veqb v zero = true /\ dmem eqb (data s) k = true
    | SPut k v => exactly L s /\ veqb v zero = false
    | DDrop k => exactly L s /\ dmem eqb (data s) k = true
    | CLoop w l => partly L l s
    | CDrop w k l => partly L (k :: l) s /\ exists v, dget eqb (data s) k = Some v /\ veqb v zero = true
    | LLen => forall k, dget eqb (data s) k = sweep (stored L k)
    | _ => exactly L s
    end.
  Definition between (L : list (call K V)) (s : state) : Prop := dwf (data s) /\ locked s = false /\ exactly L s.
  Lemma mid_first L d s : between L s -> mid L d (first d) s.
  Proof. intros (W & N & X). unfold mid. rewrite first_call, first_free. repeat (split; auto). destruct d; auto. Qed.
  Lemma in_mem (s : state) k v : dget eqb (data s) k = Some v -> dmem eqb (data s) k = true.
  Proof. intros G. apply (dmem_In ok). eapply (dget_Some_key ok); eauto. Qed.
  Lemma del_exact s L d k : dwf (data s) -> exactly L s -> store d k (stored L k) = None -> (forall k', k' <> k -> store d k' (stored L k') = stored L k') ->
    forall b, between (L ++ [d]) (set_lock (set_data s (ddel eqb (data s) k)) b) \/ b = true.
  Proof.
    intros W X N O [|]; auto. left. split; [simpl; apply (@ddel_wf _ _ eqb); auto|]. split; auto. intros k'. simpl. rewrite stored_app.
    destruct (eqb k' k) eqn:E; [apply ok in E; subst; rewrite (dget_ddel_eq ok), N; auto|]. assert (k' <> k) by (intros ->; rewrite eqb_refl in E; discriminate).
    rewrite (dget_ddel_neq ok), O by auto. apply X.
  Qed.
  Lemma same_exact s L d b : dwf (data s) -> exactly L s -> (forall k, store d k (stored L k) = stored L k) -> between (L ++ [d]) (set_lock s b) \/ b = true.
  Proof. intros W X N. destruct b; auto. left. split; auto. split; auto. intros k. simpl. rewrite stored_app, N. apply X. Qed.
  Lemma set_exact s L d k v : dwf (data s) -> exactly L s -> store d k (stored L k) = Some v -> (forall k', k' <> k -> store d k' (stored L k') = stored L k') ->
    between (L ++ [d]) (set_lock (set_data s (dset eqb (data s) k v)) false).
  Proof.
    intros W X N O. split; [simpl; apply (dset_wf ok); auto|]. split; auto. intros k'. simpl. rewrite stored_app.
    destruct (eqb k' k) eqn:E; [apply ok in E; subst; rewrite (dget_dset_eq ok), N; auto|]. assert (k' <> k) by (intros ->; rewrite eqb_refl in E; discriminate).
    rewrite (dget_dset_neq ok), O by auto. apply X.
  Qed.
  Definition good (L : list (call K V)) (d : call K V) (r : answer V) : Prop := forall l, map fst l = L -> fits eqb veqb zero l d (Ok r).
  Lemma mid_step L d a s : veqb zero zero = true -> mid L d a s ->
    match exec a s with
    | (s', Next a') => mid L d a' s'
    | (s', Returned r) => between (L ++ [d]) s' /\ good L d r
    | (s', Raised _) => False
    end.
  Proof.
    intros Rf (-> & W & Lk & M). unfold good. destruct a; cbn -[call_of] in Lk, M |- *.
    - rewrite Lk. unfold mid. simpl. repeat (split; auto).
    - destruct (dget eqb (data s) k) as [v|] eqn:G; [destruct (veqb v zero) eqn:Q|]; try (unfold mid; simpl; repeat (split; auto); fail). pose proof G as G'. rewrite M in G'. split.
      + destruct (@same_exact s L (Get k) false) as [H|H]; auto; try discriminate. intros k'. simpl. destruct (eqb k k') eqn:E; auto. apply ok in E. subst k'. rewrite G'. simpl. rewrite Q. auto.
      + intros l <-. simpl. pose proof (stored_value l k) as Z. rewrite G' in Z. subst. auto.
    - destruct M as (M & G & Q). rewrite (in_mem _ _ G). pose proof G as G'. rewrite M in G'. split.
      + destruct (@del_exact s L (Get k) k) with (b := false) as [H|H]; auto; try discriminate; simpl; [rewrite eqb_refl, G'; simpl; rewrite Q; auto|]. intros k' N. rewrite eqb_neq; auto.
      + intros l <-. simpl. pose proof (stored_value l k) as Z. rewrite G' in Z. subst. auto.
    - destruct M as (M & G). pose proof G as G'. rewrite M in G'. split.
      + destruct background eqn:B.
        * destruct (@same_exact s L (Get k) false) as [H|H]; auto; try discriminate. intros k'. simpl. destruct (eqb k k') eqn:E; auto. apply ok in E. subst k'. rewrite B, G'. auto.
        * apply set_exact; auto; simpl; [rewrite eqb_refl, B, G'; auto|]. intros k' N. rewrite eqb_neq; auto.
      + intros l <-. simpl. pose proof (stored_value l k) as Z. rewrite G' in Z. rewrite Z. auto.
    - rewrite Lk. unfold mid. simpl. repeat (split; auto).
    - destruct (veqb v zero) eqn:Q; [|unfold mid; simpl; repeat (split; auto)]. destruct (dmem eqb (data s) k) eqn:G; [unfold mid; simpl; repeat (split; auto)|]. split; [|intros l <-; reflexivity].
      destruct (@same_exact s L (Set_ k v) false) as [H|H]; auto; try discriminate. intros k'. simpl. rewrite Q. destruct (eqb k k') eqn:E; auto. apply ok in E. subst k'. rewrite <- M. symmetry. apply not_mem. auto.
    - destruct M as (M & Q & G). rewrite G. split; [|intros l <-; reflexivity].
      destruct (@del_exact s L (Set_ k v) k) with (b := false) as [H|H]; auto; try discriminate; simpl; rewrite Q; [rewrite eqb_refl; auto|]. intros k' N. rewrite eqb_neq; auto.
    - destruct M as (M & Q). split; [|intros l <-; reflexivity]. apply set_exact; auto; simpl; rewrite Q; [rewrite eqb_refl; auto|]. intros k' N. rewrite eqb_neq; auto.
    - destruct (dmem eqb (data s) k) eqn:G; [unfold mid; simpl; repeat (split; auto)|]. split; [|intros l <-; reflexivity].
      split; auto. split; auto. intros k'. rewrite stored_app. simpl. destruct (eqb k k') eqn:E; auto. apply ok in E. subst k'. apply not_mem. auto.
    - destruct M as (M & G). rewrite G. split; [|intros l <-; reflexivity].
      destruct (@del_exact s L (Del k) k) with (b := false) as [H|H]; auto; try discriminate; simpl; [rewrite eqb_refl; auto|intros k' N; rewrite eqb_neq; auto|].
      destruct H as (H1 & _ & H3). split; [exact H1|]. split; [exact Lk|exact H3].
    - rewrite Lk. unfold mid. simpl. repeat (split; auto).
    - unfold mid. simpl. split; auto. split; auto. split; auto. split; auto. split; [intros k I; split; auto; intros X; apply (dget_None ok) in X; contradiction|].
      intros k N. apply (dget_None ok) in N. rewrite <- M, N. auto.
    - destruct l as [|k l].
      + destruct M as (_ & _ & M). destruct w; simpl.
        * split; [|intros l <-; reflexivity]. split; auto. split; auto. intros k. simpl. rewrite stored_app. simpl. apply M. auto.
        * unfold mid. simpl. split; auto.
      + pose proof M as (M1 & M2 & M3). destruct (M2 k (or_introl eq_refl)) as (G & N). destruct (dget eqb (data s) k) as [v|] eqn:X; [|contradiction]. destruct (veqb v zero) eqn:Q.
        * unfold mid. simpl. repeat (split; auto). eauto.
        * unfold mid. simpl. inversion M1; subst. split; auto. split; auto. split; auto. split; auto. split; [intros k' I; apply M2; simpl; auto|]. intros k' I. destruct (eqb k' k) eqn:E.
          -- apply ok in E. subst k'. rewrite X, <- G. simpl. rewrite Q. auto.
          -- apply M3. intros [->|J]; auto. rewrite eqb_refl in E. discriminate.
    - destruct M as ((M1 & M2 & M3) & v & G & Q). rewrite (in_mem _ _ G). unfold mid. simpl. inversion M1; subst. split; auto. split; [apply (@ddel_wf _ _ eqb); auto|]. split; auto. split; auto. split.
      + intros k' I. simpl. rewrite (dget_ddel_neq ok); [apply M2; simpl; auto|intros ->; contradiction].
      + intros k' I. simpl. destruct (eqb k' k) eqn:E.
        * apply ok in E. subst k'. rewrite (dget_ddel_eq ok) by auto. destruct (M2 k (or_introl eq_refl)) as (X & _). rewrite <- X, G. simpl. rewrite Q. auto.
        * assert (k' <> k) by (intros ->; rewrite eqb_refl in E; discriminate). rewrite (dget_ddel_neq ok) by auto. apply M3. intros [->|J]; auto.
    - split.
      + split; auto. split; auto. intros k. rewrite stored_app. simpl. apply M.
      + intros l <-. simpl. exists (dkeys (data s)). split; auto. split; [|unfold dkeys; rewrite map_length; auto]. intros k. pose proof (stored_value l k) as Z. specialize (M k).
        split; intros I.
        * destruct (dget_key_Some ok _ _ I) as (v & G). rewrite G in M. destruct (stored (map fst l) k) as [v'|]; simpl in M; [|discriminate]. destruct (veqb v' zero) eqn:Q; [discriminate|]. congruence.
        * destruct (stored (map fst l) k) as [v'|]; [subst v'; simpl in M; rewrite I in M; eapply (dget_Some_key ok); eauto|]. rewrite Z in I. congruence.
  Qed.
  Lemma alone_run programs schedule : veqb zero zero = true -> one_at_a_time (@first K V) exec (scd_start programs) schedule ->
    let c := scd_run (scd_start programs) schedule in
    (forall l1 d r l2, log c = l1 ++ (d, r) :: l2 -> fits eqb veqb zero l1 d r) /\ (idle c -> forall k, dget eqb (data (shared c)) k = stored (ended c) k).
  Proof.
    intros Rf O. destruct (@solo_start (scd_state K V) (call K V) (code K V) (answer V) (@first K V) exec between mid good mid_first (fun L k a s => @mid_step L k a s Rf) (empty_scd (K := K) (V := V)) programs schedule) as (A & B); auto.
    - split; [constructor|]. split; auto. intros k. reflexivity.
    - split.
      + intros l1 d r l2 E. destruct (A _ _ _ _ E) as (r' & -> & G). apply G. auto.
      + intros I. apply B. auto.
  Qed.

End ScdThrProofs.
