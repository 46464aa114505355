(** Proofs about ExpThr_Model. *)
From Verif Require Import Prelude PreludeFacts MoreFacts MetrThr_Model MetrThr_Spec MetrThr_Proofs ExpThr_Model ExpThr_Spec.
Local Open Scope Z_scope.
Set Implicit Arguments.

Section ExpThrProofs.
  Context {K V : Type}.
  Variable eqb : K -> K -> bool.
  Hypothesis ok : eqb_ok eqb.
  Variable timeout : Z.
  Local Notation state := (exp_state K V).
  Local Notation cfg := (config (exp_state K V) (call K V) (code K V) (answer V)).
  Local Notation exec := (@exec K V eqb timeout).
  Local Notation step := (turn (@first K V) (@ExpThr_Model.exec K V eqb timeout)).

  (** ** one step *)
  Definition call_of (a : code K V) : call K V :=
    match a with
    | GTime k | GNow k _ | GDrop k | GRead k => Get k
    | SLock k v | SNow k v | SPop k v _ | SPush k v _ | SData k v => Set_ k v
    | DLock k w | DPop k w | DData k w => match w with UserDel => Del k | InDel => In_ k end
    | ITime k | INow k _ => In_ k
    | CLock w | CNow w | CLoop w _ | CDel w _ _ => match w with ForCleanup => Cleanup | ForLen => Len end
    | LLen => Len
    | TTick n => Tick n
    end.
  Lemma first_call d : call_of (first d) = d.
  Proof. destruct d; auto. Qed.
  Definition holds (a : code K V) : bool :=
    match a with SNow _ _ | SPop _ _ _ | SPush _ _ _ | SData _ _ | DPop _ _ | DData _ _ | CNow _ | CLoop _ _ | CDel _ _ _ => true | _ => false end.
  Lemma first_free d : holds (first d) = false.
  Proof. destruct d; auto. Qed.
  Ltac split_exec :=
    repeat match goal with
    | H : context [match ?x with _ => _ end] |- _ => destruct x eqn:?
    | H : (_, _) = (_, _) |- _ => inversion H; clear H; subst
    end.
  Lemma exec_call a s s' a' : exec a s = (s', Next a') -> call_of a' = call_of a.
  Proof. destruct a; simpl; intros E; split_exec; simpl; auto; discriminate. Qed.
  Definition held_after (n : next (code K V) (answer V)) : bool := match n with Next a' => holds a' | _ => false end.
  Lemma exec_lock a s s' n : exec a s = (s', n) ->
    (holds a = true -> locked s = true -> locked s' = held_after n) /\ (holds a = false -> held_after n = true -> locked s = false /\ locked s' = true) /\
    (holds a = false -> held_after n = false -> locked s' = locked s).
  Proof. destruct a; simpl; intros E; split_exec; simpl; repeat split; intros; try discriminate; auto. Qed.
  Lemma exec_times a s s' n : exec a s = (s', n) -> holds a = false -> times s' = times s.
  Proof. destruct a; simpl; intros E H; try discriminate; split_exec; auto. Qed.
  Lemma exec_data a s s' n : exec a s = (s', n) -> holds a = false -> (forall k, a <> GDrop k) -> data s' = data s.
  Proof. destruct a; simpl; intros E H G; try discriminate; try (exfalso; eapply G; reflexivity); split_exec; auto. Qed.
  Lemma exec_wf a s s' n : exec a s = (s', n) -> dwf (data s) -> dwf (times s) -> dwf (data s') /\ dwf (times s').
  Proof.
    destruct a; simpl; intros E D T; split_exec; simpl; split; auto; try (apply (@ddel_wf _ _ eqb); auto; fail); try (apply (dset_wf ok); auto; fail).
  Qed.
  Lemma exec_clock a s s' n : exec a s = (s', n) -> clock s <= clock s'.
  Proof. destruct a; simpl; intros E; split_exec; simpl; lia. Qed.
  (* what a thread inside of the monitor knows, whoever reads and deletes expired values outside *)
  Definition knows (a : code K V) (s : state) : Prop :=
    match a with
    | DData k _ => dget eqb (times s) k = None
    | CDel _ now k => dget eqb (times s) k = None /\ now <= clock s
    | CLoop _ now => now <= clock s
    | SData k _ => dget eqb (times s) k <> None
    | _ => True
    end.
  Lemma exec_knows a s s' a' : dwf (times s) -> knows a s -> exec a s = (s', Next a') -> knows a' s'.
  Proof.
    intros W. destruct a; simpl; intros N E; split_exec; simpl; auto; try discriminate; try lia; try tauto; try (split; [|auto]); try (apply (dget_ddel_eq ok); auto).
    rewrite (dget_dset_eq ok). discriminate.
  Qed.
  Lemma knows_other a s s' : knows a s -> times s' = times s -> clock s <= clock s' -> knows a s'.
  Proof. destruct a; simpl; intros N T C; rewrite ?T; auto; try lia. destruct N. split; auto. lia. Qed.

  Lemma step_cases (c : cfg) t : step c t = c \/
    (exists d r, current c t = None /\ todo c t = d :: r /\ shared (step c t) = shared c /\ current (step c t) = put (current c) t (Some (d, first d)) /\
       log (step c t) = log c /\ todo (step c t) = put (todo c) t r) \/
    (exists d a s n, current c t = Some (d, a) /\ exec a (shared c) = (s, n) /\ shared (step c t) = s /\ todo (step c t) = todo c /\
       current (step c t) = put (current c) t (match n with Next a' => Some (d, a') | _ => None end) /\
       log (step c t) = log c ++ match n with Next _ => [] | Returned r => [(d, Ok r)] | Raised e => [(d, Err e)] end).
  Proof.
    unfold turn. destruct (current c t) as [[d a]|] eqn:E.
    - right. right. exists d, a. destruct (exec a (shared c)) as [s n] eqn:X. exists s, n. destruct n; simpl; rewrite ?app_nil_r; repeat (split; auto).
    - destruct (todo c t) as [|d r] eqn:T; auto. right. left. exists d, r. simpl. repeat (split; auto).
  Qed.

  (** ** the monitor *)
  Record sound (c : cfg) : Prop := {
    s_call : forall t d a, current c t = Some (d, a) -> d = call_of a;
    s_one : forall t u d a d' a', current c t = Some (d, a) -> current c u = Some (d', a') -> holds a = true -> holds a' = true -> t = u;
    s_lock : locked (shared c) = true <-> exists t d a, current c t = Some (d, a) /\ holds a = true;
    s_data : dwf (data (shared c));
    s_times : dwf (times (shared c));
    s_knows : forall t d a, current c t = Some (d, a) -> knows a (shared c) }.
  Lemma sound_step c t : sound c -> sound (step c t).
  Proof.
    intros [H1 H2 H3 H4 H5 H6]. destruct (step_cases c t) as [->|[(d & r & C & T & S' & C' & _)|(d & a & s & n & C & E & S' & T' & C' & _)]]; [constructor; auto| |].
    - constructor; rewrite ?S', ?C'; auto.
      + intros u d' a' X. destruct (Nat.eq_dec u t) as [->|N]; [rewrite put_eq in X; inversion X; subst; rewrite first_call; auto|rewrite put_neq in X by auto; eauto].
      + intros u w d1 a1 d2 a2 X Y A B.
        destruct (Nat.eq_dec u t) as [->|N]; [rewrite put_eq in X; inversion X; subst; rewrite first_free in A; discriminate|].
        destruct (Nat.eq_dec w t) as [->|N']; [rewrite put_eq in Y; inversion Y; subst; rewrite first_free in B; discriminate|].
        rewrite put_neq in X, Y by auto. eauto.
      + rewrite H3. split; intros (u & d' & a' & X & A).
        * exists u, d', a'. split; auto. rewrite put_neq; auto. congruence.
        * destruct (Nat.eq_dec u t) as [->|N]; [rewrite put_eq in X; inversion X; subst; rewrite first_free in A; discriminate|]. rewrite put_neq in X by auto. eauto.
      + intros u d' a' X. destruct (Nat.eq_dec u t) as [->|N]; [rewrite put_eq in X; inversion X; subst; destruct d'; simpl; auto|rewrite put_neq in X by auto; eauto].
    - pose proof (exec_lock a (shared c) E) as (L1 & L2 & L3). pose proof (exec_wf a (shared c) E H4 H5) as (W1 & W2).
      constructor; rewrite ?S', ?C'; auto.
      + intros u d' a' X. destruct (Nat.eq_dec u t) as [->|N]; [|rewrite put_neq in X by auto; eauto].
        rewrite put_eq in X. destruct n as [a1| |]; try discriminate. inversion X; subst. rewrite (exec_call _ _ E). eauto.
      + assert (Z : forall w d2 a2, w <> t -> put (current c) t (match n with Next a' => Some (d, a') | _ => None end) w = Some (d2, a2) -> holds a2 = true -> held_after n = false).
        { intros w d2 a2 Nw Y B. rewrite put_neq in Y by auto. destruct (held_after n) eqn:Hn; auto. exfalso. destruct (holds a) eqn:Ha.
          - apply Nw. apply (H2 w t d2 a2 d a); auto.
          - destruct (L2 eq_refl eq_refl) as [F _]. assert (locked (shared c) = true) by (apply H3; eauto). congruence. }
        intros u w d1 a1 d2 a2 X Y A B.
        destruct (Nat.eq_dec u t) as [->|N], (Nat.eq_dec w t) as [->|N']; auto.
        * exfalso. pose proof (Z _ _ _ N' Y B) as Q. rewrite put_eq in X. destruct n as [a3| |]; try discriminate. inversion X; subst. simpl in Q. congruence.
        * exfalso. pose proof (Z _ _ _ N X A) as Q. rewrite put_eq in Y. destruct n as [a3| |]; try discriminate. inversion Y; subst. simpl in Q. congruence.
        * rewrite put_neq in X, Y by auto. eauto.
      + destruct (holds a) eqn:Ha.
        * rewrite L1; auto; [|apply H3; eauto]. split.
          -- intros Hn. destruct n as [a3| |]; try discriminate. exists t, d, a3. rewrite put_eq. auto.
          -- intros (u & d' & a' & X & A). destruct (Nat.eq_dec u t) as [->|N].
             ++ rewrite put_eq in X. destruct n; inversion X; subst. auto.
             ++ rewrite put_neq in X by auto. exfalso. apply N. eauto.
        * destruct (held_after n) eqn:Hn.
          -- destruct (L2 eq_refl eq_refl) as [_ ->]. split; auto. intros _. destruct n as [a3| |]; try discriminate. exists t, d, a3. rewrite put_eq. auto.
          -- rewrite L3, H3 by auto. split; intros (u & d' & a' & X & A).
             ++ exists u, d', a'. split; auto. rewrite put_neq; auto. intros ->. rewrite C in X. inversion X; subst. congruence.
             ++ destruct (Nat.eq_dec u t) as [->|N]; [rewrite put_eq in X; destruct n; inversion X; subst; simpl in Hn; congruence|]. rewrite put_neq in X by auto. eauto.
      + intros u d' a' X. destruct (Nat.eq_dec u t) as [->|N].
        * rewrite put_eq in X. destruct n as [a3| |]; try discriminate. injection X as <- <-. rewrite <- S'. rewrite <- S' in E. eapply exec_knows; [exact H5| |exact E]. eauto.
        * rewrite put_neq in X by auto. destruct (holds a) eqn:Ha.
          -- destruct (holds a') eqn:Ha'; [exfalso; apply N; eauto|]. destruct a'; simpl in *; auto; discriminate.
          -- apply knows_other with (s := shared c); eauto; [eapply exec_times; eauto|eapply exec_clock; eauto].
  Qed.
  Lemma sound_run programs schedule : sound (exp_run eqb timeout (exp_start programs) schedule).
  Proof.
    unfold exp_run. apply run_inv with (P := sound); [|intros; apply sound_step; auto].
    constructor; simpl; try discriminate; try constructor; try discriminate. intros (t & d & a & X & _). discriminate.
  Qed.

  (** ** who wrote what is read *)
  Definition writes (programs : nat -> list (call K V)) (k : K) (v : V) : Prop := exists t, In (Set_ k v) (programs t).
  Record traced (programs : nat -> list (call K V)) (c : cfg) : Prop := {
    t_todo : forall t d, In d (todo c t) -> exists u, In d (programs u);
    t_current : forall t d a, current c t = Some (d, a) -> exists u, In d (programs u);
    t_data : forall k v, dget eqb (data (shared c)) k = Some v -> writes programs k v;
    t_log : forall k v, In (Get k, Ok (Val v)) (log c) -> writes programs k v;
    t_made : forall d r, In (d, r) (log c) -> exists u, In d (programs u) }.
  Lemma exec_written a s s' n k v : exec a s = (s', n) -> dwf (data s) -> dget eqb (data s') k = Some v -> dget eqb (data s) k = Some v \/ a = SData k v.
  Proof.
    intros E W G. assert (D : forall k' , dget eqb (ddel eqb (data s) k') k = Some v -> dget eqb (data s) k = Some v).
    { intros k' X. destruct (eqb k' k) eqn:Q; [apply ok in Q; subst; rewrite (dget_ddel_eq ok) in X by auto; discriminate|]. rewrite (dget_ddel_neq ok) in X; auto. intros ->. rewrite (proj2 (ok k' k')) in Q; auto; discriminate. }
    destruct a; simpl in E; split_exec; simpl in G; eauto. destruct (eqb k0 k) eqn:Q.
    - apply ok in Q. subst. rewrite (dget_dset_eq ok) in G. inversion G; subst. auto.
    - rewrite (dget_dset_neq ok) in G; auto. intros ->. rewrite (proj2 (ok k0 k0)) in Q; auto; discriminate.
  Qed.
  Lemma exec_gives a s s' r k v : exec a s = (s', Returned r) -> call_of a = Get k -> r = Val v -> dget eqb (data s) k = Some v.
  Proof. destruct a; simpl; intros E C R; try discriminate; try (destruct w; discriminate); split_exec; try discriminate; inversion C; subst; auto; congruence. Qed.
  Lemma traced_step programs c t : sound c -> traced programs c -> traced programs (step c t).
  Proof.
    intros Hs [H1 H2 H3 H4 H5]. destruct (step_cases c t) as [->|[(d & r & C & T & S' & C' & L' & T')|(d & a & s & n & C & E & S' & T' & C' & L')]]; [constructor; auto| |].
    - constructor; rewrite ?S', ?C', ?L', ?T'; auto.
      + intros u e I. destruct (Nat.eq_dec u t) as [->|N]; [rewrite put_eq in I; apply (H1 t); rewrite T; simpl; auto|rewrite put_neq in I by auto; eauto].
      + intros u e a X. destruct (Nat.eq_dec u t) as [->|N]; [rewrite put_eq in X; inversion X; subst; apply (H1 t); rewrite T; simpl; auto|rewrite put_neq in X by auto; eauto].
    - constructor; rewrite ?S', ?C', ?L', ?T'; auto.
      + intros u e a' X. destruct (Nat.eq_dec u t) as [->|N]; [rewrite put_eq in X; destruct n; inversion X; subst; eauto|rewrite put_neq in X by auto; eauto].
      + intros k v G. destruct (exec_written a (shared c) k E (s_data Hs) G) as [G'| ->]; auto. rewrite (s_call Hs _ C) in C. simpl in C. destruct (H2 _ _ _ C) as (u & U). exists u. auto.
      + intros k v I. apply in_app_or in I. destruct I as [I|I]; auto. destruct n as [|r|e]; simpl in I; [tauto| |]; destruct I as [I|[]]; try discriminate. inversion I; subst.
        apply H3. eapply exec_gives; eauto. symmetry. apply (s_call Hs _ C).
      + intros e r I. apply in_app_or in I. destruct I as [I|I]; eauto. destruct n as [|r'|e']; simpl in I; [tauto| |]; destruct I as [I|[]]; inversion I; subst; eauto.
  Qed.
  Lemma traced_run programs schedule : traced programs (exp_run eqb timeout (exp_start programs) schedule).
  Proof.
    assert (H : sound (exp_run eqb timeout (exp_start programs) schedule) /\ traced programs (exp_run eqb timeout (exp_start programs) schedule)); [|tauto].
    unfold exp_run. apply run_inv with (P := fun c => sound c /\ traced programs c).
    - split; [apply (sound_run programs [])|]. constructor; simpl; try discriminate; try tauto. intros t d I. eauto.
    - intros c t [A B]. split; [apply sound_step; auto|apply traced_step; auto].
  Qed.

  (** ** the two dictionaries *)
  Definition sync_at (s : state) (k : K) : Prop := dget eqb (data s) k = None <-> dget eqb (times s) k = None.
  Definition sync (s : state) : Prop := forall k, sync_at s k.
  (* the key that a thread inside of the monitor is at *)
  Definition off (a : code K V) : option K := match a with SPush k _ _ | SData k _ | DData k _ | CDel _ _ k => Some k | _ => None end.
  Definition partly (a : code K V) (s : state) : Prop :=
    (forall k, off a <> Some k -> sync_at s k) /\ match a with DData k _ | CDel _ _ k => dget eqb (data s) k <> None | _ => True end.
  Lemma get_other {W : Type} (d : dict K W) k x : k <> x -> dget eqb (ddel eqb d k) x = dget eqb d x.
  Proof. intros N. apply (dget_ddel_neq ok). auto. Qed.
  Lemma keq_dec (k x : K) : k = x \/ k <> x.
  Proof. destruct (eqb k x) eqn:E; [left; apply ok; auto|right]. intros ->. rewrite (proj2 (ok x x)) in E; auto; discriminate. Qed.
  Lemma mem_get {W : Type} (d : dict K W) k b : dmem eqb d k = b -> (dget eqb d k = None <-> b = false).
  Proof. unfold dmem. destruct (dget eqb d k); intros <-; split; congruence. Qed.
  Lemma oldest_in (l : dict K Z) : forall k ts, oldest l = Some (k, ts) -> In (k, ts) l.
  Proof.
    induction l as [|[k0 t0] l IH]; simpl; intros k ts E; [discriminate|]. destruct (oldest l) as [[k' t']|]; [destruct (t' <? t0)|]; inversion E; subst; auto.
  Qed.
  Lemma exec_sync a s s' n : dwf (data s) -> dwf (times s) -> holds a = true -> knows a s -> partly a s -> exec a s = (s', n) ->
    match n with Next a' => if holds a' then partly a' s' else sync s' | _ => sync s' end.
  Proof.
    intros W1 W2 H N [P1 P2] E. assert (P0 : off a = None -> sync s) by (intros Q k; apply P1; rewrite Q; discriminate).
    destruct a; try discriminate H; simpl in E, N, P2, P0; split_exec; simpl; try (apply P0; reflexivity); try (split; [|exact I]; simpl; intros x X; apply P0; auto; fail).
    - (* SPop *) split; [|exact I]. simpl. intros x X. assert (k <> x) by congruence. unfold sync_at. simpl. rewrite get_other by auto. apply P0. auto.
    - (* SPush *) split; [|exact I]. simpl in *. intros x X. assert (k <> x) by congruence. unfold sync_at. simpl. rewrite (dget_dset_neq ok) by auto. apply P1. congruence.
    - (* SData *) intros x. unfold sync_at. simpl. destruct (keq_dec k x) as [<-|Nx].
      + rewrite (dget_dset_eq ok). split; [discriminate|tauto].
      + rewrite (dget_dset_neq ok) by auto. apply P1. simpl. congruence.
    - (* DPop *) split.
      + simpl. intros x X. assert (k <> x) by congruence. unfold sync_at. simpl. rewrite get_other by auto. apply P0. auto.
      + simpl. intros Q. apply (P0 eq_refl k) in Q. apply (mem_get _ _ Heqb) in Q. discriminate.
    - (* DData *) intros x. unfold sync_at. simpl. destruct (keq_dec k x) as [<-|Nx].
      + rewrite (dget_ddel_eq ok) by auto. tauto.
      + rewrite get_other by auto. apply P1. simpl. congruence.
    - intros x. unfold sync_at. simpl. destruct (keq_dec k x) as [<-|Nx].
      + rewrite (dget_ddel_eq ok) by auto. tauto.
      + rewrite get_other by auto. apply P1. simpl. congruence.
    - exfalso. apply P2. apply (mem_get _ _ Heqb). auto.
    - (* CLoop *) apply oldest_in in Heqo. assert (G : dget eqb (times s) k <> None) by (rewrite (In_dget ok _ _ W2 Heqo); discriminate). split.
      + simpl. intros x X. assert (k <> x) by congruence. unfold sync_at. simpl. rewrite get_other by auto. apply P0. auto.
      + simpl. intros Q. apply (P0 eq_refl k) in Q. tauto.
    - (* CDel *) split; [|exact I]. simpl. intros x _. unfold sync_at. simpl. destruct N as [N _]. destruct (keq_dec k x) as [<-|Nx].
      + rewrite (dget_ddel_eq ok) by auto. tauto.
      + rewrite get_other by auto. apply P1. simpl. congruence.
    - exfalso. apply P2. apply (mem_get _ _ Heqb). auto.
  Qed.
  Lemma exec_enter a s s' a' : holds a = false -> holds a' = true -> exec a s = (s', Next a') -> sync s -> partly a' s'.
  Proof. intros H H' E S. destruct a; try discriminate H; simpl in E; split_exec; try discriminate H'; (split; [|exact I]); intros x _; apply (S x). Qed.
  Record agree (c : cfg) : Prop := {
    a_in : forall t d a, current c t = Some (d, a) -> holds a = true -> partly a (shared c);
    a_out : locked (shared c) = false -> sync (shared c) }.
  Definition dropless (c : cfg) : Prop := forall t d k, current c t <> Some (d, GDrop k).
  Lemma partly_same a s s' : partly a s -> data s' = data s -> times s' = times s -> partly a s'.
  Proof. intros [P1 P2] D T. split; [intros k X; unfold sync_at; rewrite D, T; apply P1; auto|]. destruct a; auto; rewrite D; auto. Qed.
  Lemma agree_step c t : sound c -> dropless c -> agree c -> agree (step c t).
  Proof.
    intros Hs Hd [A1 A2]. pose proof (sound_step t Hs) as Hs'. destruct (step_cases c t) as [->|[(d & r & C & T & S' & C' & L' & T')|(d & a & s & n & C & E & S' & T' & C' & L')]]; [constructor; auto| |].
    - constructor; rewrite ?S', ?C'; auto. intros u e a X H. destruct (Nat.eq_dec u t) as [->|N]; [rewrite put_eq in X; inversion X; subst; rewrite first_free in H; discriminate|rewrite put_neq in X by auto; eauto].
    - pose proof (exec_lock a (shared c) E) as (L1 & L2 & L3). destruct (holds a) eqn:Ha.
      + assert (Lk : locked (shared c) = true) by (apply (s_lock Hs); eauto). pose proof (@exec_sync a (shared c) s n (s_data Hs) (s_times Hs) Ha (s_knows Hs _ C) (A1 _ _ _ C Ha) E) as X.
        constructor; rewrite ?S', ?C'.
        * intros u e a' Y H. destruct (Nat.eq_dec u t) as [->|N].
          -- rewrite put_eq in Y. destruct n as [a3| |]; try discriminate. injection Y as <- <-. rewrite H in X. auto.
          -- exfalso. rewrite put_neq in Y by auto. apply N. eapply (s_one Hs); eauto.
        * rewrite (L1 eq_refl Lk). intros F. destruct n as [a3| |]; auto. simpl in F. rewrite F in X. auto.
      + assert (D : data s = data (shared c)) by (eapply exec_data; eauto; intros k ->; eapply Hd; eauto). assert (T : times s = times (shared c)) by (eapply exec_times; eauto).
        constructor; rewrite ?S', ?C'.
        * intros u e a' Y H. destruct (Nat.eq_dec u t) as [->|N].
          -- rewrite put_eq in Y. destruct n as [a3| |]; try discriminate. injection Y as <- <-. destruct (L2 eq_refl H) as [F _]. eapply exec_enter; eauto.
          -- rewrite put_neq in Y by auto. apply partly_same with (s := shared c); eauto.
        * intros F. destruct (held_after n) eqn:Hn; [destruct (L2 eq_refl eq_refl); congruence|]. intros k. unfold sync_at. rewrite D, T. apply A2. rewrite <- L3; auto.
  Qed.

  (** ** without reads *)
  Definition no_get (d : call K V) : Prop := match d with Get _ => False | _ => True end.
  Record tidy (c : cfg) : Prop := {
    y_sound : sound c; y_agree : agree c;
    y_todo : forall t d, In d (todo c t) -> no_get d;
    y_current : forall t d a, current c t = Some (d, a) -> no_get d;
    y_log : forall d e, In (d, Err e) (log c) -> e = ValueError /\ exists k, d = Del k \/ d = In_ k }.
  Lemma exec_raises a s s' e : exec a s = (s', Raised e) -> no_get (call_of a) -> (holds a = true -> partly a s) -> e = ValueError /\ exists k, call_of a = Del k \/ call_of a = In_ k.
  Proof.
    intros E N P. destruct a; simpl in E, N; try tauto; split_exec; try discriminate; try (split; [auto|exists k; simpl; auto]; fail);
      exfalso; destruct (P eq_refl) as [_ Q]; simpl in Q; apply Q; eapply mem_get; eauto.
  Qed.
  Lemma tidy_step c t : tidy c -> tidy (step c t).
  Proof.
    intros [H1 H2 H3 H4 H5]. constructor.
    - apply sound_step; auto.
    - apply agree_step; auto. intros u d k X. pose proof (s_call H1 _ X) as Q. simpl in Q. subst. apply (H4 _ _ _ X).
    - destruct (step_cases c t) as [->|[(d & r & C & T & S' & C' & L' & T')|(d & a & s & n & C & E & S' & T' & C' & L')]]; auto; rewrite T'; auto.
      intros u e I. destruct (Nat.eq_dec u t) as [->|N]; [rewrite put_eq in I; apply (H3 t); rewrite T; simpl; auto|rewrite put_neq in I by auto; eauto].
    - destruct (step_cases c t) as [->|[(d & r & C & T & S' & C' & L' & T')|(d & a & s & n & C & E & S' & T' & C' & L')]]; auto; rewrite C'; intros u e a' X; (destruct (Nat.eq_dec u t) as [->|N]; [rewrite put_eq in X|rewrite put_neq in X by auto; eauto]).
      + inversion X; subst. apply (H3 t). rewrite T. simpl. auto.
      + destruct n; inversion X; subst. eauto.
    - destruct (step_cases c t) as [->|[(d & r & C & T & S' & C' & L' & T')|(d & a & s & n & C & E & S' & T' & C' & L')]]; auto; rewrite L'; auto.
      intros d' e I. apply in_app_or in I. destruct I as [I|I]; auto. destruct n as [|r'|e']; simpl in I; [tauto| |]; destruct I as [I|[]]; try discriminate. inversion I; subst.
      rewrite (s_call H1 _ C). apply exec_raises with (s := shared c) (s' := shared (step c t)); auto; [rewrite <- (s_call H1 _ C); eauto|intros; eapply a_in; eauto].
  Qed.
  Lemma tidy_run programs schedule : (forall t d, In d (programs t) -> no_get d) -> tidy (exp_run eqb timeout (exp_start programs) schedule).
  Proof.
    intros P. unfold exp_run. apply run_inv with (P := tidy); [|intros; apply tidy_step; auto]. constructor; simpl; try discriminate; try tauto; auto.
    - apply (sound_run programs []).
    - constructor; simpl; [discriminate|]. intros _ k. unfold sync_at. simpl. tauto.
  Qed.

  (** ** nothing gets old *)
  Definition young (a : code K V) : Prop :=
    match a with
    | GNow _ ts | INow _ ts | SPop _ _ ts | SPush _ _ ts => timeout <= ts
    | GDrop _ | CDel _ _ _ | DLock _ InDel | DPop _ InDel | DData _ InDel => False
    | _ => True
    end.
  Record lasting (c : cfg) : Prop := {
    l_sound : sound c; l_agree : agree c; l_clock : 0 <= clock (shared c);
    l_times : forall k ts, dget eqb (times (shared c)) k = Some ts -> timeout <= ts;
    l_young : forall t d a, current c t = Some (d, a) -> young a;
    l_held : forall k, dget eqb (data (shared c)) k = held eqb (log c) k }.
  Lemma first_young d : young (first d).
  Proof. destruct d; simpl; auto. Qed.
  Lemma times_after (d : dict K Z) k k' ts ts' : timeout <= ts -> (forall k ts, dget eqb d k = Some ts -> timeout <= ts) -> dget eqb (dset eqb d k ts) k' = Some ts' -> timeout <= ts'.
  Proof. intros L H G. destruct (keq_dec k k') as [<-|N]; [rewrite (dget_dset_eq ok) in G; congruence|rewrite (dget_dset_neq ok) in G by auto; eauto]. Qed.
  Lemma times_del (d : dict K Z) k k' ts' : dwf d -> (forall k ts, dget eqb d k = Some ts -> timeout <= ts) -> dget eqb (ddel eqb d k) k' = Some ts' -> timeout <= ts'.
  Proof. intros W H G. destruct (keq_dec k k') as [<-|N]; [rewrite (dget_ddel_eq ok) in G by auto; discriminate|rewrite get_other in G by auto; eauto]. Qed.
  Lemma exec_young a s s' n : exec a s = (s', n) -> dwf (times s) -> 0 <= clock s -> clock s <= timeout -> (forall k ts, dget eqb (times s) k = Some ts -> timeout <= ts) -> young a -> knows a s ->
    (forall k ts, dget eqb (times s') k = Some ts -> timeout <= ts) /\ match n with Next a' => young a' | _ => True end.
  Proof.
    intros E W C0 C1 T Y N. destruct a; simpl in E, Y, N; split_exec; simpl; try tauto; try (split; eauto; lia);
      repeat match goal with H : (_ <? _) = true |- _ => apply Z.ltb_lt in H | H : (_ <? _) = false |- _ => apply Z.ltb_ge in H end; try lia.
    - split; [|auto]. intros x ts'. eapply times_del; eauto.
    - split; [|auto]. intros x ts'. eapply times_after; eauto.
    - split; [|auto]. intros x ts'. eapply times_del; eauto.
    - exfalso. apply oldest_in in Heqo. apply (In_dget ok _ _ W) in Heqo. apply T in Heqo. lia.
  Qed.
  Lemma held_snoc (l : list (call K V * res (answer V))) e k : held eqb (l ++ [e]) k = match e with
                          | (Set_ k' v, Ok _) => if eqb k' k then Some v else held eqb l k
                          | (Del k', Ok _) => if eqb k' k then None else held eqb l k
                          | _ => held eqb l k
                          end.
  Proof. unfold held. rewrite fold_left_app. simpl. auto. Qed.
  Lemma eqb_other k x : k <> x -> eqb k x = false.
  Proof. intros N. destruct (eqb k x) eqn:E; auto. apply ok in E. tauto. Qed.
  Lemma exec_held a s s' n l : exec a s = (s', n) -> dwf (data s) -> young a -> (holds a = true -> partly a s) -> (forall k, dget eqb (data s) k = held eqb l k) ->
    forall k, dget eqb (data s') k = held eqb (l ++ match n with Next _ => [] | Returned r => [(call_of a, Ok r)] | Raised e => [(call_of a, Err e)] end) k.
  Proof.
    intros E W Y P H x. destruct a; simpl in E, Y; split_exec; simpl; rewrite ?app_nil_r, ?held_snoc; auto; try tauto.
    - destruct (keq_dec k x) as [<-|N]; [rewrite (dget_dset_eq ok), (proj2 (ok k k)); auto|rewrite (dget_dset_neq ok), eqb_other; auto].
    - destruct (keq_dec k x) as [<-|N]; [rewrite (dget_ddel_eq ok), (proj2 (ok k k)); auto|rewrite get_other, eqb_other; auto].
  Qed.
  Lemma lasting_step c t : clock (shared (step c t)) <= timeout -> lasting c -> lasting (step c t).
  Proof.
    intros Cl [H1 H2 H3 H4 H5 H6]. constructor.
    - apply sound_step; auto.
    - apply agree_step; auto. intros u d k X. apply (H5 _ _ _ X).
    - destruct (step_cases c t) as [->|[(d & r & C & T & S' & C' & L' & T')|(d & a & s & n & C & E & S' & T' & C' & L')]]; auto; rewrite S'; auto. pose proof (exec_clock _ _ E). lia.
    - destruct (step_cases c t) as [->|[(d & r & C & T & S' & C' & L' & T')|(d & a & s & n & C & E & S' & T' & C' & L')]]; auto; rewrite S'; auto.
      rewrite S' in Cl. pose proof (exec_clock _ _ E). apply (@exec_young a (shared c) s n); eauto; try lia; [apply (s_times H1)|apply (s_knows H1 _ C)].
    - destruct (step_cases c t) as [->|[(d & r & C & T & S' & C' & L' & T')|(d & a & s & n & C & E & S' & T' & C' & L')]]; auto; rewrite C'; intros u e a' X; (destruct (Nat.eq_dec u t) as [->|N]; [rewrite put_eq in X|rewrite put_neq in X by auto; eauto]).
      + inversion X; subst. apply first_young.
      + destruct n as [a3| |]; try discriminate. injection X as <- <-. rewrite S' in Cl. pose proof (exec_clock _ _ E).
        apply (@exec_young a (shared c) s (Next a3)); eauto; try lia; [apply (s_times H1)|apply (s_knows H1 _ C)].
    - destruct (step_cases c t) as [->|[(d & r & C & T & S' & C' & L' & T')|(d & a & s & n & C & E & S' & T' & C' & L')]]; auto; rewrite S', L'; auto.
      rewrite (s_call H1 _ C). apply exec_held with (s := shared c); eauto; [apply (s_data H1)|intros; eapply a_in; eauto].
  Qed.
  Lemma step_clock c t : clock (shared c) <= clock (shared (step c t)).
  Proof. destruct (step_cases c t) as [->|[(d & r & C & T & S' & _)|(d & a & s & n & C & E & S' & _)]]; rewrite ?S'; try lia. eapply exec_clock; eauto. Qed.
  Lemma run_snoc (c : cfg) l t : exp_run eqb timeout c (l ++ [t]) = step (exp_run eqb timeout c l) t.
  Proof. unfold exp_run, run. rewrite fold_left_app. auto. Qed.
  Lemma lasting_run programs schedule : clock (shared (exp_run eqb timeout (exp_start programs) schedule)) <= timeout -> lasting (exp_run eqb timeout (exp_start programs) schedule).
  Proof.
    induction schedule as [|t l IH] using rev_ind; intros C.
    - constructor; simpl; try discriminate; try tauto; auto; try lia.
      + apply (sound_run programs []).
      + constructor; simpl; [discriminate|]. intros _ k. unfold sync_at. simpl. tauto.
    - rewrite run_snoc in *. apply lasting_step; auto. apply IH. pose proof (step_clock (exp_run eqb timeout (exp_start programs) l) t). lia.
  Qed.
  Lemma changing_at c t d a k : lasting c -> current c t = Some (d, a) -> off a = Some k -> being_changed c k.
  Proof.
    intros L C O. pose proof (s_call (l_sound L) _ C) as D. pose proof (l_young L _ C) as Y. exists t, a. destruct a; simpl in O; inversion O; subst; simpl in *; try tauto; eauto.
    destruct w; simpl in *; try tauto.
  Qed.
  Lemma missing c k : lasting c -> dget eqb (times (shared c)) k = None -> dget eqb (data (shared c)) k = None \/ being_changed c k.
  Proof.
    intros L T. destruct (locked (shared c)) eqn:Lk.
    - apply (s_lock (l_sound L)) in Lk. destruct Lk as (t & d & a & C & H). destruct (a_in (l_agree L) _ C H) as [P _].
      destruct (off a) as [k'|] eqn:O.
      + destruct (keq_dec k' k) as [->|N]; [right; eapply changing_at; eauto|]. left. apply P; auto. congruence.
      + left. apply P; auto. discriminate.
    - left. apply (a_out (l_agree L) Lk k). auto.
  Qed.
  Lemma fits_step c t d r : lasting (step c t) -> lasting c -> clock (shared c) <= timeout -> log (step c t) = log c ++ [(d, r)] -> fits eqb (log c) (being_changed c) d r.
  Proof.
    intros L' L Cl E. destruct (step_cases c t) as [Q|[(d' & r' & C & T & S' & C' & Lg & T')|(d' & a & s & n & C & X & S' & T' & C' & Lg)]].
    - rewrite Q in E. apply (f_equal (@length _)) in E. rewrite app_length in E. simpl in E. lia.
    - rewrite Lg in E. apply (f_equal (@length _)) in E. rewrite app_length in E. simpl in E. lia.
    - rewrite Lg in E. apply app_inv_head in E. pose proof (s_call (l_sound L) _ C) as D. pose proof (l_young L _ C) as Y. pose proof (s_knows (l_sound L) _ C) as N.
      assert (P : holds a = true -> partly a (shared c)) by (intros; eapply a_in; eauto; apply (l_agree L)). pose proof (l_held L) as Hd. subst d'.
      destruct a; simpl in X, Y, N, E; try tauto; split_exec; try discriminate; try tauto;
        (inversion E; clear E; subst; simpl; auto);
        repeat match goal with H : (_ <? _) = true |- _ => apply Z.ltb_lt in H | H : (_ <? _) = false |- _ => apply Z.ltb_ge in H end; try lia.
      + (* GTime *) destruct (missing k L Heqo) as [M|M]; rewrite Hd in M || idtac; [rewrite M; auto|]. destruct (held eqb (log c) k); auto.
      + (* GRead *) rewrite <- Hd, Heqo. auto.
      + rewrite <- Hd, Heqo. auto.
      + (* DPop *) right. split; auto. rewrite <- Hd. apply (proj1 (P eq_refl) k); [simpl; discriminate|]. apply (mem_get _ _ Heqb). auto.
      + (* DData *) left. split; auto. rewrite <- Hd. intros Q. apply (mem_get _ _ Heqb) in Q. discriminate.
      + exfalso. apply (proj2 (P eq_refl)). apply (mem_get _ _ Heqb). auto.
      + (* ITime *) right. split; auto. rewrite <- Hd. apply missing; auto.
      + (* LLen *) exists (dkeys (data (shared c))). split; [apply (s_data (l_sound L))|]. split; [|unfold dkeys; rewrite map_length; auto].
        intros k. rewrite <- Hd. destruct (dget eqb (data (shared c)) k) as [v|] eqn:G.
        * split; [discriminate|]. intros _. apply (dget_In ok) in G. apply (in_map fst) in G. auto.
        * apply (dget_None ok) in G. split; [intros I; tauto|congruence].
  Qed.

  (** ** what is not old stays *)
  Lemma exec_keeps a s s' n k v : exec a s = (s', n) -> dwf (times s) -> knows a s -> elsewhere (call_of a) k -> readable eqb s k v -> readable eqb s' k v.
  Proof.
    intros E W N O [R1 (ts & R2 & R3)]. destruct a; simpl in E, N, O; try tauto; split_exec; simpl in *; (split; [|exists ts; split]); simpl;
      rewrite ?get_other, ?(dget_dset_neq ok) by auto; auto.
    - (* CLoop *) apply oldest_in in Heqo. apply Z.ltb_lt in Heqb. apply (In_dget ok _ _ W) in Heqo. destruct (keq_dec k0 k) as [->|Nk]; [rewrite R2 in Heqo; inversion Heqo; lia|]. rewrite get_other; auto.
    - apply oldest_in in Heqo. apply Z.ltb_lt in Heqb. apply (In_dget ok _ _ W) in Heqo. destruct (keq_dec k0 k) as [->|Nk]; [rewrite R2 in Heqo; inversion Heqo; lia|]. rewrite get_other; auto.
    - (* CDel *) destruct N as [N _]. assert (k0 <> k) by (intros ->; congruence). rewrite get_other; auto.
    - destruct N as [N _]. assert (k0 <> k) by (intros ->; congruence). rewrite get_other; auto.
  Qed.
  Lemma step_keeps c t d a k v : sound c -> current c t = Some (d, a) -> elsewhere d k -> readable eqb (shared c) k v -> readable eqb (shared (step c t)) k v.
  Proof.
    intros H C O R. destruct (step_cases c t) as [->|[(d' & r & C2 & _)|(d' & a' & s & n & C2 & E & S' & _)]]; auto; [congruence|]. rewrite C in C2. inversion C2; subst d' a'. rewrite S'.
    eapply exec_keeps; eauto; [apply (s_times H)|apply (s_knows H _ C)|]. rewrite <- (s_call H _ C). auto.
  Qed.
  Lemma read_alone (c : cfg) t k v l : current c t = None -> todo c t = Get k :: l -> readable eqb (shared c) k v -> log (exp_run eqb timeout c [t; t; t; t]) = log c ++ [(Get k, Ok (Val v))].
  Proof.
    intros C T [R1 (ts & R2 & R3)]. apply Z.ltb_ge in R3. unfold exp_run, run. cbn [fold_left].
    unfold turn at 4. rewrite C, T. unfold turn at 3. cbn [current shared todo log]. rewrite put_eq. cbn [first ExpThr_Model.exec]. rewrite R2.
    unfold turn at 2. cbn [current shared todo log]. rewrite put_eq. cbn [ExpThr_Model.exec]. rewrite R3.
    unfold turn. cbn [current shared todo log]. rewrite put_eq. cbn [ExpThr_Model.exec]. rewrite R1. auto.
  Qed.

  (** ** after a cleanup *)
  Definition half (a : code K V) (s : state) : Prop := forall k, off a <> Some k -> dget eqb (times s) k = None -> dget eqb (data s) k = None.
  Definition covered (s : state) : Prop := forall k, dget eqb (times s) k = None -> dget eqb (data s) k = None.
  Lemma exec_half a s s' n : dwf (data s) -> dwf (times s) -> holds a = true -> knows a s -> half a s -> exec a s = (s', n) ->
    match n with Next a' => if holds a' then half a' s' else covered s' | _ => covered s' end.
  Proof.
    intros W1 W2 H N P E. assert (P0 : off a = None -> covered s) by (intros Q k; apply P; rewrite Q; discriminate).
    destruct a; try discriminate H; simpl in E, P0, N; split_exec; simpl; try (apply P0; reflexivity); try (intros x _; apply P0; reflexivity);
      intros x; unfold half in P; simpl in P; simpl; intros X; try intros T.
    - assert (k <> x) by congruence. rewrite get_other in T by auto. apply P0; auto.
    - assert (k <> x) by congruence. rewrite (dget_dset_neq ok) in T by auto. apply P; congruence.
    - destruct (keq_dec k x) as [<-|Nx]; [tauto|rewrite (dget_dset_neq ok) by auto; apply P; congruence].
    - assert (k <> x) by congruence. rewrite get_other in T by auto. apply P0; auto.
    - destruct (keq_dec k x) as [<-|Nx]; [apply (dget_ddel_eq ok); auto|rewrite get_other by auto; apply P; congruence].
    - destruct (keq_dec k x) as [<-|Nx]; [apply (dget_ddel_eq ok); auto|rewrite get_other by auto; apply P; congruence].
    - destruct (keq_dec k x) as [<-|Nx]; [apply (mem_get _ _ Heqb); auto|apply P; congruence].
    - assert (k <> x) by congruence. rewrite get_other in T by auto. apply P0; auto.
    - destruct (keq_dec k x) as [<-|Nx]; [apply (dget_ddel_eq ok); auto|rewrite get_other by auto; apply P; congruence].
    - destruct (keq_dec k x) as [<-|Nx]; [apply (mem_get _ _ Heqb); auto|apply P; congruence].
  Qed.
  Lemma exec_half_enter a s s' a' : holds a = false -> holds a' = true -> exec a s = (s', Next a') -> covered s -> half a' s'.
  Proof. intros H H' E S. destruct a; try discriminate H; simpl in E; split_exec; try discriminate H'; intros x _; apply (S x). Qed.
  Lemma exec_less a s s' n k : dwf (data s) -> holds a = false -> exec a s = (s', n) -> dget eqb (data s) k = None -> dget eqb (data s') k = None.
  Proof.
    intros W H E D. destruct a; try discriminate H; simpl in E; split_exec; simpl; auto.
    destruct (keq_dec k0 k) as [<-|N]; [apply (dget_ddel_eq ok); auto|rewrite get_other; auto].
  Qed.
  Record within_times (c : cfg) : Prop := {
    w_in : forall t d a, current c t = Some (d, a) -> holds a = true -> half a (shared c);
    w_out : locked (shared c) = false -> covered (shared c) }.
  Lemma within_step c t : sound c -> within_times c -> within_times (step c t).
  Proof.
    intros Hs [A1 A2]. destruct (step_cases c t) as [->|[(d & r & C & T & S' & C' & L' & T')|(d & a & s & n & C & E & S' & T' & C' & L')]]; [constructor; auto| |].
    - constructor; rewrite ?S', ?C'; auto. intros u e a X H. destruct (Nat.eq_dec u t) as [->|N]; [rewrite put_eq in X; inversion X; subst; rewrite first_free in H; discriminate|rewrite put_neq in X by auto; eauto].
    - pose proof (exec_lock a (shared c) E) as (L1 & L2 & L3). destruct (holds a) eqn:Ha.
      + assert (Lk : locked (shared c) = true) by (apply (s_lock Hs); eauto). pose proof (@exec_half a (shared c) s n (s_data Hs) (s_times Hs) Ha (s_knows Hs _ C) (A1 _ _ _ C Ha) E) as X.
        constructor; rewrite ?S', ?C'.
        * intros u e a' Y H. destruct (Nat.eq_dec u t) as [->|N].
          -- rewrite put_eq in Y. destruct n as [a3| |]; try discriminate. injection Y as <- <-. rewrite H in X. auto.
          -- exfalso. rewrite put_neq in Y by auto. apply N. eapply (s_one Hs); eauto.
        * rewrite (L1 eq_refl Lk). intros F. destruct n as [a3| |]; auto. simpl in F. rewrite F in X. auto.
      + assert (T : times s = times (shared c)) by (eapply exec_times; eauto). pose proof (fun k => @exec_less a (shared c) s n k (s_data Hs) Ha E) as D.
        constructor; rewrite ?S', ?C'.
        * intros u e a' Y H. destruct (Nat.eq_dec u t) as [->|N].
          -- rewrite put_eq in Y. destruct n as [a3| |]; try discriminate. injection Y as <- <-. destruct (L2 eq_refl H) as [F _]. eapply exec_half_enter; eauto.
          -- rewrite put_neq in Y by auto. intros k O. rewrite T. intros Q. apply D. eapply A1; eauto.
        * intros F. destruct (held_after n) eqn:Hn; [destruct (L2 eq_refl eq_refl); congruence|]. intros k. rewrite T. intros Q. apply D. apply A2; auto. rewrite <- L3; auto.
  Qed.
  Lemma within_run programs schedule : within_times (exp_run eqb timeout (exp_start programs) schedule).
  Proof.
    assert (H : sound (exp_run eqb timeout (exp_start programs) schedule) /\ within_times (exp_run eqb timeout (exp_start programs) schedule)); [|tauto].
    unfold exp_run. apply run_inv with (P := fun c => sound c /\ within_times c).
    - split; [apply (sound_run programs [])|]. constructor; simpl; try discriminate. intros _ k. auto.
    - intros c t [A B]. split; [apply sound_step; auto|apply within_step; auto].
  Qed.
  Lemma oldest_least (l : dict K Z) : match oldest l with Some (_, ts) => forall k' ts', In (k', ts') l -> ts <= ts' | None => l = [] end.
  Proof.
    induction l as [|[k0 t0] l IH]; simpl; auto. destruct (oldest l) as [[k1 t1]|].
    - destruct (t1 <? t0) eqn:Q; [apply Z.ltb_lt in Q|apply Z.ltb_ge in Q]; intros k' ts' [I|I]; try (inversion I; subst; lia); apply IH in I; lia.
    - subst. intros k' ts' [I|[]]. inversion I; subst. lia.
  Qed.
  Definition since (b : Z) (a : code K V) : Prop := match a with CLoop _ now | CDel _ now _ => b <= now | _ => True end.
  Lemma exec_since b a s s' a' : exec a s = (s', Next a') -> b <= clock s -> since b a -> since b a'.
  Proof. destruct a; simpl; intros E C S; split_exec; simpl; auto; try discriminate. Qed.
  Definition stage (b : Z) (t : nat) (d : call K V) (l : list (call K V)) (c : cfg) : Prop :=
    b <= clock (shared c) /\
    ((current c t = None /\ todo c t = d :: l) \/ (todo c t = l /\ exists a, current c t = Some (d, a) /\ since b a) \/ (todo c t = l /\ current c t = None) \/
     (length (todo c t) < length l)%nat).
  Lemma stage_step b t d l c u : stage b t d l c -> stage b t d l (step c u).
  Proof.
    intros [B S]. pose proof (step_clock c u) as M. split; [lia|].
    destruct (step_cases c u) as [->|[(d' & r & C & T & S' & C' & L' & T')|(d' & a & s & n & C & E & S' & T' & C' & L')]]; auto; rewrite C', T'.
    - destruct (Nat.eq_dec t u) as [->|N]; [rewrite !put_eq|rewrite !put_neq by auto; auto].
      destruct S as [[S1 S2]|[[S1 (a & S2 & _)]|[[S1 S2]|S1]]]; try congruence.
      + right. left. assert (d' = d /\ r = l) as [-> ->] by (rewrite S2 in T; inversion T; auto). split; auto. exists (first d). split; auto. destruct d; simpl; auto.
      + right. right. right. rewrite T in S1. subst. simpl. lia.
      + right. right. right. rewrite T in S1. simpl in S1. lia.
    - destruct (Nat.eq_dec t u) as [->|N]; [rewrite !put_eq|rewrite !put_neq by auto; auto].
      destruct S as [[S1 S2]|[[S1 (a1 & S2 & S3)]|[[S1 S2]|S1]]]; try congruence; auto.
      rewrite C in S2. inversion S2; subst d' a1. destruct n as [a'| |]; auto. right. left. split; auto. exists a'. split; auto. eapply exec_since; eauto.
  Qed.
  Lemma cleaned c0 after t l : sound (exp_run eqb timeout c0 after) -> within_times (exp_run eqb timeout c0 after) -> within_times (exp_run eqb timeout (exp_run eqb timeout c0 after) [t]) ->
    current c0 t = None -> todo c0 t = Cleanup :: l -> todo (exp_run eqb timeout c0 after) t = l ->
    let c := exp_run eqb timeout c0 after in let c' := exp_run eqb timeout c [t] in
    log c' = log c ++ [(Cleanup, Ok Nothing)] -> forall k v, dget eqb (data (shared c')) k = Some v -> exists ts, dget eqb (times (shared c')) k = Some ts /\ clock (shared c0) <= ts.
  Proof.
    intros Hs Hw Hw' C0 T0 T. cbv zeta. intros Lg k v G. assert (S : stage (clock (shared c0)) t Cleanup l (exp_run eqb timeout c0 after)).
    { unfold exp_run. apply run_inv with (P := stage (clock (shared c0)) t Cleanup l); [split; [lia|auto]|intros; apply stage_step; auto]. }
    destruct S as [_ S]. rewrite T in S. set (c := exp_run eqb timeout c0 after) in *. change (exp_run eqb timeout c [t]) with (step c t) in *.
    destruct (step_cases c t) as [Q|[(d' & r & C & T1 & S' & C' & L' & T')|(d' & a & s & n & C & E & S' & T' & C' & L')]].
    - rewrite Q in Lg. apply (f_equal (@length _)) in Lg. rewrite app_length in Lg. simpl in Lg. lia.
    - rewrite L' in Lg. apply (f_equal (@length _)) in Lg. rewrite app_length in Lg. simpl in Lg. lia.
    - rewrite L' in Lg. apply app_inv_head in Lg. destruct n as [|r|]; try discriminate. inversion Lg; subst d' r.
      destruct S as [[S1 S2]|[[_ (a1 & S2 & S3)]|[[_ S2]|S1]]]; [congruence| |congruence|lia]. rewrite C in S2. inversion S2; subst a1. clear S2.
      pose proof (s_call Hs _ C) as D. pose proof (w_out Hw') as W'. rewrite S' in G, W' |- *. clear S' C' T' L' Lg Hw'. pose proof (oldest_least (times (shared c))) as O.
      destruct a; simpl in D; try discriminate; try (destruct w; discriminate); simpl in E; destruct w; try discriminate; split_exec; try discriminate;
        simpl in S3; specialize (W' eq_refl k); simpl in *.
      + apply Z.ltb_ge in Heqb. destruct (dget eqb (times (shared c)) k) as [ts|] eqn:Q; [|rewrite W' in G by auto; discriminate].
        exists ts. split; auto. apply (dget_In ok) in Q. apply O in Q. lia.
      + rewrite O in W'. rewrite W' in G; auto. discriminate.
  Qed.
  Lemma old_alone (c : cfg) t k l : current c t = None -> todo c t = Get k :: l -> old eqb (shared c) k -> log (exp_run eqb timeout c [t; t; t; t]) = log c ++ [(Get k, Err KeyError)].
  Proof.
    intros C T (ts & R2 & R3). apply Z.ltb_lt in R3. unfold exp_run, run. cbn [fold_left].
    unfold turn at 4. rewrite C, T. unfold turn at 3. cbn [current shared todo log]. rewrite put_eq. cbn [first ExpThr_Model.exec]. rewrite R2.
    unfold turn at 2. cbn [current shared todo log]. rewrite put_eq. cbn [ExpThr_Model.exec]. rewrite R3.
    unfold turn. cbn [current shared todo log]. rewrite put_eq. cbn [ExpThr_Model.exec]. auto.
  Qed.
  Lemma in_alone (c : cfg) t k v l : current c t = None -> todo c t = In_ k :: l -> readable eqb (shared c) k v -> log (exp_run eqb timeout c [t; t; t]) = log c ++ [(In_ k, Ok (Bool true))].
  Proof.
    intros C T [R1 (ts & R2 & R3)]. apply Z.ltb_ge in R3. unfold exp_run, run. cbn [fold_left].
    unfold turn at 3. rewrite C, T. unfold turn at 2. cbn [current shared todo log]. rewrite put_eq. cbn [first ExpThr_Model.exec]. rewrite R2.
    unfold turn. cbn [current shared todo log]. rewrite put_eq. cbn [ExpThr_Model.exec]. rewrite R3. auto.
  Qed.
  Lemma out_alone (c : cfg) t k l : current c t = None -> todo c t = In_ k :: l -> dget eqb (times (shared c)) k = None -> log (exp_run eqb timeout c [t; t]) = log c ++ [(In_ k, Ok (Bool false))].
  Proof.
    intros C T R2. unfold exp_run, run. cbn [fold_left].
    unfold turn at 2. rewrite C, T. unfold turn. cbn [current shared todo log]. rewrite put_eq. cbn [first ExpThr_Model.exec]. rewrite R2. auto.
  Qed.
  Lemma drop_alone (c : cfg) t k v l : current c t = None -> todo c t = In_ k :: l -> locked (shared c) = false -> old eqb (shared c) k -> dget eqb (data (shared c)) k = Some v ->
    log (exp_run eqb timeout c [t; t; t; t; t; t]) = log c ++ [(In_ k, Ok (Bool false))].
  Proof.
    intros C T Lk (ts & R2 & R3) R1. apply Z.ltb_lt in R3. unfold exp_run, run. cbn [fold_left].
    unfold turn at 6. rewrite C, T. unfold turn at 5. cbn [current shared todo log]. rewrite put_eq. cbn [first ExpThr_Model.exec]. rewrite R2.
    unfold turn at 4. cbn [current shared todo log]. rewrite put_eq. cbn [ExpThr_Model.exec]. rewrite R3.
    unfold turn at 3. cbn [current shared todo log]. rewrite put_eq. cbn [ExpThr_Model.exec]. rewrite Lk.
    unfold turn at 2. cbn [current shared todo log]. rewrite put_eq. cbn [ExpThr_Model.exec set_lock times]. unfold dmem at 1. rewrite R2.
    unfold turn. cbn [current shared todo log]. rewrite put_eq. cbn [ExpThr_Model.exec set_lock set_times times data]. unfold dmem. rewrite R1. auto.
  Qed.

  (** ** every call can end *)
  Definition rank (a : code K V) (s : state) : nat :=
    match a with
    | GTime _ => 3 | GNow _ _ => 2 | GDrop _ | GRead _ => 1
    | SLock _ _ => 5 | SNow _ _ => 4 | SPop _ _ _ => 3 | SPush _ _ _ => 2 | SData _ _ => 1
    | DLock _ _ => 3 | DPop _ _ => 2 | DData _ _ => 1
    | ITime _ => 5 | INow _ _ => 4
    | CLock _ => 2 * length (times s) + 4 | CNow _ => 2 * length (times s) + 3 | CLoop _ _ => 2 * length (times s) + 2 | CDel _ _ _ => 2 * length (times s) + 3
    | LLen | TTick _ => 1
    end.
  Lemma exec_rank a s s' a' : exec a s = (s', Next a') -> holds a = true \/ locked s = false -> (rank a' s' < rank a s)%nat.
  Proof.
    intros E H. destruct a; simpl in E; split_exec; simpl; try discriminate; try lia; try (destruct H; discriminate).
    apply oldest_in in Heqo. rewrite (ddel_length ok); [|apply (in_map fst) in Heqo; auto]. assert (0 < length (times s))%nat by (destruct (times s); simpl; [destruct Heqo|lia]). lia.
  Qed.
  (* thread [t] alone ends what it is at *)
  Lemma thread_ends n : forall (c : cfg) t d a, sound c -> current c t = Some (d, a) -> (rank a (shared c) < n)%nat -> holds a = true \/ locked (shared c) = false ->
    exists m, let c' := exp_run eqb timeout c (repeat t m) in current c' t = None /\ (forall u, u <> t -> current c' u = current c u) /\ todo c' = todo c /\ locked (shared c') = false.
  Proof.
    induction n as [|n IH]; intros c t d a Hs C R H; [lia|]. pose proof (sound_step t Hs) as Hs'.
    destruct (step_cases c t) as [Q|[(d' & r & C2 & _)|(d' & a' & s & nx & C2 & E & S' & T' & C' & L')]]; [|congruence|].
    - exfalso. unfold turn in Q. rewrite C in Q. destruct (exec a (shared c)) as [s nx] eqn:E. destruct nx as [a1|r|e].
      + assert (X : current c t = Some (d, a1)) by (rewrite <- Q; simpl; apply put_eq). assert (Y : shared c = s) by (rewrite <- Q; auto). rewrite C in X. inversion X; subst a1.
        pose proof (exec_rank _ _ E H). subst s. lia.
      + assert (X : current c t = None) by (rewrite <- Q; simpl; apply put_eq). congruence.
      + assert (X : current c t = None) by (rewrite <- Q; simpl; apply put_eq). congruence.
    - rewrite C in C2. inversion C2; subst d' a'. pose proof (exec_lock a (shared c) E) as (L1 & L2 & L3).
      assert (Lk : held_after nx = true \/ locked (shared (step c t)) = false).
      { rewrite S'. destruct (held_after nx) eqn:Hn; auto. right. destruct (holds a) eqn:Ha; [apply L1; auto; apply (s_lock Hs); eauto|]. rewrite L3; auto. destruct H; [discriminate|auto]. }
      destruct nx as [a1|r|e].
      + assert (X : current (step c t) t = Some (d, a1)) by (rewrite C'; apply put_eq). assert (Rk : (rank a1 (shared (step c t)) < n)%nat) by (rewrite S'; pose proof (exec_rank _ _ E H); lia).
        destruct (IH (step c t) t d a1 Hs' X Rk Lk) as (m & M1 & M2 & M3 & M4). exists (S m). simpl. change (exp_run eqb timeout c (t :: repeat t m)) with (exp_run eqb timeout (step c t) (repeat t m)). split; auto.
        split; [|split; auto; congruence]. intros u N. rewrite M2 by auto. rewrite C'. apply put_neq. auto.
      + exists 1%nat. simpl. change (exp_run eqb timeout c [t]) with (step c t). rewrite C', T'. split; [apply put_eq|]. split; [intros; apply put_neq; auto|]. split; auto. destruct Lk; [discriminate|auto].
      + exists 1%nat. simpl. change (exp_run eqb timeout c [t]) with (step c t). rewrite C', T'. split; [apply put_eq|]. split; [intros; apply put_neq; auto|]. split; auto. destruct Lk; [discriminate|auto].
  Qed.
  Lemma sound_on c schedule : sound c -> sound (exp_run eqb timeout c schedule).
  Proof. intros H. unfold exp_run. apply run_inv with (P := sound); [auto|intros; apply sound_step; auto]. Qed.
  Lemma run_run (c : cfg) l m : exp_run eqb timeout c (l ++ m) = exp_run eqb timeout (exp_run eqb timeout c l) m.
  Proof. unfold exp_run, run. apply fold_left_app. Qed.
  Lemma call_done c t : sound c -> locked (shared c) = false ->
    exists l, let c' := exp_run eqb timeout c l in current c' t = None /\ (forall u, u <> t -> current c' u = current c u) /\ todo c' = todo c /\ locked (shared c') = false.
  Proof.
    intros H L. destruct (current c t) as [[d a]|] eqn:C.
    - destruct (thread_ends t H C (Nat.lt_succ_diag_r _)) as (m & M); auto. exists (repeat t m). auto.
    - exists []. simpl. auto.
  Qed.
  Lemma thread_done n : forall c t, sound c -> locked (shared c) = false -> length (todo c t) = n ->
    exists l, let c' := exp_run eqb timeout c l in current c' t = None /\ todo c' t = [] /\ (forall u, u <> t -> current c' u = current c u /\ todo c' u = todo c u) /\ locked (shared c') = false.
  Proof.
    induction n as [|n IH]; intros c t H L N; destruct (call_done t H L) as (l & C1 & C2 & C3 & C4).
    - exists l. simpl. split; auto. rewrite C3. destruct (todo c t); [|discriminate]. auto.
    - pose (c1 := exp_run eqb timeout c l). fold c1 in C1, C2, C3, C4. destruct (todo c t) as [|d r] eqn:T; [discriminate|].
      assert (Hs : sound c1) by (apply sound_on; auto).
      destruct (step_cases c1 t) as [Q|[(d' & r' & D1 & D2 & D3 & D4 & D5 & D6)|(d' & a & s & nx & D1 & _)]]; [| |congruence].
      + exfalso. unfold turn in Q. rewrite C1, C3, T in Q. apply (f_equal (fun c : cfg => todo c t)) in Q. simpl in Q. rewrite put_eq, C3, T in Q. apply (f_equal (@length _)) in Q. simpl in Q. lia.
      + rewrite C3, T in D2. inversion D2; subst d' r'. destruct (IH (step c1 t) t) as (m & M1 & M2 & M3 & M4).
        * apply sound_step. auto.
        * rewrite D3. auto.
        * rewrite D6, put_eq. simpl in N. lia.
        * exists (l ++ t :: m). simpl. rewrite run_run. fold c1. change (exp_run eqb timeout c1 (t :: m)) with (exp_run eqb timeout (step c1 t) m). split; auto. split; auto. split; auto.
          intros u Nu. destruct (M3 u Nu) as [X Y]. rewrite X, Y, D4, D6, !put_neq by auto. rewrite C2, C3 by auto. auto.
  Qed.
  Lemma all_done n : forall c, sound c -> locked (shared c) = false ->
    exists l, let c' := exp_run eqb timeout c l in (forall t, (t < n)%nat -> current c' t = None /\ todo c' t = []) /\ (forall u, (n <= u)%nat -> current c' u = current c u /\ todo c' u = todo c u) /\ locked (shared c') = false.
  Proof.
    induction n as [|n IH]; intros c H L.
    - exists []. simpl. split; [intros; lia|auto].
    - destruct (IH c H L) as (l & A & B & D). pose (c1 := exp_run eqb timeout c l). fold c1 in A, B, D. assert (Hs : sound c1) by (apply sound_on; auto).
      destruct (thread_done n Hs D eq_refl) as (m & M1 & M2 & M3 & M4). exists (l ++ m). simpl. rewrite run_run. fold c1. split; [|split; auto].
      + intros t Lt. destruct (Nat.eq_dec t n) as [->|N]; auto. destruct (M3 t N) as [X Y]. rewrite X, Y. apply A. lia.
      + intros u Lu. destruct (M3 u) as [X Y]; [lia|]. rewrite X, Y. apply B. lia.
  Qed.
  Lemma below_run n (programs : nat -> list (call K V)) schedule : threads_below n programs -> let c := exp_run eqb timeout (exp_start programs) schedule in forall t, (n <= t)%nat -> current c t = None /\ todo c t = [].
  Proof.
    intros B. unfold exp_run. apply run_inv with (P := fun c => forall t, (n <= t)%nat -> current c t = None /\ todo c t = []).
    - intros t L. simpl. split; auto.
    - intros c u H t L. destruct (step_cases c u) as [->|[(d & r & C & T & S' & C' & L' & T')|(d & a & s & nx & C & E & S' & T' & C' & L')]]; auto; rewrite C', T'; (destruct (Nat.eq_dec t u) as [->|N]; [destruct (H u L); congruence|rewrite !put_neq by auto; auto]).
  Qed.
  Lemma can_finish n (programs : nat -> list (call K V)) schedule : threads_below n programs -> exists l, finished (exp_run eqb timeout (exp_run eqb timeout (exp_start programs) schedule) l).
  Proof.
    intros B. pose (c := exp_run eqb timeout (exp_start programs) schedule). fold c. assert (H : sound c) by apply sound_run. pose proof (below_run schedule B) as W. fold c in W. simpl in W.
    assert (Q : exists l, let c' := exp_run eqb timeout c l in locked (shared c') = false /\ forall t, (n <= t)%nat -> current c' t = None /\ todo c' t = []).
    { destruct (locked (shared c)) eqn:L; [|exists []; simpl; auto]. apply (s_lock H) in L. destruct L as (t & d & a & C & Ha).
      destruct (thread_ends t H C (Nat.lt_succ_diag_r _)) as (m & M1 & M2 & M3 & M4); auto. exists (repeat t m). simpl. split; auto. intros u Lu. rewrite M3. destruct (W u Lu) as [X Y]. split; auto.
      destruct (Nat.eq_dec u t) as [->|N]; auto. rewrite M2; auto. }
    destruct Q as (l1 & L1 & W1). pose (c1 := exp_run eqb timeout c l1). fold c1 in L1, W1. assert (H1 : sound c1) by (apply sound_on; auto).
    destruct (all_done n H1 L1) as (l2 & A & B2 & _). exists (l1 ++ l2). rewrite run_run. fold c1. split; intros t.
    - destruct (Nat.lt_ge_cases t n) as [Lt|Ge]; [apply A; auto|]. destruct (B2 t Ge) as [X _]. rewrite X. apply W1. auto.
    - destruct (Nat.lt_ge_cases t n) as [Lt|Ge]; [apply A; auto|]. destruct (B2 t Ge) as [_ X]. rewrite X. apply W1. auto.
  Qed.
  (** ** len() that nobody disturbs *)
  Definition likewise (s0 s : exp_state K V) : Prop := clock s = clock s0 /\ dwf (data s) /\ dwf (times s) /\ forall k v, readable eqb s k v <-> readable eqb s0 k v.
  Definition counting (s0 : exp_state K V) (a : code K V) (s : exp_state K V) : Prop :=
    match a with
    | CLock ForLen | CNow ForLen => likewise s0 s /\ covered s
    | CLoop ForLen now => now = clock s0 /\ likewise s0 s /\ covered s
    | CDel ForLen now k => now = clock s0 /\ likewise s0 s /\ dget eqb (times s) k = None /\ forall k', k' <> k -> dget eqb (times s) k' = None -> dget eqb (data s) k' = None
    | LLen => likewise s0 s /\ covered s /\ forall k ts, dget eqb (times s) k = Some ts -> clock s0 <= ts
    | _ => False
    end.
  Lemma counting_step s0 a s : counting s0 a s ->
    match exec a s with
    | (s', Next a') => counting s0 a' s'
    | (_, Returned r) => exists keys, NoDup keys /\ (forall k, In k keys <-> exists v, readable eqb s0 k v) /\ r = Num (length keys)
    | (_, Raised e) => e = KeyError
    end.
  Proof.
    intros M. destruct a; simpl in M; try destruct M; try (destruct w; [destruct M|]); cbn.
    - destruct (locked s); simpl; auto.
    - destruct M as (M & Cv). split; auto. apply M.
    - destruct M as (-> & (M1 & M2 & M3 & M4) & Cv). pose proof (oldest_least (times s)) as O. pose proof (oldest_in (times s)) as I. destruct (oldest (times s)) as [[k ts]|].
      + specialize (I _ _ eq_refl). apply (In_dget ok _ _ M3) in I. destruct (ts <? clock s0) eqn:Q.
        * apply Z.ltb_lt in Q. simpl. split; auto. split; [|split].
          -- split; auto. split; auto. split; [simpl; apply (@ddel_wf _ _ eqb); auto|]. intros k' v. rewrite <- M4. unfold readable. simpl. destruct (keq_dec k k') as [<-|N].
             ++ rewrite (dget_ddel_eq ok) by auto. split; [intros (_ & t' & X & _); discriminate|]. intros (_ & t' & X & Y). rewrite I in X. injection X as <-. lia.
             ++ rewrite (dget_ddel_neq ok) by auto. tauto.
          -- apply (dget_ddel_eq ok). auto.
          -- intros k' N X. rewrite (dget_ddel_neq ok) in X by auto. auto.
        * apply Z.ltb_ge in Q. simpl. split; [|split; auto].
          -- split; auto.
          -- intros k' ts' X. apply (dget_In ok) in X. apply O in X. lia.
      + simpl. split; [split; auto|]. split; [exact Cv|]. intros k ts X. simpl in X. rewrite O in X. discriminate.
    - destruct M as (-> & (M1 & M2 & M3 & M4) & N & Cv). destruct (dmem eqb (data s) k) eqn:D; [|auto]. simpl. split; auto. split.
      + split; auto. split; [simpl; apply (@ddel_wf _ _ eqb); auto|]. split; auto. intros k' v. rewrite <- M4. unfold readable. simpl. destruct (keq_dec k k') as [<-|Ne].
        * rewrite (dget_ddel_eq ok) by auto. split; [intros (X & _); discriminate|]. intros (_ & t' & X & _). congruence.
        * rewrite (dget_ddel_neq ok) by auto. tauto.
      + intros k' X. simpl in *. destruct (keq_dec k k') as [<-|Ne]; [apply (dget_ddel_eq ok); auto|]. rewrite (dget_ddel_neq ok) by auto. auto.
    - destruct H as (M1 & M2 & M3 & M4). destruct H0 as (Cv & O). exists (dkeys (data s)). split; [apply M2|]. split; [|unfold dkeys; rewrite map_length; auto]. intros k. split.
      + intros I. destruct (dget_key_Some ok _ _ I) as (v & G). exists v. apply M4. split; auto. destruct (dget eqb (times s) k) as [ts|] eqn:X; [|rewrite (Cv k X) in G; discriminate]. exists ts. split; auto. rewrite M1. eauto.
      + intros (v & R). apply M4 in R. destruct R as (G & _). eapply (dget_Some_key ok); eauto.
  Qed.
  Lemma step_log (c : cfg) t : exists m, log (step c t) = log c ++ m.
  Proof. destruct (step_cases c t) as [->|[(d' & r & C & T & S' & C' & L' & T')|(d' & a & s & n & C & E & S' & T' & C' & L')]]; [exists []; rewrite app_nil_r; auto|exists []; rewrite app_nil_r; auto|eauto]. Qed.
  Definition still (c0 : cfg) t l (c : cfg) : Prop :=
    (exists m, log c = log c0 ++ m) /\
    (log c = log c0 -> (current c t = None /\ todo c t = Len :: l /\ shared c = shared c0) \/ exists a, current c t = Some (Len, a) /\ counting (shared c0) a (shared c)).
  Lemma still_step c0 t l c : counting (shared c0) (CLock ForLen) (shared c0) -> still c0 t l c -> still c0 t l (step c t).
  Proof.
    intros Z ((m & Lm) & H). destruct (step_log c t) as (m' & Lm'). split; [exists (m ++ m'); rewrite Lm', Lm, app_assoc; auto|]. intros Q.
    assert (Q' : log c = log c0).
    { rewrite Lm', Lm in Q. apply (f_equal (@length _)) in Q. rewrite !app_length in Q. destruct m; [rewrite Lm, app_nil_r; auto|simpl in Q; lia]. }
    specialize (H Q'). destruct (step_cases c t) as [E|[(d' & r & C & T & S' & C' & L' & T')|(d' & a & s & n & C & E & S' & T' & C' & L')]]; [rewrite E; auto| |].
    - destruct H as [(_ & T0 & S0)|(a & C0 & _)]; [|congruence]. rewrite T in T0. injection T0 as -> ->. right. exists (CLock ForLen). rewrite C', S', S0, put_eq. auto.
    - destruct H as [(C0 & _)|(a0 & C0 & M)]; [congruence|]. rewrite C in C0. injection C0 as -> ->. pose proof (counting_step _ _ _ M) as N. rewrite E in N. rewrite S', C', put_eq.
      destruct n as [a'| |]; [eauto| |]; exfalso; rewrite L', Q' in Q; apply (f_equal (@length _)) in Q; rewrite app_length in Q; simpl in Q; lia.
  Qed.
  Lemma len_alone (programs : nat -> list (call K V)) before t l m r : let c0 := exp_run eqb timeout (exp_start programs) before in let c := exp_run eqb timeout c0 (repeat t m) in
    locked (shared c0) = false -> current c0 t = None -> todo c0 t = Len :: l -> log c = log c0 -> log (exp_run eqb timeout c [t]) = log c0 ++ [(Len, r)] ->
    r = Err KeyError \/ exists keys, NoDup keys /\ (forall k, In k keys <-> exists v, readable eqb (shared c0) k v) /\ r = Ok (Num (length keys)).
  Proof.
    intros c0 c Lk C0 T0 Lc L. assert (Z : counting (shared c0) (CLock ForLen) (shared c0)).
    { pose proof (sound_run programs before) as Hs. fold c0 in Hs. split; [|apply (w_out (within_run programs before)); auto]. split; auto. split; [apply (s_data Hs)|]. split; [apply (s_times Hs)|]. intros. tauto. }
    assert (S : still c0 t l c).
    { unfold c. clear - Z C0 T0 ok. assert (S : still c0 t l c0) by (split; [exists []; rewrite app_nil_r; auto|auto]). revert S. generalize c0 at 2 4 as x. induction m as [|m IH]; intros x S; auto.
      simpl. change (exp_run eqb timeout x (t :: repeat t m)) with (exp_run eqb timeout (step x t) (repeat t m)). apply IH. apply still_step; auto. }
    destruct S as (_ & S). specialize (S Lc). change (exp_run eqb timeout c [t]) with (step c t) in L. rewrite <- Lc in L.
    destruct (step_cases c t) as [Q|[(d' & r' & C & T & S' & C' & L' & T')|(d' & a & s & n & C & E & S' & T' & C' & L')]].
    - rewrite Q in L. apply (f_equal (@length _)) in L. rewrite app_length in L. simpl in L. lia.
    - rewrite L' in L. apply (f_equal (@length _)) in L. rewrite app_length in L. simpl in L. lia.
    - destruct S as [(X & _)|(a0 & X & M)]; [congruence|]. rewrite C in X. injection X as -> ->. pose proof (counting_step _ _ _ M) as N. rewrite E in N. rewrite L' in L. apply app_inv_head in L.
      destruct n as [|r0|e]; [discriminate| |]; injection L as <-; [|subst; auto]. right. destruct N as (keys & N1 & N2 & ->). eauto.
  Qed.
  Lemma go (c : cfg) t d a s a' : current c t = Some (d, a) -> exec a (shared c) = (s, Next a') -> current (step c t) t = Some (d, a') /\ shared (step c t) = s /\ log (step c t) = log c.
  Proof. intros C E. unfold turn. rewrite C, E. simpl. rewrite put_eq. auto. Qed.
  Lemma come (c : cfg) t d a s r : current c t = Some (d, a) -> exec a (shared c) = (s, Returned r) -> shared (step c t) = s /\ log (step c t) = log c ++ [(d, Ok r)].
  Proof. intros C E. unfold turn. rewrite C, E. simpl. auto. Qed.
  Lemma set_alone (c : cfg) t k v l : current c t = None -> todo c t = Set_ k v :: l -> locked (shared c) = false ->
    exists m, let c' := exp_run eqb timeout c (repeat t m) in
    log c' = log c ++ [(Set_ k v, Ok Nothing)] /\ dget eqb (data (shared c')) k = Some v /\ dget eqb (times (shared c')) k = Some (clock (shared c) + timeout) /\ clock (shared c') = clock (shared c).
  Proof.
    intros C T L. set (s := shared c) in *. set (ts := clock s + timeout).
    assert (H1 : current (step c t) t = Some (Set_ k v, SLock k v) /\ shared (step c t) = s /\ log (step c t) = log c) by (unfold turn; rewrite C, T; simpl; rewrite put_eq; auto).
    remember (step c t) as c1 eqn:Q1. destruct H1 as (C1 & S1 & L1).
    destruct (@go c1 t _ _ (set_lock s true) (SNow k v) C1) as (C2 & S2 & L2); [simpl; rewrite S1, L; auto|]. remember (step c1 t) as c2 eqn:Q2.
    assert (X : exists m c3 d, c3 = exp_run eqb timeout c (repeat t m) /\ current c3 t = Some (Set_ k v, SPush k v ts) /\ shared c3 = set_times (set_lock s true) d /\ log c3 = log c).
    { destruct (dmem eqb (times s) k) eqn:D.
      - destruct (@go c2 t _ _ (set_lock s true) (SPop k v ts) C2) as (C3 & S3 & L3); [simpl; rewrite S2; simpl; rewrite D; auto|]. remember (step c2 t) as c3 eqn:Q3.
        destruct (@go c3 t _ _ (set_times (set_lock s true) (ddel eqb (times s) k)) (SPush k v ts) C3) as (C4 & S4 & L4); [simpl; rewrite S3; auto|].
        exists 4%nat, (step c3 t), (ddel eqb (times s) k). split; [subst c1 c2 c3; reflexivity|]. split; auto. split; auto. congruence.
      - destruct (@go c2 t _ _ (set_lock s true) (SPush k v ts) C2) as (C3 & S3 & L3); [simpl; rewrite S2; simpl; rewrite D; auto|].
        exists 3%nat, (step c2 t), (times s). split; [subst c1 c2; reflexivity|]. split; auto. split; [|congruence]. rewrite S3. destruct s. reflexivity. }
    destruct X as (m & c3 & d & Q3 & C3 & S3 & L3).
    destruct (@go c3 t _ _ (set_times (set_lock s true) (dset eqb d k ts)) (SData k v) C3) as (C4 & S4 & L4); [simpl; rewrite S3; auto|]. remember (step c3 t) as c4 eqn:Q4.
    destruct (@come c4 t _ _ (set_lock (set_data (set_times (set_lock s true) (dset eqb d k ts)) (dset eqb (data s) k v)) false) Nothing C4) as (S5 & L5); [simpl; rewrite S4; auto|].
    exists (m + 2)%nat. assert (E : exp_run eqb timeout c (repeat t (m + 2)) = step c4 t).
    { rewrite repeat_app. unfold exp_run, run. rewrite fold_left_app. subst c4 c3. reflexivity. }
    cbv zeta. rewrite E, S5, L5, L4, L3. simpl. rewrite !(dget_dset_eq ok). auto.
  Qed.
End ExpThrProofs.
