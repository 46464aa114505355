(** Proofs about LruThr_Model: whatever the schedule. *)
From Verif Require Import Prelude PreludeFacts MoreFacts MetrThr_Model MetrThr_Spec MetrThr_Proofs LruThr_Model LruThr_Spec LruThr_Proofs.
Set Implicit Arguments.

Section LruThrMore.
  Context {K V : Type}.
  Variable eqb : K -> K -> bool.
  Hypothesis ok : eqb_ok eqb.
  Variable max_size : nat.
  Variable getter : K -> option V.
  Notation cfg := (config (lru_state K V) (call K V) (code K V) (option V)).
  Notation exec := (exec eqb max_size getter).

  (** *** room for every key *)
  Section Small.
    Variable U : list K.
    Hypothesis fits : length U < max_size.
    Definition for_what (d : call K V) (p : purpose) : Prop := match d, p with Get _, Fetched | Set_ _ _, User | Feed _ _, Fed => True | _, _ => False end.
    Definition fine (d : call K V) (u : use (V := V)) (k : K) : Prop := In k U /\ match u with UseGet => d = Get k /\ getter k <> None | UseSet _ p => k = key d /\ for_what d p end.
    Definition bsmall (d : call K V) (a : code K V) (s : lru_state K V) : Prop :=
      match a with
      | CMark k u | CAdd k u => fine d u k
      | CMove k u => fine d u k /\ In k (lru s)
      | GIn k | GAsk k => d = Get k /\ In k U /\ getter k <> None
      | GStamp k => d = Get k /\ In k (dkeys (data s))
      | GRead k => d = Get k /\ In k (dkeys (data s)) /\ In k (stamps s)
      | FIn k v => d = Feed k v /\ In k U
      | SRoom k v p | SData k v p => In k U /\ k = key d /\ for_what d p
      | SStamp k v p => In k U /\ k = key d /\ for_what d p /\ In k (dkeys (data s))
      | SLru k v p => In k U /\ k = key d /\ for_what d p /\ In k (dkeys (data s)) /\ In k (stamps s) /\ p <> User
      | _ => False
      end.
    Definition jsmall (s : lru_state K V) : Prop := dwf (data s) /\ incl (dkeys (data s)) U.
    Definition grows (s s' : lru_state K V) : Prop := incl (dkeys (data s)) (dkeys (data s')) /\ incl (stamps s) (stamps s') /\ incl (lru s) (lru s').
    Definition rsmall (d : call K V) (r : res (option V)) (s : lru_state K V) : Prop :=
      In (key d) (dkeys (data s)) /\ match r with Ok _ => In (key d) (stamps s) | Err e => e = KeyError end /\
      match d with Get _ => r <> Ok None | _ => r = Ok None end.
    Lemma bsmall_grows d a s s' : grows s s' -> bsmall d a s -> bsmall d a s'.
    Proof. intros (G1 & G2 & G3). destruct a; simpl; auto; intuition. Qed.
    Lemma rsmall_grows d r s s' : grows s s' -> rsmall d r s -> rsmall d r s'.
    Proof. intros (G1 & G2 & G3) (H1 & H2 & H3). split; auto. split; auto. destruct r; auto. Qed.
    Lemma grows_refl s : grows s s.
    Proof. repeat split; apply incl_refl. Qed.
    Lemma in_added k l : In k (added eqb k l).
    Proof. unfold added. destruct (memb eqb k l) eqn:M; [apply (memb_In ok); auto|apply in_app_iff; simpl; auto]. Qed.
    Lemma incl_added k l : incl l (added eqb k l).
    Proof. unfold added. destruct (memb eqb k l); [apply incl_refl|apply incl_appl, incl_refl]. Qed.
    Lemma incl_moved k (l : list K) : incl l (remove_first eqb k l ++ [k]).
    Proof.
      intros x I. apply in_app_iff. destruct (eqb x k) eqn:E; [apply ok in E; subst; simpl; auto|]. left. induction l as [|y l IH]; simpl in *; auto.
      destruct (eqb y k) eqn:Ey; simpl; [|destruct I; auto]. destruct I as [->|I]; auto. congruence.
    Qed.
    Lemma keys_dset k v (d : dict K V) x : In x (dkeys (dset eqb d k v)) <-> In x (dkeys d) \/ x = k.
    Proof.
      unfold dkeys. induction d as [|[y w] d IH]; simpl; [intuition|]. destruct (eqb y k) eqn:E; simpl; [apply ok in E; subst; intuition|].
      rewrite IH. intuition.
    Qed.
    Lemma small_step d a s : jsmall s -> bsmall d a s ->
      grows s (fst (exec a s)) /\ jsmall (fst (exec a s)) /\
      match exec a s with
      | (s', Next a') => bsmall d a' s'
      | (s', Returned r) => rsmall d (Ok r) s'
      | (s', Raised e) => rsmall d (Err e) s'
      end.
    Proof.
      intros [W I] Ba. destruct a; simpl in Ba; try tauto; simpl.
      - split; [apply grows_refl|]. split; [split; auto|]. destruct (memb eqb k (lru s)) eqn:M; simpl; auto. split; auto. apply (memb_In ok). auto.
      - destruct Ba as [Ba M]. rewrite (proj2 (memb_In ok k (lru s)) M). simpl. split; [repeat split; simpl; auto using incl_refl, incl_moved|]. split; [split; auto|].
        destruct Ba as [Ba1 Ba2]. destruct u; simpl; intuition.
      - split; [repeat split; simpl; auto using incl_refl, incl_added|]. split; [split; auto|]. destruct Ba as [Ba1 Ba2]. destruct u; simpl; intuition.
      - split; [apply grows_refl|]. split; [split; auto|]. destruct (dmem eqb (data s) k) eqn:M; simpl; auto. split; [tauto|]. apply (dmem_In ok). auto.
      - split; [apply grows_refl|]. split; [split; auto|]. destruct Ba as [-> Ba]. destruct (memb eqb k (stamps s)) eqn:M; simpl; [apply (memb_In ok) in M; auto|]. split; auto. split; auto. discriminate.
      - split; [apply grows_refl|]. split; [split; auto|]. destruct Ba as (-> & Ba & St). destruct (dget eqb (data s) k) as [v|] eqn:D; [split; auto; split; auto; discriminate|]. apply (dget_None ok) in D. tauto.
      - split; [apply grows_refl|]. split; [split; auto|]. destruct Ba as (-> & Ba & G). destruct (getter k); [|tauto]. simpl. auto.
      - split; [apply grows_refl|]. split; [split; auto|]. destruct Ba as (-> & Ba). destruct (dmem eqb (data s) k); simpl; auto.
      - split; [apply grows_refl|]. split; [split; auto|]. assert (L : length (data s) <= length U).
        { rewrite <- (map_length fst). apply NoDup_incl_length; auto. }
        destruct (Nat.leb_spec max_size (length (data s))); [lia|]. destruct p; simpl; unfold fine; tauto.
      - destruct Ba as (B1 & B2 & B3). split; [repeat split; simpl; auto using incl_refl; intros x X; apply keys_dset; auto|]. split.
        + split; simpl; [apply (dset_wf ok); auto|]. intros x X. apply keys_dset in X. destruct X as [X| ->]; auto.
        + split; auto. split; auto. split; auto. apply keys_dset. auto.
      - destruct Ba as (B1 & B2 & B3 & B4). split; [repeat split; simpl; auto using incl_refl, incl_added|]. split; [split; auto|].
        pose proof (in_added k (stamps s)) as Ia. destruct p; simpl; [|intuition discriminate|intuition discriminate]. subst k. split; auto. split; auto. destruct d; simpl in *; tauto.
      - destruct Ba as (B1 & B2 & B3 & B4 & B5 & B6). split; [repeat split; simpl; auto using incl_refl, incl_added|]. split; [split; auto|].
        subst k. split; auto. split; auto. destruct d; destruct p; simpl in *; try tauto. discriminate.
    Qed.
    Definition asmall (d : call K V) : Prop := keeps getter d /\ In (key d) U.
    Lemma small_fst d s : jsmall s -> asmall d -> bsmall d (first d) s.
    Proof. intros _ [A1 A2]. destruct d; simpl in *; unfold fine; tauto. Qed.
    Lemma small_all programs schedule : (forall t d, In d (programs t) -> asmall d) ->
      every asmall bsmall jsmall rsmall [] (lru_run eqb max_size getter (lru_start programs) schedule).
    Proof.
      intros H. apply every_run; auto.
      - apply small_fst.
      - intros d a s J B. destruct (small_step d a J B) as (_ & S1 & S2). destruct (exec a s) as [s' [a'|r|e]]; auto.
      - intros d a d' a' s J B B'. eapply bsmall_grows; [|exact B']. apply (small_step d a J B).
      - intros d a d' r s J B R. eapply rsmall_grows; [|exact R]. apply (small_step d a J B).
      - split; [constructor|]. intros x [].
    Qed.
    Lemma small_kept programs before d x : (forall t d, In d (programs t) -> asmall d) -> 
      let c := lru_run eqb max_size getter (lru_start programs) before in
      In (d, Ok x) (log c) -> forall schedule, exists l, log (lru_run eqb max_size getter c schedule) = log c ++ l /\
        forall r, In (Get (key d), r) l -> exists v, r = Ok (Some v).
    Proof.
      intros H c I schedule. destruct (small_all programs before H) as (J & A & B & l & L & R). fold c in J, A, B, L, R. simpl in L. rewrite L in I. destruct (R _ _ I) as (R1 & R2 & _).
      pose (J2 := fun s => jsmall s /\ In (key d) (dkeys (data s)) /\ In (key d) (stamps s)).
      pose (R2' := fun (d' : call K V) (r : res (option V)) (s : lru_state K V) => d' = Get (key d) -> exists v, r = Ok (Some v)).
      destruct (@every_on _ _ eqb max_size getter asmall bsmall J2 R2') with (l0 := log c) (c := c) (schedule := schedule) as (_ & _ & _ & l' & L' & R').
      - intros d' s [Js _]. apply small_fst. auto.
      - intros d' a s (Js & K1 & K2) Bs. destruct (small_step d' a Js Bs) as ((G1 & G2 & G3) & S1 & S2). unfold J2, R2'.
        destruct (exec a s) as [s' [a'|r|e]] eqn:E; simpl in *; (split; [split; auto|auto]).
        + intros ->. destruct S2 as (_ & _ & S2). destruct r; [eauto|tauto].
        + intros ->. exfalso. destruct a; simpl in E, Bs; repeat match type of E with context [if ?b then _ else _] => destruct b eqn:? end; inversion E; subst; try tauto.
          * destruct Bs as [_ Bs]. apply (memb_In ok) in Bs. congruence.
          * destruct Bs as [Bs _]. inversion Bs; subst. apply (memb_In ok) in K2. congruence.
          * destruct Bs as (Bs & _). inversion Bs; subst. destruct (dget eqb (data s') (key d)) eqn:D; [discriminate|]. apply (dget_None ok) in D. tauto.
          * destruct (getter k); discriminate.
          * destruct p; discriminate.
      - intros d1 a d' a' s (Js & _) B1 B'. eapply bsmall_grows; [|exact B']. apply (small_step d1 a Js B1).
      - auto.
      - split; [split; auto|]. split; auto. split; auto. exists []. split; [rewrite app_nil_r; auto|]. intros d' r [].
      - exists l'. split; auto. intros r Ir. apply (R' _ _ Ir eq_refl).
    Qed.
  End Small.

  (** *** how many elements *)
  Hypothesis some : 1 <= max_size.
  Definition pending (a : code K V) : list K := match a with CMark k (UseSet _ _) | CMove k (UseSet _ _) | CAdd k (UseSet _ _) | SData k _ _ => [k] | _ => [] end.
  Definition pending_of (x : option (call K V * code K V)) : list K := match x with Some (_, a) => pending a | None => [] end.
  Definition room_for (n : nat) (c : cfg) : Prop :=
    dwf (data (shared c)) /\ (forall t, n <= t -> current c t = None /\ todo c t = []) /\
    exists L, length L <= max_size - 1 + n /\ incl (dkeys (data (shared c))) L /\ forall t, incl (pending_of (current c t)) L.
  Lemma pending_le a : length (pending a) <= 1.
  Proof. destruct a; simpl; auto; destruct u; simpl; auto. Qed.
  Lemma pending_length (f : nat -> option (call K V * code K V)) l : length (flat_map (fun t => pending_of (f t)) l) <= length l.
  Proof. induction l as [|x l IH]; simpl; auto. rewrite app_length. destruct (f x) as [[d a]|]; simpl; [pose proof (pending_le a)|]; lia. Qed.
  Lemma keys_ddel k (d : dict K V) : incl (dkeys (ddel eqb d k)) (dkeys d).
  Proof. unfold dkeys. induction d as [|[y w] d IH]; simpl; [apply incl_refl|]. destruct (eqb y k); simpl; [apply incl_tl, incl_refl|]. intros x [->|X]; simpl; auto. Qed.
  Lemma room_step a s L : dwf (data s) -> incl (dkeys (data s)) L -> incl (pending a) L ->
    let s' := fst (exec a s) in dwf (data s') /\ incl (dkeys (data s')) L /\
    match snd (exec a s) with Next a' => incl (pending a') L \/ data s' = data s /\ length (data s) <= max_size - 1 | _ => True end.
  Proof.
    intros W I P. destruct a; simpl in *.
    - split; auto. split; auto. left. destruct (memb eqb k (lru s)); destruct u; simpl; auto.
    - destruct (memb eqb k (lru s)); simpl; (split; auto; split; auto). left. destruct u; simpl; auto; intros x [].
    - split; auto. split; auto. left. destruct u; simpl; auto; intros x [].
    - split; auto. split; auto. left. destruct (dmem eqb (data s) k); intros x [].
    - split; auto. split; auto. destruct (memb eqb k (stamps s)); auto.
    - split; auto. split; auto. destruct (dget eqb (data s) k); auto.
    - split; auto. split; auto. destruct (getter k); left; intros x [].
    - split; auto. split; auto. destruct (dmem eqb (data s) k) eqn:D; left; simpl; [|intros x []]. intros x [<-|[]]. apply I. apply (dmem_In ok). auto.
    - split; auto. split; auto. destruct (Nat.leb_spec max_size (length (data s))) as [F|F]; [left; intros x []|right; split; auto; lia].
    - destruct (lru s); simpl; (split; auto; split; auto; left; intros x []).
    - split; [apply (dset_wf ok); auto|]. split; [|left; intros x []]. intros x X. apply keys_dset in X; auto. destruct X as [X| ->]; auto. apply P. left. auto.
    - split; auto. split; auto. destruct p; auto; left; intros x [].
    - auto.
    - destruct (dmem eqb (data s) k); simpl; [split; [apply (@ddel_wf _ _ eqb); auto|]; split; [intros x X; apply keys_ddel in X; auto|left; intros x []]|].
      split; auto. split; auto. destruct r; simpl; auto; left; intros x [].
    - destruct (memb eqb k (stamps s)); simpl; (split; auto; split; auto); destruct r; simpl; auto; left; intros x [].
    - destruct (memb eqb k (lru s)); simpl; (split; auto; split; auto); destruct r; simpl; auto; left; intros x [].
    - split; auto. split; auto. destruct r; simpl; auto; left; intros x [].
  Qed.
  Lemma room_turn n (c : cfg) t : room_for n c -> room_for n (turn (@first K V) exec c t).
  Proof.
    intros (W & T & L & L1 & L2 & L3). unfold turn. destruct (current c t) as [[d a]|] eqn:E.
    - assert (Lt : t < n) by (destruct (Nat.lt_ge_cases t n) as [|G]; auto; destruct (T t G); congruence).
      pose proof (L3 t) as P. rewrite E in P. simpl in P. destruct (room_step a (shared c) W L2 P) as (S1 & S2 & S3).
      destruct (exec a (shared c)) as [s [a'|r|e]]; simpl in *.
      + split; auto. split; [simpl; intros u G; rewrite put_neq by lia; auto|]. simpl. destruct S3 as [S3|[S3 S4]].
        * exists L. split; auto. split; auto. intros u. destruct (Nat.eq_dec u t) as [->|U]; [rewrite put_eq; auto|rewrite put_neq; auto].
        * exists (dkeys (data s) ++ flat_map (fun u => pending_of (put (current c) t (Some (d, a')) u)) (seq 0 n)). split; [|split].
          -- rewrite app_length. pose proof (pending_length (put (current c) t (Some (d, a'))) (seq 0 n)) as Q. rewrite seq_length in Q. unfold dkeys. rewrite map_length, S3. lia.
          -- apply incl_appl, incl_refl.
          -- intros u x X. apply in_app_iff. right. apply in_flat_map. exists u. split; auto. apply in_seq. split; [lia|]. simpl.
             destruct (Nat.lt_ge_cases u n) as [|G]; auto. rewrite put_neq in X by lia. destruct (T u G) as [T1 _]. rewrite T1 in X. destruct X.
      + split; auto. split; [simpl; intros u G; rewrite put_neq by lia; auto|]. exists L. split; auto. split; auto. simpl.
        intros u. destruct (Nat.eq_dec u t) as [->|U]; [rewrite put_eq; intros x []|rewrite put_neq; auto].
      + split; auto. split; [simpl; intros u G; rewrite put_neq by lia; auto|]. exists L. split; auto. split; auto. simpl.
        intros u. destruct (Nat.eq_dec u t) as [->|U]; [rewrite put_eq; intros x []|rewrite put_neq; auto].
    - destruct (todo c t) as [|d r] eqn:Td; [exact (conj W (conj T (ex_intro _ L (conj L1 (conj L2 L3)))))|].
      assert (Lt : t < n) by (destruct (Nat.lt_ge_cases t n) as [|G]; auto; destruct (T t G); congruence).
      split; auto. split; [simpl; intros u G; rewrite !put_neq by lia; auto|]. exists L. split; auto. split; auto. simpl.
      intros u. destruct (Nat.eq_dec u t) as [->|U]; [rewrite put_eq; destruct d; simpl; intros x []|rewrite put_neq; auto].
  Qed.
  Lemma capacity n programs schedule : threads_below n programs ->
    length (data (shared (lru_run eqb max_size getter (lru_start programs) schedule))) <= max_size - 1 + n.
  Proof.
    intros B. assert (R : room_for n (lru_run eqb max_size getter (lru_start programs) schedule)).
    { unfold lru_run. apply run_inv with (P := room_for n); [|intros; apply room_turn; auto]. split; [constructor|]. split; [intros t G; split; [auto|apply B; auto]|].
      exists []. split; [simpl; lia|]. split; [intros x []|intros t x []]. }
    destruct R as (W & _ & L & L1 & L2 & _). etransitivity; [|exact L1]. rewrite <- (map_length fst). apply NoDup_incl_length; auto.
  Qed.
End LruThrMore.
