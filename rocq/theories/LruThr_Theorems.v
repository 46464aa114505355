(** C127: an LRUCacheDict that several threads use without a lock of their own. *)
From Verif Require Import Prelude MetrThr_Model MetrThr_Spec MetrThr_Proofs CacheDict_Model LruThr_Model LruThr_Spec LruThr_Proofs LruThrMore_Proofs.

(** C127, full statement (false, see below): however the calls overlap, the cache holds no more than max_size elements once they have
    ended, the only errors are those of reading a key value_getter does not know and of deleting, and a call that nobody disturbs ends. *)
Definition C127_full_statement : Prop :=
  forall (K V : Type) (eqb : K -> K -> bool) (max_size : nat) (getter : K -> option V) programs schedule, eqb_ok eqb -> 1 <= max_size ->
  let c := lru_run eqb max_size getter (lru_start programs) schedule in
  (idle c -> length (data (shared c)) <= max_size) /\
  (forall d e, In (d, Err e) (log c) -> match d with Get k => getter k = None | Del _ => True | _ => False end) /\
  (forall t d l, idle c -> todo c t = d :: l -> exists m r, log (lru_run eqb max_size getter c (repeat t m)) = log c ++ [(d, r)]).

(** Calls that do not overlap, whichever threads make them: the answers and the cache are those of the calls one after the other.
    Missing: calls that overlap. *)
Theorem C127_partial : forall (K V : Type) (eqb : K -> K -> bool) (max_size : nat) (getter : K -> option V) programs schedule,
  eqb_ok eqb -> 1 <= max_size -> one_at_a_time first (exec eqb max_size getter) (lru_start programs) schedule ->
  let c := lru_run eqb max_size getter (lru_start programs) schedule in
  idle c -> one_by_one eqb max_size getter (ended c) = (map snd (log c), as_cache (shared c)).
Proof. intros. apply solo; auto. Qed.
Print Assumptions C127_partial.

(** And the next such call ends. *)
Theorem C127_ends_partial : forall (K V : Type) (eqb : K -> K -> bool) (max_size : nat) (getter : K -> option V) programs schedule,
  eqb_ok eqb -> 1 <= max_size -> one_at_a_time first (exec eqb max_size getter) (lru_start programs) schedule ->
  let c := lru_run eqb max_size getter (lru_start programs) schedule in
  forall t d l, idle c -> todo c t = d :: l ->
  exists m r, let c' := lru_run eqb max_size getter c (repeat t m) in idle c' /\ log c' = log c ++ [(d, r)] /\ todo c' t = l.
Proof. intros. apply calls_end; auto. Qed.
Print Assumptions C127_ends_partial.

(** ** Calls that overlap in whatever way *)
(** With n threads the cache never holds more than max_size - 1 + n elements, whoever is inside of which call. *)
Theorem C127_capacity : forall (K V : Type) (eqb : K -> K -> bool) (max_size n : nat) (getter : K -> option V) programs schedule,
  eqb_ok eqb -> 1 <= max_size -> threads_below n programs ->
  length (data (shared (lru_run eqb max_size getter (lru_start programs) schedule))) <= max_size - 1 + n.
Proof. intros. apply capacity; auto. Qed.
Print Assumptions C127_capacity.

(** What a read returns is what value_getter says of the key or what somebody wrote under that key; if it returns nothing, it raises KeyError. *)
Theorem C127_made_of : forall (K V : Type) (eqb : K -> K -> bool) (max_size : nat) (getter : K -> option V) programs schedule, eqb_ok eqb ->
  forall k r, In (Get k, r) (log (lru_run eqb max_size getter (lru_start programs) schedule)) ->
  (exists v, r = Ok (Some v) /\ (getter k = Some v \/ written programs k v)) \/ r = Err KeyError.
Proof.
  intros K V eqb max_size getter programs schedule ok k r I. pose proof (values_ok ok max_size getter programs schedule k r I) as H.
  destruct r as [[v|]|e]; [left; exists v; auto|destruct H|right; subst; auto].
Qed.
Print Assumptions C127_made_of.

(** If the threads use fewer than max_size keys and delete nothing, nothing is lost: writes succeed, the keys of the calls that ended are
    there, and once a call for a key has succeeded, every read of it that ends succeeds. *)
Theorem C127_small : forall (K V : Type) (eqb : K -> K -> bool) (max_size : nat) (getter : K -> option V) programs keys before, eqb_ok eqb ->
  length keys < max_size -> (forall t d, In d (programs t) -> keeps getter d /\ In (key d) keys) ->
  let c := lru_run eqb max_size getter (lru_start programs) before in
  (forall d r, In (d, r) (log c) -> In (key d) (dkeys (data (shared c))) /\ match d with Get _ => True | _ => r = Ok None end) /\
  (forall d x, In (d, Ok x) (log c) -> forall schedule, exists l,
     log (lru_run eqb max_size getter c schedule) = log c ++ l /\ forall r, In (Get (key d), r) l -> exists v, r = Ok (Some v)).
Proof.
  intros K V eqb max_size getter programs keys before ok L H. split.
  - intros d r I. destruct (@small_all K V eqb ok max_size getter keys L programs before H) as (_ & _ & _ & l & E & R). simpl in E. rewrite E in I. destruct (R _ _ I) as (R1 & _ & R3).
    split; auto. destruct d; auto.
  - intros d x I schedule. eapply small_kept; eauto.
Qed.
Print Assumptions C127_small.

(** ** What overlapping calls can do *)
Definition one_each (t : nat) : list (call nat nat) := match t with 0 => [Set_ 9 9; Set_ 0 0] | 1 => [Set_ 1 1] | 2 => [Set_ 2 2] | _ => [] end.
(** Three threads that each saw room: twice as many elements as allowed, and the bound of C127_capacity is reached. *)
Theorem C127_over_capacity_refuted : exists schedule, let c := lru_run Nat.eqb 2 (fun _ => None) (lru_start one_each) schedule in
  finished c /\ length (data (shared c)) = 4.
Proof.
  exists (repeat 0 6 ++ [0; 0; 1; 1; 2; 2] ++ repeat 0 4 ++ repeat 1 4 ++ repeat 2 4). split; [|reflexivity].
  split; intros [|[|[|t]]]; vm_compute; reflexivity.
Qed.
Print Assumptions C127_over_capacity_refuted.

Definition two_gets (t : nat) : list (call nat nat) := match t with 0 | 1 => [Get 1] | _ => [] end.
(** Two threads read a key that value_getter knows and nobody deletes: one of them gets a KeyError. *)
Theorem C127_get_raises_refuted : exists schedule,
  log (lru_run Nat.eqb 2 (fun k => Some k) (lru_start two_gets) schedule) = [(Get 1, Err KeyError); (Get 1, Ok (Some 1))].
Proof. exists (repeat 0 9 ++ repeat 1 5 ++ repeat 0 2). reflexivity. Qed.
Print Assumptions C127_get_raises_refuted.

Definition set_and_del (t : nat) : list (call nat nat) := match t with 0 => [Set_ 1 1; Set_ 1 2] | 1 => [Del 1] | _ => [] end.
(** A write raises KeyError if somebody deletes the key at the wrong moment. *)
Theorem C127_set_raises_refuted : exists schedule,
  log (lru_run Nat.eqb 2 (fun _ => None) (lru_start set_and_del) schedule) = [(Set_ 1 1, Ok None); (Del 1, Ok None); (Set_ 1 2, Err KeyError)].
Proof. exists (repeat 0 6 ++ repeat 0 3 ++ repeat 1 4 ++ [0]). reflexivity. Qed.
Print Assumptions C127_set_raises_refuted.

Definition four_sets (t : nat) : list (call nat nat) := match t with 0 => [Set_ 1 1; Set_ 4 4] | 1 => [Set_ 2 2; Set_ 3 3] | _ => [] end.
Definition orphaned : list nat := repeat 0 4 ++ repeat 1 22 ++ repeat 0 2.
(** Thread 0 has recorded the use of key 1 and is about to store it when thread 1 evicts that key. Then it stores it, so that the key is
    in the cache but cannot be evicted any more. Everybody is done - but the next write loops for ever, although nobody disturbs it. *)
Theorem C127_hang_refuted : let c := lru_run Nat.eqb 1 (fun _ => None) (lru_start four_sets) orphaned in
  idle c /\ todo c 0 = [Set_ 4 4] /\ (forall t, t <> 0 -> todo c t = []) /\
  forall schedule, log (lru_run Nat.eqb 1 (fun _ => None) c schedule) = log c.
Proof.
  split; [intros [|[|t]]; vm_compute; reflexivity|]. split; [reflexivity|]. split; [intros [|[|t]] H; [congruence| |]; vm_compute; reflexivity|].
  intros schedule. set (c := lru_run Nat.eqb 1 (fun _ => None) (lru_start four_sets) orphaned).
  pose (s0 := {| data := [(3, 3); (1, 1)]; stamps := [3; 1]; lru := [3] |}). pose (s1 := {| data := [(1, 1)]; stamps := [1]; lru := [] : list nat |}).
  pose (e := Evicted 4 4 User).
  pose (states := [(s0, SRoom 4 4 User); (s0, EPop 4 4 User); (set_lru s0 [], D1 3 e); ({| data := [(1, 1)]; stamps := [3; 1]; lru := [] |}, D2 3 e);
                   (s1, D3 3 e); (s1, D4 3 e); (s1, SRoom 4 4 User); (s1, EPop 4 4 User)]).
  pose (P := fun x : config (lru_state nat nat) (call nat nat) (code nat nat) (option nat) =>
    log x = log c /\ (forall t, t <> 0 -> todo x t = [] /\ current x t = None) /\
    (current x 0 = None /\ todo x 0 = [Set_ 4 4] /\ shared x = s0 \/ exists s a, current x 0 = Some (Set_ 4 4, a) /\ shared x = s /\ In (s, a) states)).
  assert (H : P (lru_run Nat.eqb 1 (fun _ => None) c schedule)); [|exact (proj1 H)].
  unfold lru_run. apply run_inv with (P := P).
  - split; auto. split; [intros [|[|t]] N; [congruence| |]; vm_compute; auto|]. left. vm_compute. auto.
  - intros x t (L & O & S). destruct (Nat.eq_dec t 0) as [->|N].
    + unfold turn. destruct S as [(C & T & S)|(s & a & C & S & I)]; rewrite C.
      * rewrite T. split; auto. split; [intros t N; simpl; rewrite !put_neq; auto|]. right. exists s0, (SRoom 4 4 User). simpl. rewrite put_eq. repeat split; auto.
      * rewrite S. simpl in I. repeat (destruct I as [I|I]; [inversion I; subst s a; clear I|]); [..|destruct I].
        all: simpl; split; auto; split; [intros t N; simpl; rewrite !put_neq; auto|]; right; simpl; rewrite put_eq; eexists _, _; split; [reflexivity|]; split; [reflexivity|].
        -- simpl. auto.
        -- simpl. auto.
        -- simpl. auto.
        -- simpl. auto 6.
        -- simpl. auto 8.
        -- simpl. auto 10.
        -- simpl. auto 10.
        -- simpl. auto 10.
    + destruct (O t N) as [O1 O2]. unfold turn. rewrite O2, O1. split; auto.
Qed.
Print Assumptions C127_hang_refuted.

Theorem C127_full_statement_refuted : ~ C127_full_statement.
Proof.
  intros H. destruct C127_over_capacity_refuted as (schedule & F & L).
  destruct (H nat nat Nat.eqb 2 (fun _ => None) one_each schedule Nat.eqb_eq) as (H1 & _); [auto|].
  specialize (H1 (proj1 F)). rewrite L in H1. repeat apply le_S_n in H1. inversion H1.
Qed.
Print Assumptions C127_full_statement_refuted.

(** ** Concrete cases *)
(** two threads in turn: an eviction, a read that asks value_getter, a deletion that fails *)
Example C127_partial_case :
  let programs := fun t => match t with 0 => [Set_ 1 10; Get 5; Del 7] | 1 => [Feed 2 20; Get 2] | _ => [] end in
  let schedule := repeat 0 6 ++ repeat 1 6 ++ repeat 0 17 ++ repeat 1 6 ++ repeat 0 2 in
  let getter := fun k => Some (k * 100) in
  let c := lru_run Nat.eqb 2 getter (lru_start programs) schedule in
  one_at_a_time first (exec Nat.eqb 2 getter) (lru_start programs) schedule /\ idle c /\
  log c = [(Set_ 1 10, Ok None); (Feed 2 20, Ok None); (Get 5, Ok (Some 500)); (Get 2, Ok (Some 20)); (Del 7, Err KeyError)] /\
  shared c = {| data := [(2, 20); (5, 500)]; stamps := [2; 5]; lru := [5; 2] |}.
Proof.
  cbv zeta. split; [|split; [intros [|[|t]]; vm_compute; reflexivity|split; vm_compute; reflexivity]].
  vm_compute. repeat split; try (left; split; reflexivity); right; intros [|[|u]] N; try reflexivity; congruence.
Qed.
(** thread 1 is inside a call while thread 0 makes calls; a key is used that was stored before *)
Example C127_small_case :
  let programs := fun t => match t with 0 => [Set_ 1 10; Get 1] | 1 => [Get 2; Feed 1 11] | _ => [] end in
  let getter := fun k => Some (k * 100) in
  (forall t d, In d (programs t) -> keeps getter d /\ In (key d) [1; 2]) /\ length [1; 2] < 3 /\
  log (lru_run Nat.eqb 3 getter (lru_start programs) (repeat 0 6 ++ repeat 1 7 ++ repeat 0 7 ++ repeat 1 10)) =
    [(Set_ 1 10, Ok None); (Get 1, Ok (Some 10)); (Get 2, Ok (Some 200)); (Feed 1 11, Ok None)].
Proof.
  split; [|split; [auto|vm_compute; reflexivity]]. intros [|[|t]] d I; simpl in I; repeat (destruct I as [<-|I]; [simpl; split; auto; discriminate|]); destruct I.
Qed.
Example C127_made_of_case :
  In (Get 1, Ok (Some 1)) (log (lru_run Nat.eqb 2 (fun k => Some k) (lru_start two_gets) (repeat 0 9 ++ repeat 1 5 ++ repeat 0 2))).
Proof. vm_compute. auto. Qed.
Example C127_capacity_case : threads_below 3 one_each.
Proof. intros [|[|[|t]]] H; [lia..|reflexivity]. Qed.
