(** C123: a CacheDict used by many threads. *)
From Verif Require Import Prelude PreludeFacts MoreFacts CacheDict_Model CacheThr_Model CacheThr_Spec CacheThr_Proofs.

(** Whatever threads do and however they take turns, a value read under a key was answered by the getter for that very key, or stored under it by
    someone, or is the default value. *)
Theorem C123_values : forall K V (eqb : K -> K -> bool) (c : cfg V) (l : list (event K V)) t k v,
  eqb_ok eqb -> In (t, OGet k, RValue v) (log (exec eqb c (start cd_init) l)) ->
  In (k, Ok v) (asked (exec eqb c (start cd_init) l)) \/ (exists u, In (Call u (OSet k v)) l) \/ c_default c = Some v.
Proof.
  intros K V eqb c l t k v ok H. destruct (exec_VI ok c l) as [_ _ L]. destruct (L _ _ _ H) as [[A|A]|A]; auto.
Qed.
Print Assumptions C123_values.

(** One would like: nobody removes the key and the getter always has a value, so every read gives one (or what else the getter raised). *)
Definition C123_full_statement : Prop := forall K V (eqb : K -> K -> bool) (c : cfg V) (l : list (event K V)) t k r,
  eqb_ok eqb -> never_removed k l -> never_missing k (exec eqb c (start cd_init) l) ->
  In (t, OGet k, r) (log (exec eqb c (start cd_init) l)) -> good_read k (exec eqb c (start cd_init) l) r.

Definition a_cache : cfg Z := {| c_stale := 10; c_exp := 20; c_fail := None; c_default := None; c_max := None |}.
Definition turns (t n : nat) (g : res Z) (mono now : Z) : list (event Z Z) := repeat (Turn t g mono now) n.
(** Thread 1 stores a value, thread 2 reads before the time of it is stored: KeyError. *)
Definition a_race : list (event Z Z) := [Call 1 (OSet 7 5); Turn 1 (Ok 0) 0 0; Call 2 (OGet 7); Turn 2 (Ok 0) 0 0; Turn 2 (Ok 0) 0 0]%Z.
Theorem C123_full_statement_refuted : ~ C123_full_statement.
Proof.
  intros H. specialize (H Z Z Z.eqb a_cache a_race 2 7%Z (RRaise KeyError) zeqb_ok).
  destruct H as [(v & H)|(e & H & N & _)]; try discriminate.
  - intros t. split; intros H; vm_compute in H; intuition discriminate.
  - intros H. vm_compute in H. exact H.
  - vm_compute. left. reflexivity.
  - injection H as <-. now apply N.
Qed.
Print Assumptions C123_full_statement_refuted.

(** It is so from the moment some call that read or stored the key is over: every read that ends afterwards is fine, whatever the threads do
    meanwhile: other keys may be removed, time may pass, refreshes may run in the background, other threads may store. *)
Theorem C123_partial : forall K V (eqb : K -> K -> bool) (c : cfg V) (l1 l2 : list (event K V)) k,
  eqb_ok eqb -> never_removed k (l1 ++ l2) -> never_missing k (exec eqb c (start cd_init) (l1 ++ l2)) ->
  stored_once k (exec eqb c (start cd_init) l1) ->
  exists new, log (exec eqb c (start cd_init) (l1 ++ l2)) = log (exec eqb c (start cd_init) l1) ++ new /\
    forall t r, In (t, OGet k, r) new -> good_read k (exec eqb c (start cd_init) (l1 ++ l2)) r.
Proof. intros K V eqb c l1 l2 k ok. apply (reads_fine ok). Qed.
Print Assumptions C123_partial.

(** a removal elsewhere, an expired value, two readers at once *)
Definition a_life : list (event Z Z) * list (event Z Z) :=
  ([Call 1 (OGet 7)] ++ turns 1 6 (Ok 5) 0 0,
   [Call 1 (OGet 7); Call 2 (OGet 7); Call 3 (ODel 8)] ++ turns 1 5 (Ok 6) 100 100 ++ turns 2 9 (Ok 7) 100 100 ++ turns 3 1 (Ok 0) 0 0 ++ turns 1 4 (Ok 6) 100 100)%Z.
Example C123_case :
  never_removed 7%Z (fst a_life ++ snd a_life) /\ never_missing 7%Z (exec Z.eqb a_cache (start cd_init) (fst a_life ++ snd a_life)) /\
  stored_once 7%Z (exec Z.eqb a_cache (start cd_init) (fst a_life)) /\
  log (exec Z.eqb a_cache (start cd_init) (fst a_life ++ snd a_life)) =
    [(1%nat, OGet 7, RValue 5); (2%nat, OGet 7, RValue 7); (3%nat, ODel 8, RRaise KeyError); (1%nat, OGet 7, RValue 6)]%Z.
Proof.
  split; [|split; [|split]].
  - intros t. split; intros H; vm_compute in H; intuition discriminate.
  - intros H. vm_compute in H. intuition discriminate.
  - exists 1, (OGet 7%Z), (RValue 5%Z). split; [vm_compute; auto|]. left. split; [reflexivity|]. exists 5%Z. reflexivity.
  - reflexivity.
Qed.

(** A read always gives a value or raises. *)
Definition C123_answers_statement : Prop := forall K V (eqb : K -> K -> bool) (c : cfg V) (l : list (event K V)) t k r,
  eqb_ok eqb -> In (t, OGet k, r) (log (exec eqb c (start cd_init) l)) -> (exists v, r = RValue v) \/ (exists e, r = RRaise e).
Definition remembers_misses : cfg Z := {| c_stale := 10; c_exp := 20; c_fail := Some 5%Z; c_default := Some 1%Z; c_max := None |}.
(** A miss is cached; thread 2 sees that, thread 1 stores a value; thread 2 looks again and gives None. *)
Definition a_none : list (event Z Z) :=
  ([Call 1 (OGet 7)] ++ turns 1 6 (Err KeyError) 0 0 ++ [Call 2 (OGet 7)] ++ turns 2 5 (Ok 0) 1 1 ++ [Call 1 (OSet 7 5)] ++ turns 1 3 (Ok 0) 1 1 ++ turns 2 1 (Ok 0) 1 1)%Z.
Theorem C123_answers_refuted : ~ C123_answers_statement.
Proof.
  intros H. specialize (H Z Z Z.eqb remembers_misses a_none 2 7%Z RNone zeqb_ok).
  destruct H as [(v & H)|(e & H)]; try discriminate. vm_compute. auto.
Qed.
Print Assumptions C123_answers_refuted.
(** Without caching of misses it does. *)
Theorem C123_answers_partial : forall K V (eqb : K -> K -> bool) (c : cfg V) (l : list (event K V)) t k r,
  eqb_ok eqb -> c_fail c = None -> In (t, OGet k, r) (log (exec eqb c (start cd_init) l)) -> (exists v, r = RValue v) \/ (exists e, r = RRaise e).
Proof. intros K V eqb c l t k r ok F. exact (@get_answers K V eqb c F l t k r). Qed.
Print Assumptions C123_answers_partial.

(** With a default value KeyError is never raised by a read. *)
Definition C123_default_statement : Prop := forall K V (eqb : K -> K -> bool) (c : cfg V) (l : list (event K V)) t k,
  eqb_ok eqb -> c_default c <> None -> ~ In (t, OGet k, RRaise KeyError) (log (exec eqb c (start cd_init) l)).
Theorem C123_default_refuted : ~ C123_default_statement.
Proof.
  intros H. apply (H Z Z Z.eqb remembers_misses a_race 2 7%Z zeqb_ok); [discriminate|]. vm_compute. left. reflexivity.
Qed.
Print Assumptions C123_default_refuted.

(** A call during which nobody else runs does what the cache of one thread does (C08 is about it): in any state, even with other calls half done. *)
Theorem C123_alone_get : forall K V (eqb : K -> K -> bool) (c : cfg V) w t k g mono z now, c_max c = None -> threads w t = None ->
  let x := cd_getitem eqb c (cache w) k {| r_mono := mono; r_now := z; r_getter := g; r_done := now |} in
  alone_gives eqb c w t (Call t (OGet k)) g mono now (fst x) (OGet k) (seen (g_res (snd x))).
Proof.
  intros K V eqb c w t k g mono z now M T x. destruct (@get_solo K V eqb c M k g mono z now (cache w)) as (n & H).
  apply (@solo_gives K V eqb c n); auto; discriminate.
Qed.
Print Assumptions C123_alone_get.
Theorem C123_alone_set : forall K V (eqb : K -> K -> bool) (c : cfg V) w t k v g mono now, c_max c = None -> threads w t = None ->
  alone_gives eqb c w t (Call t (OSet k v)) g mono now (fst (cd_setitem eqb c (cache w) k v now)) (OSet k v) RDone.
Proof. intros. apply (@solo_gives K V eqb c 2); auto; [discriminate|]. now apply set_solo. Qed.
Print Assumptions C123_alone_set.
Theorem C123_alone_del : forall K V (eqb : K -> K -> bool) (c : cfg V) w t k g mono now, c_max c = None -> threads w t = None ->
  alone_gives eqb c w t (Call t (ODel k)) g mono now (fst (cd_delitem eqb c (cache w) k)) (ODel k)
    (match snd (cd_delitem eqb c (cache w) k) with None => RDone | Some e => RRaise e end).
Proof. intros. apply (@solo_gives K V eqb c 2); auto; [discriminate|]. now apply del_solo. Qed.
Print Assumptions C123_alone_del.
Theorem C123_alone_invalidate : forall K V (eqb : K -> K -> bool) (c : cfg V) w t k g mono now, c_max c = None -> threads w t = None ->
  alone_gives eqb c w t (Call t (OInvalidate k)) g mono now (cd_invalidate eqb c (cache w) k) (OInvalidate k) RDone.
Proof. intros. apply (@solo_gives K V eqb c 2); auto; [discriminate|]. now apply inv_solo. Qed.
Print Assumptions C123_alone_invalidate.
Theorem C123_alone_refresh : forall K V (eqb : K -> K -> bool) (c : cfg V) w t i k g mono now, c_max c = None -> threads w t = None ->
  nth_error (cd_pending (cache w)) i = Some k ->
  alone_gives eqb c w t (Work t i) g mono now (fst (cd_complete eqb c (cache w) i g now)) (ORefresh k) RDone.
Proof. intros. now apply work_gives. Qed.
Print Assumptions C123_alone_refresh.
Example C123_alone_case :
  let w := exec Z.eqb a_cache (start cd_init) ([Call 1 (OGet 7)] ++ turns 1 6 (Ok 5) 0 0 ++ [Call 1 (OGet 7)] ++ turns 1 5 (Ok 0) 15 15)%Z in
  threads w 1 = None /\ cd_pending (cache w) = [7]%Z /\ cd_data (cache (exec Z.eqb a_cache w ([Work 3 0] ++ turns 3 4 (Ok 6) 16 16)))%Z = [(7, 6)]%Z.
Proof. vm_compute. auto. Qed.
