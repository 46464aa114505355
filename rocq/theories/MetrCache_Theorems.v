(** C87: caches with metrics. *)
From Verif Require Import Prelude CacheDict_Model Writeback_Model MetrCache_Model MetrCache_Spec MetrCache_Proofs.

(** The metrics change nothing: every call answers as it would without them. *)
Theorem C87_transparent : forall (K V : Type) (eqb : K -> K -> bool) (c : cfg V) (ops : list (cd_op K V)),
  fst (mc_run eqb c (cd_init, no_metrics) ops) = fst (cd_run eqb c cd_init ops).
Proof. intros. apply transparent. Qed.
Print Assumptions C87_transparent.
Theorem C87_writeback_transparent : forall (K V : Type) (eqb : K -> K -> bool) ske del (store : dict K V) (ops : list (wb_op K V)),
  fst (mw_run eqb ske del (wb_init store, no_wmetrics) ops) = fst (wb_run eqb ske del (wb_init store) ops).
Proof. intros. apply w_transparent. Qed.
Print Assumptions C87_writeback_transparent.

(** Every read is counted once, as a hit or as a miss. *)
Theorem C87_accesses : forall (K V : Type) (eqb : K -> K -> bool) (c : cfg V) (ops : list (cd_op K V)),
  let m := snd (snd (mc_run eqb c (cd_init, no_metrics) ops)) in hits m + misses m = count is_get ops.
Proof. intros K V eqb c ops. exact (accesses eqb c ops cd_init no_metrics). Qed.
Print Assumptions C87_accesses.
Theorem C87_writeback_accesses : forall (K V : Type) (eqb : K -> K -> bool) ske del (store : dict K V) (ops : list (wb_op K V)),
  let m := snd (snd (mw_run eqb ske del (wb_init store, no_wmetrics) ops)) in whits m + wmisses m = count is_wget ops.
Proof. intros K V eqb ske del store ops. exact (w_accesses eqb ske del ops (wb_init store) no_wmetrics). Qed.
Print Assumptions C87_writeback_accesses.

(** Every call of value_getter, on behalf of a reader or in background, is counted once. *)
Theorem C87_refreshes : forall (K V : Type) (eqb : K -> K -> bool) (c : cfg V) (ops : list (cd_op K V)),
  let '(outs, (_, m)) := mc_run eqb c (cd_init, no_metrics) ops in refreshes m = count after_getter outs + count refreshed (combine ops outs).
Proof. intros K V eqb c ops. exact (refreshes_ok eqb c ops cd_init no_metrics). Qed.
Print Assumptions C87_refreshes.

(** A hit is a read that did not wait for value_getter. Proved for caches that do not remember failures, or remember them for as long as values. *)
Definition C87_hits_full_statement : Prop := forall (K V : Type) (eqb : K -> K -> bool), eqb_ok eqb -> forall (c : cfg V) (ops : list (cd_op K V)),
  Forall same_clock ops ->
  let '(outs, (_, m)) := mc_run eqb c (cd_init, no_metrics) ops in hits m = count at_once outs /\ misses m = count after_getter outs.
Theorem C87_hits_partial : forall (K V : Type) (eqb : K -> K -> bool), eqb_ok eqb -> forall c : cfg V, c_fail c = None \/ c_fail c = Some (c_exp c) ->
  forall ops : list (cd_op K V), Forall same_clock ops ->
  let '(outs, (_, m)) := mc_run eqb c (cd_init, no_metrics) ops in hits m = count at_once outs /\ misses m = count after_getter outs.
Proof. intros K V eqb ok c F ops S. exact (hits_ok eqb ok c F ops cd_init no_metrics (init_inv eqb c) S). Qed.
Print Assumptions C87_hits_partial.
(** has_info_about() judges a remembered failure by expiration_interval, and reading by cache_failures_interval. *)
Theorem C87_hits_full_statement_refuted : ~ C87_hits_full_statement.
Proof. exact hits_refuted. Qed.
Print Assumptions C87_hits_full_statement_refuted.

(** No entry is dropped to make room without being counted as evicted. *)
Theorem C87_evictions_partial : forall (K V : Type) (eqb : K -> K -> bool), eqb_ok eqb -> forall (c : cfg V) (ops : list (cd_op K V)) o, storing o ->
  let '(s, m0) := snd (mc_run eqb c (cd_init, no_metrics) ops) in let '((s', m'), _) := mc_step eqb c (s, m0) o in
  length (gone eqb (dkeys (cd_data s)) (dkeys (cd_data s'))) <= evictions m' - evictions m0.
Proof. intros K V eqb ok c ops o ST. exact (store_gone eqb ok c ops no_metrics o ST). Qed.
Print Assumptions C87_evictions_partial.
(** But more may be counted: a key whose value was not found takes part in the order of use, and is evicted though it is not in the cache. *)
Definition C87_evictions_full_statement : Prop := forall (K V : Type) (eqb : K -> K -> bool), eqb_ok eqb -> forall (c : cfg V) (ops : list (cd_op K V)) k v t,
  let '(s, m0) := snd (mc_run eqb c (cd_init, no_metrics) ops) in let '((s', m'), _) := mc_step eqb c (s, m0) (CSet k v t) in
  length (gone eqb (dkeys (cd_data s)) (dkeys (cd_data s'))) = evictions m' - evictions m0.
Theorem C87_evictions_full_statement_refuted : ~ C87_evictions_full_statement.
Proof. exact evictions_refuted. Qed.
Print Assumptions C87_evictions_full_statement_refuted.

(** The writeback cache counts a miss for every call of read_method; proved for the first hundred operations. *)
Definition C87_reads_full_statement : Prop := forall (K V : Type) (eqb : K -> K -> bool), eqb_ok eqb -> forall ske del (store : dict K V) (ops : list (wb_op K V)),
  let m := snd (snd (mw_run eqb ske del (wb_init store, no_wmetrics) ops)) in wreads m = wmisses m.
Theorem C87_reads_partial : forall (K V : Type) (eqb : K -> K -> bool) ske del (store : dict K V) (ops : list (wb_op K V)), length ops <= 100 ->
  let m := snd (snd (mw_run eqb ske del (wb_init store, no_wmetrics) ops)) in wreads m = wmisses m.
Proof.
  intros K V eqb ske del store ops L. pose proof (w_reads eqb ske del ops (wb_init store) no_wmetrics L) as H. simpl in H. rewrite !Nat.add_0_r in H. exact H.
Qed.
Print Assumptions C87_reads_partial.
(** A read that first forgets the keys known to be absent counts a hit and calls read_method. *)
Theorem C87_reads_full_statement_refuted : ~ C87_reads_full_statement.
Proof. exact wreads_refuted. Qed.
Print Assumptions C87_reads_full_statement_refuted.

(** The metric entries_waiting is to show how many entries wait to be written back. It never shows anything: it is given the number 0. *)
Definition C87_waiting_full_statement : Prop := forall (K V : Type) (eqb : K -> K -> bool), eqb_ok eqb -> forall ske del (store : dict K V) (ops : list (wb_op K V)),
  let s := snd (wb_run eqb ske del (wb_init store) ops) in snapshot (entries_waiting (wb_init store)) s = Ok (Some (length (wb_jobs s))).
Theorem C87_waiting_full_statement_refuted : ~ C87_waiting_full_statement.
Proof. exact waiting_refuted. Qed.
Print Assumptions C87_waiting_full_statement_refuted.
Theorem C87_waiting_never_refuted : forall (K V : Type) (store : dict K V) (s : wb K V), snapshot (entries_waiting (wb_init store)) s = Ok None.
Proof. reflexivity. Qed.
Print Assumptions C87_waiting_never_refuted.

(** A miss, a hit, a stale hit whose refresh comes later, and an expired read. *)
Definition C87_cfg : cfg nat := {| c_stale := 5; c_exp := 10; c_fail := None; c_default := None; c_max := None |}.
Definition C87_at (t : Z) (g : res nat) : read nat := {| r_mono := t; r_now := t; r_getter := g; r_done := t |}.
Definition C87_ops : list (cd_op nat nat) :=
  [CGet 1 (C87_at 0 (Ok 7)); CGet 1 (C87_at 3 (Ok 8)); CGet 1 (C87_at 7 (Ok 8)); CComplete 0 (Ok 9) 8%Z; CGet 1 (C87_at 30 (Err KeyError)); CComplete 0 (Ok 9) 31%Z].
Example C87_example : snd (snd (mc_run Nat.eqb C87_cfg (cd_init, no_metrics) C87_ops)) = mk_metrics 2 2 3 0 /\ Forall same_clock C87_ops.
Proof. split; [vm_compute; reflexivity|repeat constructor]. Qed.
Definition C87_lru : cfg nat := {| c_stale := 5; c_exp := 10; c_fail := None; c_default := None; c_max := Some 2 |}.
Example C87_example_lru : snd (snd (mc_run Nat.eqb C87_lru (cd_init, no_metrics) [CSet 1 1 0; CSet 2 2 0; CSet 3 3 0; CGet 1 (C87_at 1 (Ok 5))])) = mk_metrics 0 1 1 2.
Proof. vm_compute. reflexivity. Qed.
