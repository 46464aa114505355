(** Model of satella/instrumentation/metrics/structures/cache_dict.py: MetrifiedCacheDict, MetrifiedLRUCacheDict and
    MetrifiedExclusiveWritebackCache, over the models of the caches they extend. All metrics are given, and are counters. *)
From Verif Require Import Prelude CacheDict_Model Writeback_Model.
Set Implicit Arguments.

Section Cache.
  Context {K V : Type}.
  Variable eqb : K -> K -> bool.
  Variable c : cfg V.
  Record metrics : Type := mk_metrics { hits : nat; misses : nat; refreshes : nat; evictions : nat }.
  Definition no_metrics : metrics := mk_metrics 0 0 0 0.
  (** MetrifiedCacheDict.__getitem__ and MetrifiedLRUCacheDict.__getitem__, before they call that of the parent (metrics/structures/cache_dict.py:56-62, 117-123) *)
  Definition count_access (m : metrics) (hit : bool) : metrics :=
    if hit then mk_metrics (S (hits m)) (misses m) (refreshes m) (evictions m) else mk_metrics (hits m) (S (misses m)) (refreshes m) (evictions m).
  (** value_getter_replacement (metrics/structures/cache_dict.py:36-41, 91-96): counted whether the getter raises or not *)
  Definition count_refresh (m : metrics) (called : bool) : metrics :=
    if called then mk_metrics (hits m) (misses m) (S (refreshes m)) (evictions m) else m.
  (** MetrifiedLRUCacheDict.evict (metrics/structures/cache_dict.py:112-115) within LRUCacheDict.make_room: how often it is called *)
  Fixpoint evict_calls (fuel max : nat) (s : cst K V) : nat :=
    if Nat.ltb (max - 1) (length (cd_data s)) then
      match fuel with O => 0 | S f => S (evict_calls f max (cd_evict eqb c s)) end
    else 0.
  Definition evict_calls_set (s : cst K V) : nat :=
    match c_max c with None => 0 | Some m => evict_calls (S (length (cd_lru s))) m s end.
  Definition count_evictions (m : metrics) (n : nat) : metrics := mk_metrics (hits m) (misses m) (refreshes m) (evictions m + n).
  (** One call (metrics/structures/cache_dict.py:15-124). The getter, if it is called, returns before the value is stored, and storing it may evict. *)
  Definition mc_step (p : cst K V * metrics) (o : cd_op K V) : (cst K V * metrics) * cd_out K V :=
    let (s, m) := p in
    let (s', out) := cd_step eqb c s o in
    let m' :=
      match o with
      | CGet k r =>
          let m1 := count_access m (cd_has_info eqb c s k (r_now r)) in
          match out with
          | COGot g =>
              let m2 := count_refresh m1 (g_called g) in
              match g_called g, r_getter r with
              | true, Ok _ => count_evictions m2 (evict_calls_set (match c_max c with None => s | Some _ => set_lru s (lru_mark eqb (cd_lru s) k) end))
              | _, _ => m2
              end
          | _ => m1
          end
      | CSet _ _ _ => count_evictions m (evict_calls_set s)
      | CFeed k _ _ _ => count_evictions m (if dmem eqb (cd_data s) k then 0 else evict_calls_set s)
      | CComplete i g _ =>
          let m1 := count_refresh m (match nth_error (cd_pending s) i with Some _ => true | None => false end) in
          match nth_error (cd_pending s) i, g with
          | Some _, Ok _ => count_evictions m1 (evict_calls_set s)
          | _, _ => m1
          end
      | _ => m
      end in
    ((s', m'), out).
  Fixpoint mc_run (p : cst K V * metrics) (ops : list (cd_op K V)) : list (cd_out K V) * (cst K V * metrics) :=
    match ops with
    | [] => ([], p)
    | o :: t => let (p1, out) := mc_step p o in let (outs, p') := mc_run p1 t in (out :: outs, p')
    end.
End Cache.

Section WritebackCache.
  Context {K V : Type}.
  Variable eqb : K -> K -> bool.
  Variable store_key_errors deletable : bool.
  (** The counters, and how often read_method was called *)
  Record wmetrics : Type := mk_wmetrics { whits : nat; wmisses : nat; wreads : nat }.
  Definition no_wmetrics : wmetrics := mk_wmetrics 0 0 0.
  (** MetrifiedExclusiveWritebackCache.__getitem__ (metrics/structures/cache_dict.py:141-148); the parent calls _operate, then read_method if the key is not in the cache
      (writeback_cache.py:87-92) *)
  Definition mw_step (p : wb K V * wmetrics) (o : wb_op K V) : (wb K V * wmetrics) * wb_out K V :=
    let (s, m) := p in
    let (s', out) := wb_step eqb store_key_errors deletable s o in
    let m' :=
      match o with
      | WGet k _ =>
          let m1 := if memb eqb k (wb_in s) then mk_wmetrics (S (whits m)) (wmisses m) (wreads m) else mk_wmetrics (whits m) (S (wmisses m)) (wreads m) in
          if negb (memb eqb k (wb_in (wb_operate s))) then mk_wmetrics (whits m1) (wmisses m1) (S (wreads m1)) else m1
      | _ => m
      end in
    ((s', m'), out).
  Fixpoint mw_run (p : wb K V * wmetrics) (ops : list (wb_op K V)) : list (wb_out K V) * (wb K V * wmetrics) :=
    match ops with
    | [] => ([], p)
    | o :: t => let (p1, out) := mw_step p o in let (outs, p') := mw_run p1 t in (out :: outs, p')
    end.

  (** get_queue_length (writeback_cache.py:53-63) *)
  Definition get_queue_length (s : wb K V) : nat := length (wb_jobs s).
  (** What CallableMetric.callable can be: None, a callable (of the cache as it will be then), or a number *)
  Inductive pycallable : Type := C_none | C_fun (f : wb K V -> nat) | C_number (n : nat).
  (** __init__ (metrics/structures/cache_dict.py:138-139): get_queue_length() is called *)
  Definition entries_waiting (s : wb K V) : pycallable := C_number (get_queue_length s).
  (** CallableMetric.to_metric_data (metric_types/callable.py:37-47): a callable that is false gives no data, and a number is not callable *)
  Definition snapshot (f : pycallable) (s : wb K V) : res (option nat) :=
    match f with
    | C_none | C_number 0 => Ok None
    | C_number (S _) => Err TypeError
    | C_fun f => Ok (Some (f s))
    end.
End WritebackCache.
