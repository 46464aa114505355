(** Model of the counter, histogram, summary, clicks-per-second and link failure metrics
    (satella/instrumentation/metrics/metric_types/counter.py, histogram.py, summary.py, cps.py, linkfail.py) and of
    their labelled submetrics (metrics/metric_types/base.py:173-243 EmbeddedSubmetrics).

    Simplifications. Observations, bucket limits and clock readings are integers (of whatever unit); floats and their
    rounding are not modelled. A set of labels is an element of a type [Lab] with a decidable equality; handle(..., no
    labels) is [None]. The label that a metric adds itself (ge and le of a bucket, quantile, period, address) is kept apart,
    in [extra]. Metric names are reduced to what follows the metric's own name. The exported flags "internal" and
    "timestamp" are not modelled, nor is the check child.level <= self.level, which always holds here: a child is made with
    the level INHERIT (metrics/metric_types/base.py:242). Every observation reaches _handle (the filter by level is in MetricTree_Model.v).
    Threads calling handle at the same time are not modelled here. *)
From Coq Require Import String QArith.
From Verif Require Import Prelude PySeq_Model Transforms_Model.
Import ListNotations.
Open Scope list_scope.
Open Scope Z_scope.
Set Implicit Arguments.

(** the label a metric adds itself; the upper end [None] is math.inf *)
Inductive extra : Type :=
| ENone
| EBucket (lower : Z) (upper : option Z)
| EQuantile (q : Q)
| EPeriod (p : Z)
| EAddress (a : Z).
Definition ozeqb (a b : option Z) : bool := match a, b with None, None => true | Some x, Some y => x =? y | _, _ => false end.
(** equality of these labels; a quantile is compared as the fraction it is written as *)
Definition extra_eqb (a b : extra) : bool :=
  match a, b with
  | ENone, ENone => true
  | EBucket l u, EBucket l' u' => (l =? l') && ozeqb u u'
  | EQuantile q, EQuantile q' => (Qnum q =? Qnum q') && Pos.eqb (Qden q) (Qden q')
  | EPeriod p, EPeriod p' => p =? p'
  | EAddress x, EAddress y => x =? y
  | _, _ => false
  end.

Section Metrics.
Variable Lab : Type.
Variable leqb : Lab -> Lab -> bool.

(** what identifies an exported datum: name, labels (data.py:31-32 __eq__) *)
Definition mkey : Type := (string * Lab * extra)%type.
Definition mkey_eqb (a b : mkey) : bool := String.eqb (fst (fst a)) (fst (fst b)) && leqb (snd (fst a)) (snd (fst b)) && extra_eqb (snd a) (snd b).
(** data.py:71-198 MetricDataCollection, as used by the metrics: at most one datum per name and labels *)
Definition coll (V : Type) : Type := dict mkey V.
(** data.py:166-170 += of a datum, data.py:141-146 + of a datum *)
Definition madd {V} (c : coll V) (k : mkey) (v : V) : coll V := (k, v) :: filter (fun e => negb (mkey_eqb (fst e) k)) c.
(** data.py:148-155 and data.py:157-164: + and += of a collection; the right operand takes precedence *)
Definition munion {V} (a b : coll V) : coll V := b ++ filter (fun e => negb (memb mkey_eqb (fst e) (dkeys b))) a.
(** postfix_with (data.py:135-139) with 'total' *)
Definition total_suffix (s : string) : string := append s ".total".
Definition with_total {V} (c : coll V) : coll V := map (fun e => ((total_suffix (fst (fst (fst e))), snd (fst (fst e)), snd (fst e)), snd e)) c.

(** ** metrics/metric_types/base.py:173-243 EmbeddedSubmetrics; [S] is the state of a child *)
(** metrics/metric_types/base.py:199-217 _handle: children_mapping after it *)
Definition sub_handle {S} (fresh : S) (leaf : S -> S) (kids : dict Lab S) (labels : option Lab) : dict Lab S :=
  match labels with
  | None => kids
  | Some l => dset leqb kids l (leaf (match dget leqb kids l with Some s => s | None => fresh end))
  end.
Definition is_labelled (labels : option Lab) : bool := match labels with Some _ => true | None => false end.
(** metrics/metric_types/base.py:219-225 to_metric_data of an enabled one *)
Definition sub_export {S V} (exp : Lab -> S -> coll V) (kids : dict Lab S) : coll V :=
  fold_left (fun v kid => munion v (exp (fst kid) (snd kid))) kids [].

(** ** counter.py *)
(** counter.py:21-31 *)
Record counter : Type := { c_value : Z; c_calls : Z; c_enabled : bool; c_kids : dict Lab (Z * Z) }.
Definition counter_new : counter := {| c_value := 0; c_calls := 0; c_enabled := false; c_kids := [] |}.
(** counter.py:59-60: _handle of a child, which gets no labels and has no submetrics *)
Definition counter_leaf (delta : Z) (s : Z * Z) : Z * Z := (fst s + delta, snd s + 1).
(** counter.py:52-60 _handle *)
Definition counter_handle (sum_children : bool) (s : counter) (o : Z * option Lab) : counter :=
  let (delta, labels) := o in
  if c_enabled s || is_labelled labels
  then {| c_value := if sum_children then c_value s + delta else c_value s;
          c_calls := c_calls s + 1;
          c_enabled := c_enabled s || is_labelled labels;
          c_kids := sub_handle (0, 0) (counter_leaf delta) (c_kids s) labels |}
  else {| c_value := c_value s + delta; c_calls := c_calls s + 1; c_enabled := c_enabled s; c_kids := c_kids s |}.
Definition counter_run (sum_children : bool) (h : list (Z * option Lab)) : counter := fold_left (counter_handle sum_children) h counter_new.
(** counter.py:44-50 to_metric_data of one without submetrics *)
Definition counter_leaf_export (count_calls : bool) (labels : Lab) (s : Z * Z) : coll Z :=
  let p := [((""%string, labels, ENone), fst s)] in
  if count_calls then madd p (".count"%string, labels, ENone) (snd s) else p.
(** counter.py:33-50 to_metric_data; [own] are the labels of the metric itself *)
Definition counter_export (sum_children count_calls : bool) (own : Lab) (s : counter) : coll Z :=
  if c_enabled s
  then let k := sub_export (counter_leaf_export count_calls) (c_kids s) in
       let k := if sum_children then madd k (".sum"%string, own, ENone) (c_value s) else k in
       if count_calls then madd k (".count"%string, own, ENone) (c_calls s) else k
  else counter_leaf_export count_calls own (c_value s, c_calls s).

(** ** histogram.py *)
(** the state of one without submetrics: buckets, count, sum *)
Definition hleaf : Type := (list Z * (Z * Z))%type.
(** histogram.py:34-38 *)
Definition hleaf_new (limits : list Z) : hleaf := (repeat 0 (S (length limits)), (0, 0)).
(** lower_bound <= value < upper_bound *)
Definition in_bucket (lower : Z) (upper : option Z) (v : Z) : bool :=
  (lower <=? v) && match upper with None => true | Some u => v <? u end.
(** histogram.py:50-55: the loop over the buckets; the buckets are updated in place *)
Fixpoint bucket_loop (lower : Z) (limits : list Z) (buckets : list Z) (v : Z) : list Z :=
  match buckets with
  | [] => []
  | b :: bs =>
    match limits with
    | [] => (if in_bucket lower None v then b + 1 else b) :: bs
    | u :: us => (if in_bucket lower (Some u) v then b + 1 else b) :: bucket_loop u us bs v
    end
  end.
(** histogram.py:40-55 _handle without labels *)
Definition hleaf_handle (limits : list Z) (v : Z) (s : hleaf) : hleaf :=
  (bucket_loop 0 limits (fst s) v, (fst (snd s) + 1, snd (snd s) + v)).
Record histogram : Type := { h_own : hleaf; h_enabled : bool; h_kids : dict Lab hleaf }.
Definition histogram_new (limits : list Z) : histogram := {| h_own := hleaf_new limits; h_enabled := false; h_kids := [] |}.
(** histogram.py:40-55 _handle *)
Definition histogram_handle (limits : list Z) (aggregate : bool) (s : histogram) (o : Z * option Lab) : histogram :=
  let (v, labels) := o in
  let counted := (fst (snd (h_own s)) + 1, snd (snd (h_own s)) + v) in
  if h_enabled s || is_labelled labels
  then {| h_own := (if aggregate then bucket_loop 0 limits (fst (h_own s)) v else fst (h_own s), counted);
          h_enabled := h_enabled s || is_labelled labels;
          h_kids := sub_handle (hleaf_new limits) (hleaf_handle limits v) (h_kids s) labels |}
  else {| h_own := (bucket_loop 0 limits (fst (h_own s)) v, counted); h_enabled := h_enabled s; h_kids := h_kids s |}.
Definition histogram_run (limits : list Z) (aggregate : bool) (h : list (Z * option Lab)) : histogram :=
  fold_left (histogram_handle limits aggregate) h (histogram_new limits).
(** histogram.py:73-84 containers_to_metric_data. MetricDataCollection(list) is a set of the list: of equal data the first
    stays. *)
Fixpoint containers (lower : Z) (limits : list Z) (buckets : list Z) (labels : Lab) : coll Z :=
  match buckets with
  | [] => []
  | b :: bs =>
    match limits with
    | [] => [((""%string, labels, EBucket lower None), b)]
    | u :: us => ((""%string, labels, EBucket lower (Some u)), b) :: containers u us bs labels
    end
  end.
(** histogram.py:68-71 *)
Definition hleaf_export (limits : list Z) (labels : Lab) (s : hleaf) : coll Z :=
  madd (madd (containers 0 limits (fst s) labels) (".sum"%string, labels, ENone) (snd (snd s))) (".count"%string, labels, ENone) (fst (snd s)).
(** histogram.py:57-71 to_metric_data; [empty] is the empty set of labels *)
Definition histogram_export (limits : list Z) (aggregate : bool) (empty own : Lab) (s : histogram) : coll Z :=
  if h_enabled s
  then let k := sub_export (hleaf_export limits) (h_kids s) in
       if aggregate
       then munion k (madd (madd (with_total (containers 0 limits (fst (h_own s)) own))
                                 (".total.sum"%string, empty, ENone) (snd (snd (h_own s))))
                           (".total.count"%string, empty, ENone) (fst (snd (h_own s))))
       else k
  else hleaf_export limits own (h_own s).

(** ** summary.py *)
(** the state of one without submetrics: calls_queue (the newest first), tot_calls, tot_time *)
Definition sleaf : Type := (list Z * (Z * Z))%type.
(** summary.py:39-45 *)
Definition sleaf_new : sleaf := ([], (0, 0)).
(** summary.py:55-58: pop from the right of an empty deque raises IndexError *)
Definition queue_push (last_calls : Z) (q : list Z) (v : Z) : list Z * res unit :=
  if Z.of_nat (length q) =? last_calls
  then match q with [] => (q, Err IndexError) | _ => (v :: removelast q, Ok tt) end
  else (v :: q, Ok tt).
(** summary.py:48-50 *)
Definition tally (count_calls : bool) (t : Z * Z) (v : Z) : Z * Z := if count_calls then (fst t + 1, snd t + v) else t.
(** summary.py:47-58 _handle without labels *)
Definition sleaf_handle (last_calls : Z) (count_calls : bool) (v : Z) (s : sleaf) : sleaf :=
  (fst (queue_push last_calls (fst s) v), tally count_calls (snd s) v).
Record summary : Type := { s_own : sleaf; s_enabled : bool; s_kids : dict Lab sleaf }.
Definition summary_new : summary := {| s_own := sleaf_new; s_enabled := false; s_kids := [] |}.
(** summary.py:47-58 _handle; what it raises *)
Definition summary_handle (last_calls : Z) (count_calls : bool) (s : summary) (o : Z * option Lab) : summary * res unit :=
  let (v, labels) := o in
  let t := tally count_calls (snd (s_own s)) v in
  if is_labelled labels || s_enabled s
  then ({| s_own := (fst (s_own s), t); s_enabled := s_enabled s || is_labelled labels;
           s_kids := sub_handle sleaf_new (sleaf_handle last_calls count_calls v) (s_kids s) labels |},
        match labels with
        | None => Ok tt
        | Some l => snd (queue_push last_calls (fst (match dget leqb (s_kids s) l with Some k => k | None => sleaf_new end)) v)
        end)
  else ({| s_own := (fst (queue_push last_calls (fst (s_own s)) v), t); s_enabled := s_enabled s; s_kids := s_kids s |},
        snd (queue_push last_calls (fst (s_own s)) v)).
Definition summary_run (last_calls : Z) (count_calls : bool) (h : list (Z * option Lab)) : summary :=
  fold_left (fun s o => fst (summary_handle last_calls count_calls s o)) h summary_new.
(** summary.py:93-104 calculate_quantiles. An [Err] in the result stands for the exception of percentile: the whole export
    then raises it. *)
Definition quantile_of (calls : list Z) (q : Q) : res Q :=
  match py_sorted Z.ltb calls with
  | [] => Ok 0%Q
  | sorted_calls => percentile (map inject_Z sorted_calls) q
  end.
Definition calculate_quantiles (quantiles : list Q) (calls : list Z) (labels : Lab) : coll (res Q) :=
  fold_left (fun output q => madd output (""%string, labels, EQuantile q) (quantile_of calls q)) quantiles [].
(** summary.py:62-67, summary.py:82-87 *)
Definition add_tally (count_calls : bool) (labels : Lab) (t : Z * Z) (k : coll (res Q)) : coll (res Q) :=
  if count_calls
  then madd (madd k (".count"%string, labels, ENone) (Ok (inject_Z (fst t)))) (".sum"%string, labels, ENone) (Ok (inject_Z (snd t)))
  else k.
(** summary.py:60-67 with summary.py:91 *)
Definition sleaf_export (quantiles : list Q) (count_calls : bool) (labels : Lab) (s : sleaf) : coll (res Q) :=
  add_tally count_calls labels (snd s) (calculate_quantiles quantiles (fst s) labels).
(** summary.py:60-91 to_metric_data and _to_metric_data *)
Definition summary_export (quantiles : list Q) (aggregate count_calls : bool) (own : Lab) (s : summary) : coll (res Q) :=
  if s_enabled s
  then let k := sub_export (sleaf_export quantiles count_calls) (s_kids s) in
       let k := if aggregate
                then munion k (with_total (calculate_quantiles quantiles (py_sorted Z.ltb (flat_map (fun kid => fst (snd kid)) (s_kids s))) own))
                else k in
       add_tally count_calls own (snd (s_own s)) (add_tally count_calls own (snd (s_own s)) k)
  else sleaf_export quantiles count_calls own (s_own s).

(** ** cps.py *)
(** cps.py:41-44: the loop that pops from the left; an empty deque ends it through IndexError *)
Fixpoint pop_old (limit : Z) (q : list Z) : list Z :=
  match q with
  | [] => []
  | x :: r => if x <=? limit then pop_old limit r else q
  end.
(** cps.py:38-44: [t] is the first reading of the clock in handle, [t'] the second one *)
Definition click (cutoff : Z) (t t' : Z) (q : list Z) : list Z := pop_old (t - cutoff) (q ++ [t']).
Record cps : Type := { p_own : list Z; p_enabled : bool; p_kids : dict Lab (list Z) }.
Definition cps_new : cps := {| p_own := []; p_enabled := false; p_kids := [] |}.
(** cps.py:34-44 _handle *)
Definition cps_handle (cutoff : Z) (s : cps) (o : (Z * Z) * option Lab) : cps :=
  let '((t, t'), labels) := o in
  if is_labelled labels || p_enabled s
  then {| p_own := p_own s; p_enabled := p_enabled s || is_labelled labels; p_kids := sub_handle [] (click cutoff t t') (p_kids s) labels |}
  else {| p_own := click cutoff t t' (p_own s); p_enabled := p_enabled s; p_kids := p_kids s |}.
(** cps.py:28,31: time_unit_vectors or [1]; max(time_unit_vectors) *)
Definition periods_of (time_unit_vectors : list Z) : list Z := match time_unit_vectors with [] => [1] | _ => time_unit_vectors end.
Definition cutoff_of (time_unit_vectors : list Z) : Z :=
  match periods_of time_unit_vectors with [] => 1 | x :: r => fold_left Z.max r x end.
Definition cps_run (time_unit_vectors : list Z) (h : list ((Z * Z) * option Lab)) : cps :=
  fold_left (cps_handle (cutoff_of time_unit_vectors)) h cps_new.
(** cps.py:63-78 count_vectors, at the reading [now] *)
Definition count_vectors (periods : list Z) (now : Z) (clicks : list Z) (labels : Lab) : coll Z :=
  map (fun p => ((""%string, labels, EPeriod p), Z.of_nat (length (filter (fun v => now - p <=? v) clicks)))) periods.
(** cps.py:46-61 to_metric_data. Simplified: the clock, which is read for every child and for the total, gives the same
    reading during one export. *)
Definition cps_export (time_unit_vectors : list Z) (aggregate : bool) (own : Lab) (now : Z) (s : cps) : coll Z :=
  let periods := periods_of time_unit_vectors in
  if p_enabled s
  then let k := sub_export (fun l q => count_vectors periods now q l) (p_kids s) in
       if aggregate
       then munion k (with_total (count_vectors periods now (flat_map snd (p_kids s)) own))
       else k
  else count_vectors periods now (p_own s) own.

(** ** linkfail.py *)
(** a call of callback_on_online ([true]) or callback_on_offline, with the address and the labels *)
Definition callback : Type := (bool * Z * Lab)%type.
(** linkfail.py:42-44: three defaultdicts *)
Record lleaf : Type := { working : dict Z bool; failures : dict Z Z; successes : dict Z Z }.
Definition lleaf_new : lleaf := {| working := []; failures := []; successes := [] |}.
Definition getd {V} (d : dict Z V) (default : V) (a : Z) : V := match dget Z.eqb d a with Some v => v | None => default end.
(** linkfail.py:53-67 _handle without labels: the state and the callbacks called. Reading a defaultdict also stores the
    default; only [working] is read without being stored, and its keys are never used: that is left out. *)
Definition lleaf_handle (to_offline to_online : Z) (labels : Lab) (success : bool) (a : Z) (s : lleaf) : lleaf * list callback :=
  if success
  then let n := getd (successes s) 0 a + 1 in
       let up := negb (getd (working s) true a) && (n =? to_online) in
       ({| working := if up then dset Z.eqb (working s) a true else working s;
           failures := dset Z.eqb (failures s) a 0; successes := dset Z.eqb (successes s) a n |},
        if up then [(true, a, labels)] else [])
  else let n := getd (failures s) 0 a + 1 in
       let down := getd (working s) true a && (n =? to_offline) in
       ({| working := if down then dset Z.eqb (working s) a false else working s;
           failures := dset Z.eqb (failures s) a n; successes := dset Z.eqb (successes s) a 0 |},
        if down then [(false, a, labels)] else []).
Record linkfail : Type := { l_own : lleaf; l_enabled : bool; l_kids : dict Lab lleaf; l_log : list callback }.
Definition linkfail_new : linkfail := {| l_own := lleaf_new; l_enabled := false; l_kids := []; l_log := [] |}.
(** linkfail.py:50-67 _handle. With labels, or after a call with labels, the address becomes one of the labels of the child
    ([with_address]) and the child gets the address 0. *)
Definition linkfail_handle (to_offline to_online : Z) (with_address : Lab -> Z -> Lab) (empty own : Lab) (s : linkfail) (o : (bool * Z) * option Lab) : linkfail :=
  let '((success, a), labels) := o in
  if l_enabled s || is_labelled labels
  then let l := with_address (match labels with Some l => l | None => empty end) a in
       {| l_own := l_own s; l_enabled := true;
          l_kids := sub_handle lleaf_new (fun k => fst (lleaf_handle to_offline to_online l success 0 k)) (l_kids s) (Some l);
          l_log := l_log s ++ snd (lleaf_handle to_offline to_online l success 0 (match dget leqb (l_kids s) l with Some k => k | None => lleaf_new end)) |}
  else let r := lleaf_handle to_offline to_online own success a (l_own s) in
       {| l_own := fst r; l_enabled := false; l_kids := l_kids s; l_log := l_log s ++ snd r |}.
Definition linkfail_run (to_offline to_online : Z) (with_address : Lab -> Z -> Lab) (empty own : Lab) (h : list ((bool * Z) * option Lab)) : linkfail :=
  fold_left (linkfail_handle to_offline to_online with_address empty own) h linkfail_new.
Definition is_zero_only (keys : list Z) : bool := match keys with [0] => true | _ => false end.
(** linkfail.py:69-85 to_metric_data, which does not look at the submetrics. The keys of the two dictionaries are the same;
    [order] is the order in which Python walks through their set. *)
Definition linkfail_export (order : list Z -> list Z) (own : Lab) (s : linkfail) : coll Z :=
  let keys := dkeys (successes (l_own s)) in
  fold_left (fun mdc a =>
    let e := if is_zero_only keys then ENone else EAddress a in
    madd (madd (madd mdc (".consecutive_failures"%string, own, e) (getd (failures (l_own s)) 0 a))
               (".consecutive_successes"%string, own, e) (getd (successes (l_own s)) 0 a))
         (".status"%string, own, ENone) (if getd (working (l_own s)) true a then 1 else 0))
    (order keys) [].
End Metrics.
