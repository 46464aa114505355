(** What the metrics are expected to export, in terms of the list of observations they were fed with. *)
From Coq Require Import String QArith Sorted.
From Verif Require Import Prelude Transforms_Model Metrics_Model.
Import ListNotations.
Open Scope list_scope.
Open Scope Z_scope.
Set Implicit Arguments.

Section MetricsSpec.
Variable Lab : Type.
Variable leqb : Lab -> Lab -> bool.

(** a history: every observation, oldest first, with the labels given to handle ([None]: no labels) *)
Definition history (A : Type) : Type := list (A * option Lab).
Definition observed {A} (h : history A) : list A := map fst h.
(** the observations made with exactly the labels l *)
Fixpoint observed_with {A} (l : Lab) (h : history A) : list A :=
  match h with
  | [] => []
  | (a, Some l') :: more => if leqb l' l then a :: observed_with l more else observed_with l more
  | (_, None) :: more => observed_with l more
  end.
(** the observations made with any labels *)
Fixpoint observed_labelled {A} (h : history A) : list A :=
  match h with
  | [] => []
  | (a, Some _) :: more => a :: observed_labelled more
  | (_, None) :: more => observed_labelled more
  end.
Definition occurs {A} (l : Lab) (h : history A) : Prop := exists a, In (a, Some l) h.
Definition unlabelled {A} (h : history A) : Prop := forall a o, In (a, o) h -> o = None.
Definition some_labelled {A} (h : history A) : Prop := exists l, occurs l h.

Definition sum (l : list Z) : Z := fold_right Z.add 0 l.
Definition number {A} (l : list A) : Z := Z.of_nat (length l).
Definition name_of (s : string) (l : Lab) (e : extra) : mkey Lab := (s, l, e).

(** ** counter: the exported data *)
Inductive counter_datum (sum_children count_calls : bool) (own : Lab) (h : history Z) : mkey Lab -> Z -> Prop :=
| cd_value : unlabelled h -> counter_datum sum_children count_calls own h (name_of "" own ENone) (sum (observed h))
| cd_calls : unlabelled h -> count_calls = true -> counter_datum sum_children count_calls own h (name_of ".count" own ENone) (number h)
| cd_child l : occurs l h -> counter_datum sum_children count_calls own h (name_of "" l ENone) (sum (observed_with l h))
| cd_child_calls l : occurs l h -> count_calls = true -> counter_datum sum_children count_calls own h (name_of ".count" l ENone) (number (observed_with l h))
| cd_sum : some_labelled h -> sum_children = true -> counter_datum sum_children count_calls own h (name_of ".sum" own ENone) (sum (observed h))
| cd_total_calls : some_labelled h -> count_calls = true -> counter_datum sum_children count_calls own h (name_of ".count" own ENone) (number h).

(** ** histogram *)
(** the buckets: from 0 to the first limit, between neighbouring limits, from the last limit to infinity *)
Definition bucket (limits : list Z) (lower : Z) (upper : option Z) : Prop :=
  exists i, nth_error (0 :: limits) i = Some lower /\ nth_error limits i = upper.
Definition falls (lower : Z) (upper : option Z) (v : Z) : Prop := lower <= v /\ match upper with None => True | Some u => v < u end.
(** n of the observations fall in the bucket *)
Inductive count_falling (lower : Z) (upper : option Z) : list Z -> Z -> Prop :=
| cf_nil : count_falling lower upper [] 0
| cf_in v l n : falls lower upper v -> count_falling lower upper l n -> count_falling lower upper (v :: l) (n + 1)
| cf_out v l n : ~ falls lower upper v -> count_falling lower upper l n -> count_falling lower upper (v :: l) n.
Inductive histogram_datum (limits : list Z) (aggregate : bool) (empty own : Lab) (h : history Z) : mkey Lab -> Z -> Prop :=
| hd_bucket lower upper n : unlabelled h -> bucket limits lower upper -> count_falling lower upper (observed h) n ->
    histogram_datum limits aggregate empty own h (name_of "" own (EBucket lower upper)) n
| hd_sum : unlabelled h -> histogram_datum limits aggregate empty own h (name_of ".sum" own ENone) (sum (observed h))
| hd_count : unlabelled h -> histogram_datum limits aggregate empty own h (name_of ".count" own ENone) (number h)
| hd_child_bucket l lower upper n : occurs l h -> bucket limits lower upper -> count_falling lower upper (observed_with l h) n ->
    histogram_datum limits aggregate empty own h (name_of "" l (EBucket lower upper)) n
| hd_child_sum l : occurs l h -> histogram_datum limits aggregate empty own h (name_of ".sum" l ENone) (sum (observed_with l h))
| hd_child_count l : occurs l h -> histogram_datum limits aggregate empty own h (name_of ".count" l ENone) (number (observed_with l h))
| hd_total lower upper n : some_labelled h -> aggregate = true -> bucket limits lower upper -> count_falling lower upper (observed h) n ->
    histogram_datum limits aggregate empty own h (name_of ".total" own (EBucket lower upper)) n
| hd_total_sum : some_labelled h -> aggregate = true -> histogram_datum limits aggregate empty own h (name_of ".total.sum" empty ENone) (sum (observed h))
| hd_total_count : some_labelled h -> aggregate = true -> histogram_datum limits aggregate empty own h (name_of ".total.count" empty ENone) (number h).

(** ** summary *)
(** the last n, or all of them if n is negative *)
Definition window (n : Z) (l : list Z) : list Z := if n <? 0 then l else skipn (length l - Z.to_nat n) l.
(** the quantile of a multiset of observations: percentile of them sorted, 0 if there are none *)
Definition quantile (obs : list Z) (q : Q) (r : res Q) : Prop :=
  (obs = [] /\ r = Ok 0%Q) \/
  (obs <> [] /\ exists s, Permutation s obs /\ StronglySorted Z.le s /\ r = percentile (map inject_Z s) q).
(** the windows of all the sets of labels together *)
Definition all_windows (n : Z) (h : history Z) (obs : list Z) : Prop :=
  exists ls, NoDup ls /\ (forall l, In l ls <-> occurs l h) /\ obs = flat_map (fun l => window n (observed_with l h)) ls.
Inductive summary_datum (last_calls : Z) (quantiles : list Q) (aggregate count_calls : bool) (own : Lab) (h : history Z) : mkey Lab -> res Q -> Prop :=
| sd_quantile q r : unlabelled h -> In q quantiles -> quantile (window last_calls (observed h)) q r ->
    summary_datum last_calls quantiles aggregate count_calls own h (name_of "" own (EQuantile q)) r
| sd_child q r l : occurs l h -> In q quantiles -> quantile (window last_calls (observed_with l h)) q r ->
    summary_datum last_calls quantiles aggregate count_calls own h (name_of "" l (EQuantile q)) r
| sd_child_count l : occurs l h -> count_calls = true ->
    summary_datum last_calls quantiles aggregate count_calls own h (name_of ".count" l ENone) (Ok (inject_Z (number (observed_with l h))))
| sd_child_sum l : occurs l h -> count_calls = true ->
    summary_datum last_calls quantiles aggregate count_calls own h (name_of ".sum" l ENone) (Ok (inject_Z (sum (observed_with l h))))
| sd_total q r obs : some_labelled h -> aggregate = true -> In q quantiles -> all_windows last_calls h obs -> quantile obs q r ->
    summary_datum last_calls quantiles aggregate count_calls own h (name_of ".total" own (EQuantile q)) r
| sd_count : count_calls = true -> summary_datum last_calls quantiles aggregate count_calls own h (name_of ".count" own ENone) (Ok (inject_Z (number h)))
| sd_sum : count_calls = true -> summary_datum last_calls quantiles aggregate count_calls own h (name_of ".sum" own ENone) (Ok (inject_Z (sum (observed h)))).

(** ** clicks per time unit. An observation is a pair of readings of the clock; the click happened at the second one. *)
Definition at_or_after (t : Z) (clicks : list (Z * Z)) : Z := number (filter (fun c => t <=? snd c) clicks).
Inductive cps_datum (periods : list Z) (aggregate : bool) (own : Lab) (now : Z) (h : history (Z * Z)) : mkey Lab -> Z -> Prop :=
| pd_own p : unlabelled h -> In p periods -> cps_datum periods aggregate own now h (name_of "" own (EPeriod p)) (at_or_after (now - p) (observed h))
| pd_child l p : occurs l h -> In p periods -> cps_datum periods aggregate own now h (name_of "" l (EPeriod p)) (at_or_after (now - p) (observed_with l h))
| pd_total p : some_labelled h -> aggregate = true -> In p periods ->
    cps_datum periods aggregate own now h (name_of ".total" own (EPeriod p)) (at_or_after (now - p) (observed_labelled h)).

(** ** link failures. The outcomes of one address, newest first. *)
(** for how many outcomes, counting from the newest, it has been b *)
Fixpoint streak (b : bool) (outcomes : list bool) : Z :=
  match outcomes with
  | [] => 0
  | x :: older => if Bool.eqb x b then 1 + streak b older else 0
  end.
(** online at the beginning; offline from the to_offline-th consecutive failure, online again from the to_online-th
    consecutive success *)
Fixpoint online (to_offline to_online : Z) (outcomes : list bool) : bool :=
  match outcomes with
  | [] => true
  | x :: older => if online to_offline to_online older
                  then negb (negb x && (streak false outcomes =? to_offline))
                  else x && (streak true outcomes =? to_online)
  end.
(** what an address saw, newest first *)
Fixpoint outcomes_of (a : Z) (newest_first : list (bool * Z)) : list bool :=
  match newest_first with
  | [] => []
  | (b, a') :: older => if a' =? a then b :: outcomes_of a older else outcomes_of a older
  end.
(** the calls of the callbacks, oldest first: one for every change of the state of an address *)
Fixpoint transitions (to_offline to_online : Z) (own : Lab) (newest_first : list (bool * Z)) : list (callback Lab) :=
  match newest_first with
  | [] => []
  | (b, a) :: older =>
    let before := online to_offline to_online (outcomes_of a older) in
    let after := online to_offline to_online (outcomes_of a newest_first) in
    transitions to_offline to_online own older ++ (if Bool.eqb before after then [] else [(after, a, own)])
  end.
(** the address is shown unless 0 is the only one *)
Definition seen (a : Z) (newest_first : list (bool * Z)) : Prop := exists b, In (b, a) newest_first.
Inductive shown (newest_first : list (bool * Z)) (a : Z) : extra -> Prop :=
| shown_only : (forall a', seen a' newest_first -> a' = 0) -> shown newest_first a ENone
| shown_many a' : seen a' newest_first -> a' <> 0 -> shown newest_first a (EAddress a).
(** the exported data apart from the status *)
Inductive linkfail_datum (own : Lab) (newest_first : list (bool * Z)) : mkey Lab -> Z -> Prop :=
| ld_failures a e : seen a newest_first -> shown newest_first a e ->
    linkfail_datum own newest_first (name_of ".consecutive_failures" own e) (streak false (outcomes_of a newest_first))
| ld_successes a e : seen a newest_first -> shown newest_first a e ->
    linkfail_datum own newest_first (name_of ".consecutive_successes" own e) (streak true (outcomes_of a newest_first)).
End MetricsSpec.
