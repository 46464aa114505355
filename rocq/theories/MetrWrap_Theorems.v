(** C114: metrics that hold the last value, compute it, or pass it on. C115: one operation on many objects. *)
From Verif Require Import Prelude PreludeFacts MoreFacts MetrWrap_Model MetrWrap_Spec MetrWrap_Proofs.
From Coq Require Import Lia.
Set Implicit Arguments.

(** C114. After any calls: without labels in any of them, the one value exported is the last that could be converted;
    otherwise one value for each set of labels that was used, the last with these labels. *)
Theorem C114_simple : forall Lab Raw V (leqb : Lab -> Lab -> bool), eqb_ok leqb ->
  forall (constructor : Raw -> res V) default own h,
  let out := simple_export own (simple_run leqb constructor default h) in
  ((forall r l, ~ In (r, Some l) h) -> exists v, out = [(own, v)] /\ last_value constructor default None h v) /\
  ((exists r l, In (r, Some l) h) -> NoDup (map fst out) /\ (forall l, In l (map fst out) <-> exists r, In (r, Some l) h) /\
     (forall l v, In (l, v) out -> last_value constructor default (Some l) h v)).
Proof.
  intros Lab Raw V leqb ok constructor default own h out. pose proof (sinv_run ok constructor default h) as I. unfold out, simple_export. split.
  - intros H. destruct (s_enabled (simple_run leqb constructor default h)) eqn:E.
    + apply (i_on I) in E as [l [r Hr]]. exfalso. exact (H _ _ Hr).
    + eexists. split; [reflexivity|]. exact (i_data I E).
  - intros (r & l & H). assert (E : s_enabled (simple_run leqb constructor default h) = true) by (apply (i_on I); exists l, r; exact H).
    rewrite E. split; [exact (i_nodup I)|]. split; [exact (i_keys I)|]. intros l' v' Hi. apply (i_kids I). apply (In_dget ok); [exact (i_nodup I)|exact Hi].
Qed.
Print Assumptions C114_simple.
(** Every value that was accepted is exported until the next with the same labels; what was refused changes nothing. *)
Definition C114_full_statement : Prop := forall (constructor : Z -> res Z) own h r l,
  match simple_handle Nat.eqb constructor 0%Z (simple_run Nat.eqb constructor 0%Z h) (r, l) with
  | (s, Ok _) => exists v, constructor r = Ok v /\ In (match l with Some l => l | None => own end, v) (simple_export own s)
  | (s, Err _) => simple_export own s = simple_export own (simple_run Nat.eqb constructor 0%Z h)
  end.
(** Without labels, or always with some, the first half holds. *)
Theorem C114_partial : forall Lab Raw V (leqb : Lab -> Lab -> bool), eqb_ok leqb ->
  forall (constructor : Raw -> res V) default own h r l s,
  l <> None \/ (forall r l, ~ In (r, Some l) h) ->
  simple_handle leqb constructor default (simple_run leqb constructor default h) (r, l) = (s, Ok tt) ->
  exists v, constructor r = Ok v /\ In (match l with Some l => l | None => own end, v) (simple_export own s).
Proof.
  intros Lab Raw V leqb ok constructor default own h r l s Hc E. pose proof (sinv_run ok constructor default h) as I. simpl in E.
  destruct l as [l|].
  - destruct (constructor r) as [v|e]; [|discriminate]. injection E as <-. exists v. split; [reflexivity|]. unfold simple_export. simpl.
    apply (dget_In ok). apply (dget_dset_eq ok).
  - destruct Hc as [Hc|Hc]; [contradiction|]. destruct (s_enabled (simple_run leqb constructor default h)) eqn:Ee.
    + apply (i_on I) in Ee as [l [r' Hr]]. exfalso. exact (Hc _ _ Hr).
    + destruct (constructor r) as [v|e]; [|discriminate]. injection E as <-. exists v. split; [reflexivity|]. left. reflexivity.
Qed.
Print Assumptions C114_partial.
Example C114_case :
  let int_ r := if (r <? 0)%Z then Err ValueError else Ok r in
  simple_export 0 (simple_run Nat.eqb int_ 0%Z [(4, None); (-1, None)]%Z) = [(0, 4%Z)] /\
  simple_export 0 (simple_run Nat.eqb int_ 0%Z [(4, None); (5, Some 1%nat); (6, Some 2%nat); (7, Some 1%nat)]%Z) = [(1, 7%Z); (2, 6%Z)].
Proof. split; reflexivity. Qed.
(** A value without labels after one with labels is lost, *)
Theorem C114_full_statement_refuted : ~ C114_full_statement.
Proof.
  intros H. destruct (H (fun r => Ok r) 0 [(1%Z, Some 3)] 5%Z None) as (v & [= <-] & [E|[]]). discriminate E.
Qed.
Print Assumptions C114_full_statement_refuted.
(** and a refused value with new labels makes a metric with the default value. *)
Theorem C114_refused_refuted :
  let int_ r := if (r <? 0)%Z then Err ValueError else Ok r in
  simple_handle Nat.eqb int_ 0%Z (simple_run Nat.eqb int_ 0%Z []) ((-1)%Z, Some 3) =
    ({| s_data := 0%Z; s_enabled := true; s_kids := [(3, 0%Z)] |}, Err ValueError) /\
  simple_export 9 (simple_run Nat.eqb int_ 0%Z [((-1)%Z, Some 3)]) = [(3, 0%Z)].
Proof. split; reflexivity. Qed.
Print Assumptions C114_refused_refuted.

(** A callable metric exports its own value, and one for each set of labels registered with it (added to its own): the
    last of those with the same labels. *)
Theorem C114_callable : forall K W V (keqb : K -> K -> bool) (weqb : W -> W -> bool), eqb_ok keqb -> eqb_ok weqb ->
  forall (own : dict K W) (labelled : list (dict K W * V)) value,
  NoDup (dkeys own) -> Forall (fun e => NoDup (dkeys (fst e))) labelled ->
  let all := map (fun e => (update keqb own (fst e), snd e)) labelled ++ match value with Some v => [(own, v)] | None => [] end in
  let same a b := forall k : K, dget keqb a k = dget keqb b k in
  (forall e, In e (callable_export keqb weqb own labelled value) <->
             exists l1 l2, all = l1 ++ e :: l2 /\ Forall (fun e' => ~ same (fst e) (fst e')) l2) /\
  ForallOrdPairs (fun a b => ~ same (fst a) (fst b)) (callable_export keqb weqb own labelled value) /\
  Forall (fun e => forall k, dget keqb (update keqb own (fst e)) k = match dget keqb (fst e) k with Some w => Some w | None => dget keqb own k end) labelled.
Proof.
  intros K W V keqb weqb kok wok own labelled value Ho Hl all same.
  assert (E : callable_export keqb weqb own labelled value = adds keqb weqb all).
  { unfold callable_export, all, adds. rewrite fold_left_app.
    assert (M : forall c, fold_left (fun c e => add_datum keqb weqb c (update keqb own (fst e)) (snd e)) labelled c =
              fold_left (fun c e => add_datum keqb weqb c (fst e) (snd e)) (map (fun e => (update keqb own (fst e), snd e)) labelled) c).
    { clear. induction labelled as [|e t IH]; intros c; simpl; [reflexivity|]. apply IH. }
    rewrite <- M. destruct value; reflexivity. }
  assert (N : forall e, In e all -> NoDup (dkeys (fst e))).
  { intros e He. unfold all in He. apply in_app_iff in He as [He|He].
    - apply in_map_iff in He as (x & <- & _). apply (update_NoDup kok). exact Ho.
    - destruct value; [|destruct He]. destruct He as [<-|[]]. exact Ho. }
  assert (Eq : forall a b, In a all -> In b all -> (same_labels keqb weqb (fst a) (fst b) = false <-> ~ same (fst a) (fst b))).
  { intros a b Ha Hb. pose proof (same_spec kok wok _ _ (N _ Ha) (N _ Hb)) as Sp. unfold same. destruct (same_labels keqb weqb (fst a) (fst b)); intuition congruence. }
  rewrite E. split; [|split].
  - intros e. rewrite adds_In. split; intros (l1 & l2 & El & F); exists l1, l2; (split; [exact El|]); rewrite Forall_forall in *; intros x Hx; specialize (F x Hx);
      apply Eq; auto; rewrite El; apply in_app_iff; simpl; auto.
  - assert (Sub : forall e, In e (adds keqb weqb all) -> In e all) by (intros e He; apply adds_In in He as (l1 & l2 & -> & _); apply in_app_iff; simpl; auto).
    pose proof (adds_apart keqb weqb all) as P. clear E. revert P Sub. generalize (adds keqb weqb all). intros c P. induction P as [|x t Hx Ht IH]; intros Sub; constructor.
    + rewrite Forall_forall in *. intros y Hy. apply Eq; [apply Sub; left; reflexivity|apply Sub; right; exact Hy|apply Hx; exact Hy].
    + apply IH. intros e He. apply Sub. right. exact He.
  - rewrite Forall_forall in *. intros e He k. apply (update_get kok). apply Hl. exact He.
Qed.
Print Assumptions C114_callable.
Example C114_callable_case : callable_export Nat.eqb Nat.eqb [(1, 1)] [([(2, 5)], 10%Z); ([(1, 7)], 11%Z); ([(2, 5)], 12%Z)] (Some 9%Z) =
  [([(1, 7)], 11%Z); ([(1, 1); (2, 5)], 12%Z); ([(1, 1)], 9%Z)].
Proof. reflexivity. Qed.
(** An uptime metric never decreases, and is never negative, if the clock does not go back. *)
Theorem C114_uptime : forall t0 t1 t2, (t0 <= t1)%Z -> (t1 <= t2)%Z ->
  (0 <= uptime_export t0 t1 <= uptime_export t0 t2)%Z /\ uptime_export t0 t2 = (uptime_export t0 t1 + (t2 - t1))%Z.
Proof. unfold uptime_export. lia. Qed.
Print Assumptions C114_uptime.

(** However labels and aggregates are put into each other, a call is the calls of the metrics they stand for, in turn until the
    first exception, with the labels of the call and of the wrappers, of which the innermost count. *)
Theorem C114_wrapped : forall K W A S (keqb : K -> K -> bool), eqb_ok keqb ->
  forall (proper : S -> nat -> A -> dict K W -> S * option exn) m s args kwargs, proper_labels m ->
  in_turn keqb proper args kwargs (targets m []) s (handle keqb proper m s args kwargs).
Proof. intros K W A S keqb kok proper m s args kwargs Hp. apply handle_turn; auto. Qed.
Print Assumptions C114_wrapped.
Example C114_wrapped_case :
  let log s i (args : nat) labels := (s ++ [(i, args, labels)], if i =? 3 then Some TypeError else None) in
  let m := Aggregate [Labeled (Proper nat nat 1) [(1, 10)]; Labeled (Aggregate [Proper _ _ 2; Proper _ _ 3]) [(1, 20)]; Proper _ _ 4] in
  handle Nat.eqb log (Labeled m [(1, 5); (2, 6)]) [] 7 [(2, 0); (3, 0)] =
  ([(1, 7, [(2, 6); (3, 0); (1, 10)]); (2, 7, [(2, 6); (3, 0); (1, 20)]); (3, 7, [(2, 6); (3, 0); (1, 20)])], Some TypeError) /\
  proper_labels (Labeled m [(1, 5); (2, 6)]).
Proof. split; [reflexivity|]. simpl. repeat split; repeat constructor; simpl; intuition congruence. Qed.

(** C115. A method called on a Multirun is called on every element in order, until one raises; the elements are returned. *)
Definition C115_full_statement : Prop := forall S (op : nat -> S -> S * option exn) has src s,
  (forall x, In x (elements src) -> has x = true) ->
  exists s' r, loop op (elements src) s s' r /\
    multirun_call op has src s = (s', match r with None => Ok (elements src) | Some e => Err e end).
(** So it is unless it was made of an iterator; *)
Theorem C115_partial : forall S (op : nat -> S -> S * option exn) has l s,
  (forall x, In x l -> has x = true) ->
  exists s' r, loop op l s s' r /\ multirun_call op has (Again l) s = (s', match r with None => Ok l | Some e => Err e end).
Proof.
  intros S op has l s H. destruct (@each_loop _ op has l H s []) as (s' & r & L & E). exists s', r. split; [exact L|]. simpl in *.
  destruct l as [|x t]; [exact E|]. rewrite (H x) by (left; reflexivity). exact E.
Qed.
Print Assumptions C115_partial.
(** operators do so for all. *)
Theorem C115_operator : forall S (op : nat -> S -> S * option exn) has src s,
  (forall x, In x (elements src) -> has x = true) ->
  exists s' r, loop op (elements src) s s' r /\
    multirun_operator op has src s = (s', match r with None => Ok (elements src) | Some e => Err e end).
Proof. intros S op has [l|l] s H; destruct (@each_loop _ op has l H s []) as (s' & r & L & E); exists s', r; split; assumption. Qed.
Print Assumptions C115_operator.
(** Nothing is done to the first element of an iterator. *)
Theorem C115_iterator : forall S (op : nat -> S -> S * option exn) has x l s,
  (forall y, In y (x :: l) -> has y = true) ->
  exists s' r, loop op l s s' r /\ multirun_call op has (Once (x :: l)) s = (s', match r with None => Ok l | Some e => Err e end).
Proof.
  intros S op has x l s H. destruct (@each_loop S op has l (fun y Hy => H y (or_intror Hy)) s []) as (s' & r & L & E).
  exists s', r. split; [exact L|]. simpl. rewrite (H x) by (left; reflexivity). exact E.
Qed.
Print Assumptions C115_iterator.
Theorem C115_full_statement_refuted : ~ C115_full_statement.
Proof.
  intros H. destruct (H (list nat) (fun x s => (s ++ [x], None)) (fun _ => true) (Once [1]) [] (fun _ _ => eq_refl)) as (s' & r & L & E).
  inversion L as [|? ? ? ? ? Hop|? ? ? s1 ? ? Hop Ht]; subst; [discriminate Hop|]. injection Hop as <-. inversion Ht; subst. discriminate E.
Qed.
Print Assumptions C115_full_statement_refuted.
Example C115_case : multirun_call (fun x s => (s ++ [x], if x =? 3 then Some ValueError else None)) (fun _ => true) (Again [1; 2; 3; 4]) [] = ([1; 2; 3], Err ValueError).
Proof. reflexivity. Qed.
