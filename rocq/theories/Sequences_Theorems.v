(** C19 group_quantity and C20 the other helpers of sequences.py. *)
From Verif Require Import Prelude PreludeFacts MoreFacts Order_Spec PyGen_Model Sequences_Model Sequences_Spec Sequences_Proofs.

(** C19: for every positive length, of a sequence and of an iterator, the groups cut
    the input into consecutive pieces, all of them full but perhaps the last. *)
Theorem C19_group_quantity : forall (T : Type) (is_sequence : bool) (n : nat) (l : list T), 1 <= n ->
  exists gs, gen_list (group_quantity is_sequence (Z.of_nat n) l) = Ok gs /\ is_grouping n l gs.
Proof. intros T b n l H. exact (group_quantity_ok b n l H). Qed.
Print Assumptions C19_group_quantity.

(** There is one such cut only, so the two variants agree. *)
Theorem C19_variants_agree : forall (T : Type) (n : nat) (l : list T), 1 <= n ->
  gen_list (group_quantity true (Z.of_nat n) l) = gen_list (group_quantity false (Z.of_nat n) l).
Proof. intros T n l H. exact (group_agree n l H). Qed.
Print Assumptions C19_variants_agree.

(** Of an iterator no more than one element is drawn beyond the groups yielded. *)
Theorem C19_iterator_is_lazy : forall (T : Type) (length_ : Z) (l : list T) before g left after,
  yields (group_quantity false length_ l) = before ++ (g, left) :: after ->
  exists ahead, l = concat (map fst before) ++ g ++ ahead ++ left /\ length ahead <= 1.
Proof. intros T len l before g r after H. exact (group_iter_lazy len l [] before g r after H). Qed.
Print Assumptions C19_iterator_is_lazy.

(** Outside of the property's domain: no positive length, no end. *)
Theorem C19_not_positive_diverges : forall (T : Type) (length_ : Z) (s : list T) fuel,
  (length_ <= 0)%Z -> s <> [] -> ends (group_seq fuel length_ s 0) = Some Diverges.
Proof.
  intros T len s fuel H Hs. apply (group_seq_diverges len s H). destruct s; [congruence|simpl; lia].
Qed.
Print Assumptions C19_not_positive_diverges.

Example C19_example :
  gen_list (group_quantity true 3 [1; 2; 3; 4; 5; 6; 7]) = Ok [[1; 2; 3]; [4; 5; 6]; [7]] /\
  yields (group_quantity false 3 [1; 2; 3; 4; 5; 6; 7]) = [([1; 2; 3], [5; 6; 7]); ([4; 5; 6], []); ([7], [])] /\
  is_grouping 3 [1; 2; 3; 4; 5; 6; 7] [[1; 2; 3]; [4; 5; 6]; [7]].
Proof.
  split; [vm_compute; reflexivity|]. split; [vm_compute; reflexivity|].
  destruct (C19_group_quantity nat true 3 [1; 2; 3; 4; 5; 6; 7]) as [gs [E G]]; [lia|].
  vm_compute in E. inversion E. subst. exact G.
Qed.

(** C20, is_last of what is not empty: every element in order, flagged exactly when it
    is the last; one element is read ahead. Missing: the empty input (refuted below). *)
Theorem C20_is_last_partial : forall (T : Type) (l : list T), l <> [] ->
  ends (is_last l) = None /\
  described (map fst (yields (is_last l))) (length l) (flagged l) /\
  (forall k b left, nth_error (yields (is_last l)) k = Some (b, left) -> left = skipn (S (S k)) l).
Proof. intros T l H. exact (is_last_ok l H). Qed.
Print Assumptions C20_is_last_partial.

Definition C20_full_statement : Prop :=
  forall (T : Type) (l : list T), exists out, gen_list (is_last l) = Ok out /\ described out (length l) (flagged l).

(** is_last([]) raises RuntimeError instead of yielding nothing. *)
Theorem C20_is_last_empty_refuted : forall T : Type, gen_list (is_last (@nil T)) = Err RuntimeError.
Proof. intros T. reflexivity. Qed.
Print Assumptions C20_is_last_empty_refuted.

Theorem C20_full_statement_refuted : ~ C20_full_statement.
Proof. intros H. destruct (H nat []) as [out [E _]]. discriminate. Qed.
Print Assumptions C20_full_statement_refuted.

(** C20, add_next: every element with its successor; the last one with the first
    (wrap_over), with None, or, asked to skip it, left out. *)
Theorem C20_add_next : forall (T : Type) (wrap_over skip_last : bool) (l : list T),
  ends (add_next wrap_over skip_last l) = None /\
  described (map fst (yields (add_next wrap_over skip_last l)))
            (length l - (if negb wrap_over && skip_last then 1 else 0))
            (with_next l (if wrap_over then hd_error l else None)) /\
  (forall k b left, nth_error (yields (add_next wrap_over skip_last l)) k = Some (b, left) -> left = skipn (S (S k)) l).
Proof. intros T w s l. exact (add_next_ok w s l). Qed.
Print Assumptions C20_add_next.

(** C20, half_cartesian of a sequence. *)
Theorem C20_half_cartesian : forall (T : Type) (l : list T) (include_same_pairs : bool),
  is_half_square include_same_pairs l (half_cartesian l include_same_pairs).
Proof. intros T l b. exact (half_cartesian_ok l b). Qed.
Print Assumptions C20_half_cartesian.

(** Of an iterator, which its type admits as well, only pairs with the first element
    come out, and never a pair of the same one. *)
Theorem C20_half_cartesian_of_iterator : forall (T : Type) (x : T) (l : list T),
  half_cartesian_iterator (x :: l) true = map (fun y => (x, y)) l.
Proof. intros T x l. exact (half_inner_0 x l 0). Qed.
Print Assumptions C20_half_cartesian_of_iterator.

(** C20, the filters. *)
Theorem C20_filters : forall (T : Type) (test : T -> bool) (l : list T),
  filter_out_nones test l = filter (fun x => negb (test x)) l /\ filter_out_false test l = filter test l.
Proof. intros T t l. split; exact (filter_out_loop_ok _ l []). Qed.
Print Assumptions C20_filters.

(** C20, index_of: the first position that satisfies, or ValueError when none does. *)
Theorem C20_index_of : forall (T : Type) (p : T -> bool) (l : list T),
  match index_of p l with
  | Ok i => is_first p l i
  | Err e => e = ValueError /\ forall x, In x l -> p x = false
  end.
Proof. intros T p l. exact (index_of_ok p l). Qed.
Print Assumptions C20_index_of.

(** C20, index_of_max: the first position of a maximum. *)
Theorem C20_index_of_max : forall (T : Type) (lt : T -> T -> bool) (l : list T), total_preorder lt ->
  match index_of_max (fun a b => lt b a) l with
  | Ok i => exists m, nth_error l i = Some m /\
              (forall x, In x l -> lt m x = false) /\
              (forall j x, j < i -> nth_error l j = Some x -> lt x m = true)
  | Err e => e = ValueError /\ l = []
  end.
Proof. intros T lt l H. exact (index_of_max_ok lt H l). Qed.
Print Assumptions C20_index_of_max.

(** C20, make_list: n copies, each made anew; none for a negative n. *)
Theorem C20_make_list : forall (T : Type) (copy deepcopy : nat -> T -> T) (element : T) (n : Z) (deep : bool),
  make_list copy deepcopy element n deep =
  map (fun k => (if deep then deepcopy else copy) k element) (seq 0 (Z.to_nat n)).
Proof. intros T c d e n deep. exact (make_list_loop_ok _ e (Z.to_nat n) 0 []). Qed.
Print Assumptions C20_make_list.

(** C20, infinite_iterator, any number of elements of it: the object itself, or what
    the calls of the factory give. *)
Theorem C20_infinite_iterator : forall (T : Type) (returns : option T) (factory : option (nat -> option T)) n,
  infinite_iterator returns factory 0 n =
  map (fun k => match returns, factory with Some x, _ => Some x | None, Some f => f k | None, None => None end) (seq 0 n).
Proof.
  intros T r f n. rewrite infinite_iterator_ok. apply map_ext. intros k. destruct r; reflexivity.
Qed.
Print Assumptions C20_infinite_iterator.

Example C20_examples :
  gen_list (is_last [1; 2; 3]) = Ok [(false, 1); (false, 2); (true, 3)] /\
  gen_list (add_next false false [1; 2; 3]) = Ok [(1, Some 2); (2, Some 3); (3, None)] /\
  gen_list (add_next true false [1; 2; 3]) = Ok [(1, Some 2); (2, Some 3); (3, Some 1)] /\
  gen_list (add_next false true [1; 2; 3]) = Ok [(1, Some 2); (2, Some 3)] /\
  half_cartesian [1; 2; 3] true = [(1, 1); (1, 2); (1, 3); (2, 2); (2, 3); (3, 3)] /\
  half_cartesian [1; 2; 3] false = [(1, 2); (1, 3); (2, 3)] /\
  index_of (Nat.eqb 4) [3; 4; 4] = Ok 1 /\ index_of_max (fun a b => Nat.ltb b a) [3; 7; 1; 7] = Ok 1 /\
  filter_out_false (Nat.ltb 2) [1; 3; 2; 4] = [3; 4].
Proof. vm_compute. repeat split. Qed.
