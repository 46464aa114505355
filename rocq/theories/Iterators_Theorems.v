(** C21 the iterator helpers, and C51 choose. *)
From Verif Require Import Prelude PreludeFacts MoreFacts PySeq_Model PyGen_Model Iterators_Model Iterators_Spec Iterators_Proofs.

(** ** C21 *)

(** even / odd: the elements at even / odd positions, read no further than needed. *)
Theorem C21_even : forall (T : Type) (l : list T), draws (even l) l (fun k => 2 * k) (fun _ x => x).
Proof. intros T l. exact (even_draws l). Qed.
Print Assumptions C21_even.
Theorem C21_odd : forall (T : Type) (l : list T), draws (odd l) l (fun k => 2 * k + 1) (fun _ x => x).
Proof.
  intros T l. refine (draws_ext _ _ _ _ _ _ _ _ (odd_draws l)); auto. intros k. lia.
Qed.
Print Assumptions C21_odd.

(** unique: the first occurrences; hence each element once and none missing. *)
Theorem C21_unique : forall (T : Type) (eqb : T -> T -> bool) (l : list T), eqb_ok eqb ->
  exists out, gen_list (unique eqb l) = Ok out /\ out = first_occurrences eqb l /\
              NoDup out /\ (forall x, In x out <-> In x l).
Proof.
  intros T eqb l H. exists (first_occurrences eqb l). pose proof (unique_ok eqb H l) as E.
  split; [exact E|]. split; [reflexivity|].
  unfold gen_list in E. destruct (ends (unique eqb l)) eqn:En; [discriminate|].
  assert (X : map fst (yields (unique_loop eqb [] l)) = first_occurrences eqb l)
    by (unfold unique in E; inversion E; reflexivity).
  destruct (unique_loop_set eqb H l [] _ X) as [H1 H2]. split; [exact H1|].
  intros x. rewrite H2. simpl. tauto.
Qed.
Print Assumptions C21_unique.

(** count, enumerate2, smart_enumerate, infinite_counter: the numbers run from the
    start by the step. For count, start_at stands in for start unless it is 0. *)
Theorem C21_count : forall (T : Type) (l : list T) (start : option Z) (step : Z) (start_at : option Z),
  let first := match start_at, start with
               | Some z, _ => if (z =? 0)%Z then match start with Some s => s | None => 0%Z end else z
               | None, Some s => s
               | None, None => 0%Z
               end in
  draws (count l start step start_at) l (fun k => k) (fun k _ => (first + Z.of_nat k * step)%Z).
Proof.
  intros T l start step start_at first. unfold count.
  replace first with (match match start_at with Some z => if (z =? 0)%Z then start else start_at | None => start end
                      with Some z => z | None => 0%Z end).
  - exact (count_loop_draws l step _).
  - unfold first. destruct start_at as [z|]; auto. destruct (z =? 0)%Z; auto.
Qed.
Print Assumptions C21_count.
Theorem C21_enumerate2 : forall (T : Type) (l : list T) (start step : Z),
  draws (enumerate2 l start step) l (fun k => k) (fun k x => ((start + Z.of_nat k * step)%Z, x)).
Proof. intros T l start step. exact (enumerate2_draws l step start). Qed.
Print Assumptions C21_enumerate2.
Theorem C21_smart_enumerate : forall (T : Type) (rows : list (list T)) (start step : Z),
  draws (smart_enumerate (map Some rows) start step) (map Some rows) (fun k => k)
        (fun k r => ((start + Z.of_nat k * step)%Z, match r with Some row => row | None => [] end)) /\
  (forall rest, let g := smart_enumerate (map Some rows ++ None :: rest) start step in
     ends g = Some TypeError /\ length (yields g) = length rows).
Proof.
  intros T rows start step. split; [exact (smart_enumerate_draws rows step start)|].
  intros rest. exact (smart_enumerate_bad rows rest step start).
Qed.
Print Assumptions C21_smart_enumerate.
Theorem C21_infinite_counter : forall (start step : Z) n,
  infinite_counter start step n = map (fun k => (start + Z.of_nat k * step)%Z) (seq 0 n).
Proof. intros start step n. exact (infinite_counter_ok step n start). Qed.
Print Assumptions C21_infinite_counter.

(** append_sequence, to_iterator and map_list, length, iter_dict_of_list *)
Theorem C21_append_sequence : forall (T : Type) (elems : list T) (l : list (list T)),
  draws (append_sequence elems l) l (fun k => k) (fun _ tpl => tpl ++ elems).
Proof. intros T e l. exact (append_draws e l). Qed.
Print Assumptions C21_append_sequence.
Theorem C21_to_iterator : forall (A B : Type) (f : A -> B) (l : list A),
  draws (to_iterator f l) l (fun k => k) (fun _ x => f x) /\ map_list f l = map f l.
Proof. intros A B f l. split; [exact (to_iterator_draws f l)|reflexivity]. Qed.
Print Assumptions C21_to_iterator.
Theorem C21_length : forall (T : Type) (l : list T), it_length l = Z.of_nat (length l).
Proof. intros T l. exact (length_loop_ok l 0). Qed.
Print Assumptions C21_length.
Theorem C21_iter_dict_of_list : forall (K U : Type) (d : list (K * list U)),
  iter_dict_of_list d = concat (map (fun e => map (pair (fst e)) (snd e)) d).
Proof. intros K U d. exact (iter_dict_ok d). Qed.
Print Assumptions C21_iter_dict_of_list.

(** is_empty: the truth; asked not to exhaust, one element is consumed at most. *)
Theorem C21_is_empty : forall (T : Type) (l : list T) (exhaust : bool),
  (fst (is_empty l exhaust) = true <-> l = []) /\
  snd (is_empty l exhaust) = if exhaust then [] else tl l.
Proof.
  intros T l e. unfold is_empty. destruct e; simpl.
  - unfold it_length. rewrite length_loop_ok. rewrite Z.eqb_eq. destruct l; simpl; split; auto; split; intros; congruence || lia.
  - destruct l; simpl; split; auto; split; intros; congruence.
Qed.
Print Assumptions C21_is_empty.

(** n_th: the n-th element or IndexError; no element beyond it is read. *)
Theorem C21_n_th : forall (T : Type) (l : list T) (n : Z), (0 <= n)%Z ->
  n_th l n = match nth_error l (Z.to_nat n) with
             | Some x => (Ok x, skipn (S (Z.to_nat n)) l)
             | None => (Err IndexError, [])
             end.
Proof. intros T l n H. exact (n_th_ok l n H). Qed.
Print Assumptions C21_n_th.

(** take_n: the first n elements of what is left after skipping, or all of it. *)
Theorem C21_take_n_partial : forall (T : Type) (l : list T) (n skip : Z), (skip <= Z.of_nat (length l))%Z ->
  take_n l n skip = (Ok (firstn (Z.to_nat n) (skipn (Z.to_nat skip) l)), skipn (Z.to_nat skip + Z.to_nat n) l).
Proof. intros T l n skip H. apply take_n_ok. lia. Qed.
Print Assumptions C21_take_n_partial.

(** skip_first and stop_after, when the source has at least n elements. Missing: the
    shorter sources, for which an empty and a shorter iterator are promised. *)
Theorem C21_skip_first_partial : forall (T : Type) (l : list T) n, n <= length l ->
  draws (skip_first l (Z.of_nat n)) l (fun k => n + k) (fun _ x => x).
Proof. intros T l n H. exact (skip_first_ok l n H). Qed.
Print Assumptions C21_skip_first_partial.
Theorem C21_stop_after_partial : forall (T : Type) (l : list T) n, n <= length l ->
  let g := stop_after l (Z.of_nat n) in
  ends g = None /\ map fst (yields g) = firstn n l /\ source_left g = skipn n l /\
  (forall k x left, nth_error (yields g) k = Some (x, left) -> left = skipn (S k) l).
Proof.
  intros T l n H g. unfold g, stop_after. rewrite Nat2Z.id.
  destruct (stop_loop_ok n l H) as [H1 [H2 [H3 H4]]].
  split; [exact H1|]. split; [|split; [exact H2|]].
  - clear -H. revert l H. induction n as [|n IH]; intros [|x t] H; simpl in *; try lia; try reflexivity. rewrite IH by lia. reflexivity.
  - intros k x left E. assert (Hk : k < n) by (rewrite <- H3; apply nth_error_Some; congruence).
    rewrite H4 in E by exact Hk. destruct (nth_error l k); inversion E. reflexivity.
Qed.
Print Assumptions C21_stop_after_partial.

(** other_sequence_no_longer_than: cut to the length of the base. *)
Theorem C21_no_longer_than : forall (T U : Type) (base : list U) (other : list T),
  gen_list (no_longer_than base other) = Ok (firstn (length base) other).
Proof. intros T U b o. exact (proj1 (no_longer_ok b o)). Qed.
Print Assumptions C21_no_longer_than.

(** shift: the rotation, to the left or to the right, of any iterable. Missing: shifts
    by more than the length. *)
Theorem C21_shift_partial : forall (T : Type) (reversible : bool) (l : list T) (factor : Z),
  (Z.abs factor <= Z.of_nat (length l))%Z -> shift reversible l factor = Ok (rotation factor l).
Proof. intros T rv l f H. exact (shift_ok rv l f H). Qed.
Print Assumptions C21_shift_partial.
(** Beyond the length: StopIteration, or the sequence as it was. *)
Theorem C21_shift_too_far : forall (T : Type) (reversible : bool) (l : list T) (factor : Z),
  (Z.of_nat (length l) < Z.abs factor)%Z ->
  shift reversible l factor = if (0 <? factor)%Z then Err StopIteration else Ok l.
Proof. intros T rv l f H. exact (shift_too_far rv l f H). Qed.
Print Assumptions C21_shift_too_far.

(** zip_shifted: row i is taken across the rotated arguments, as long as all of them
    have an i-th element. *)
Theorem C21_zip_shifted_partial : forall (T : Type) (args : list (bool * list T * option Z)),
  args <> [] -> Forall shift_fits args ->
  exists rows, zip_shifted args = Ok (Some rows) /\ forall i, nth_error rows i = across (map turned args) i.
Proof.
  intros T args Hn H. exists (py_zip (map turned args)). unfold zip_shifted. rewrite shift_all_ok by exact H.
  split; [reflexivity|]. intros i. apply py_zip_ok. destruct args; [congruence|discriminate].
Qed.
Print Assumptions C21_zip_shifted_partial.

(** smart_zip: the rows, with the tuples in them opened up. *)
Theorem C21_smart_zip : forall (T : Type) (ls : list (list (T + list T))) i, ls <> [] ->
  nth_error (smart_zip ls) i = option_map (flat_map components) (across ls i).
Proof.
  intros T ls i H. unfold smart_zip. rewrite nth_error_map, py_zip_ok by exact H.
  destruct (across ls i); simpl; auto. rewrite smart_row_ok. reflexivity.
Qed.
Print Assumptions C21_smart_zip.

(** f_range: start, start+step, ..., as far as stop is not reached, for either sign. *)
Theorem C21_f_range : forall start stop step, step <> 0%Z ->
  exists enough, forall fuel, enough <= fuel -> exists n,
    ends (f_range_loop fuel start stop step) = None /\
    map fst (yields (f_range_loop fuel start stop step)) = map (fun i => (start + Z.of_nat i * step)%Z) (seq 0 n) /\
    (forall i, i < n -> stays_before start stop step i) /\ ~ stays_before start stop step n.
Proof. intros start stop step H. exact (f_range_ok start stop step H). Qed.
Print Assumptions C21_f_range.
Theorem C21_f_range_arguments : forall fuel start stop step,
  f_range fuel [stop] = Ok (f_range_loop fuel 0 stop 1) /\
  f_range fuel [start; stop] = Ok (f_range_loop fuel start stop 1) /\
  f_range fuel [start; stop; step] = Ok (f_range_loop fuel start stop step) /\
  (forall args, (length args < 1 \/ 3 < length args) -> f_range fuel args = Err TypeError).
Proof.
  intros. repeat (split; [reflexivity|]). intros [|a [|b [|c [|d r]]]] H; simpl in *; auto; lia.
Qed.
Print Assumptions C21_f_range_arguments.

(** iterate_callable: what the callable gives until it raises; an exception of another
    class goes through. *)
Theorem C21_iterate_callable : forall (T : Type) (clbl : Z -> res T) (exc_classes : exn -> bool) e n start fuel (x : nat -> T),
  (forall i, i < n -> clbl (start + Z.of_nat i)%Z = Ok (x i)) -> clbl (start + Z.of_nat n)%Z = Err e -> n < fuel ->
  ends (iterate_callable fuel clbl exc_classes start) = (if exc_classes e then None else Some e) /\
  map fst (yields (iterate_callable fuel clbl exc_classes start)) = map x (seq 0 n).
Proof. intros T clbl exc e n start fuel x. exact (iterate_ok clbl exc e n start fuel x). Qed.
Print Assumptions C21_iterate_callable.

(** The promises for sources that are too short. *)
Definition C21_full_statement : Prop :=
  (forall (T : Type) (l : list T) n, gen_list (skip_first l (Z.of_nat n)) = Ok (skipn n l)) /\
  (forall (T : Type) (l : list T) n, gen_list (stop_after l (Z.of_nat n)) = Ok (firstn n l)) /\
  (forall (T : Type) (l : list T) n skip, fst (take_n l (Z.of_nat n) (Z.of_nat skip)) = Ok (firstn n (skipn skip l))) /\
  (forall (T : Type) rv (l : list T) f, exists out, shift rv l f = Ok out /\ Permutation out l).

(** skip_first "may be empty, if source iterator is shorter": it raises RuntimeError *)
Theorem C21_skip_first_short_refuted : forall (T : Type) (l : list T) (n : Z), (Z.of_nat (length l) < n)%Z ->
  gen_list (skip_first l n) = Err RuntimeError.
Proof. intros T l n H. rewrite skip_first_short by exact H. reflexivity. Qed.
Print Assumptions C21_skip_first_short_refuted.
(** stop_after "may be shorter than n, if the source is so": it yields all and then
    raises RuntimeError *)
Theorem C21_stop_after_short_refuted : forall (T : Type) (l : list T) (n : Z), (Z.of_nat (length l) < n)%Z ->
  map fst (yields (stop_after l n)) = l /\ gen_list (stop_after l n) = Err RuntimeError.
Proof.
  intros T l n H. unfold stop_after. destruct (stop_loop_short (Z.to_nat n) l) as [H1 H2]; [lia|].
  split; [exact H2|]. unfold gen_list. rewrite H1. reflexivity.
Qed.
Print Assumptions C21_stop_after_short_refuted.
(** take_n with more to skip than there is raises StopIteration *)
Theorem C21_take_n_short_refuted : forall (T : Type) (l : list T) n skip, (Z.of_nat (length l) < skip)%Z ->
  fst (take_n l n skip) = Err StopIteration.
Proof. intros T l n skip H. exact (take_n_short l n skip H). Qed.
Print Assumptions C21_take_n_short_refuted.
(** zip_shifted with a shift larger than its sequence returns None, not an iterator *)
Theorem C21_zip_shifted_none_refuted : zip_shifted [(true, [1; 2], Some 3%Z); (true, [1; 2], None)] = Ok None.
Proof. vm_compute. reflexivity. Qed.
Print Assumptions C21_zip_shifted_none_refuted.

Theorem C21_full_statement_refuted : ~ C21_full_statement.
Proof.
  intros [H _]. specialize (H nat [] 1). rewrite C21_skip_first_short_refuted in H; [discriminate|simpl; lia].
Qed.
Print Assumptions C21_full_statement_refuted.

Example C21_examples :
  gen_list (even [1; 2; 3; 4; 5]) = Ok [1; 3; 5] /\ gen_list (odd [1; 2; 3; 4; 5]) = Ok [2; 4] /\
  gen_list (unique Nat.eqb [1; 2; 1; 3; 2]) = Ok [1; 2; 3] /\
  gen_list (count [7; 7; 7] (Some 5%Z) 2 None) = Ok [5; 7; 9]%Z /\
  shift true [1; 2; 3; 4] 1 = Ok [2; 3; 4; 1] /\ shift true [1; 2; 3; 4] (-1) = Ok [4; 1; 2; 3] /\
  shift false [1; 2; 3; 4] (-1) = Ok [4; 1; 2; 3] /\
  zip_shifted [(true, [1; 2; 3; 4], Some (-1)%Z); (true, [1; 2; 3], Some 0%Z)] = Ok (Some [[4; 1]; [1; 2]; [2; 3]]) /\
  smart_zip [[inr [1; 1]; inr [1; 2]]; [inl 1; inl 2]] = [[1; 1; 1]; [1; 2; 2]] /\
  n_th [5; 6; 7] 1 = (Ok 6, [7]) /\ take_n [1; 2; 3; 4] 2 1 = (Ok [2; 3], [4]) /\
  gen_list (f_range_loop 10 7 1 (-2)) = Ok [7; 5; 3]%Z.
Proof. vm_compute. repeat split. Qed.
Example C21_hypotheses :
  Forall shift_fits [(true, [1; 2; 3; 4], Some (-1)%Z); (true, [1; 2; 3], Some 3%Z); (false, [9], None)] /\ eqb_ok Nat.eqb.
Proof. split; [|exact nateqb_ok]. repeat constructor; simpl; lia. Qed.

(** ** C51 choose, choose_one, choose_with_index *)

(** Without check_multiple: the first match, and nothing beyond it is read. *)
Theorem C51_choose_first : forall (T : Type) (p : T -> bool) (l : list T),
  match choose p l false with
  | (Ok x, rest) => exists before, l = before ++ x :: rest /\ p x = true /\ Forall (fun y => p y = false) before
  | (Err e, rest) => e = ValueError /\ rest = [] /\ Forall (fun y => p y = false) l
  end.
Proof. intros T p l. exact (choose_plain p l). Qed.
Print Assumptions C51_choose_first.

(** With it: the only match, ValueError when there are none or more. *)
Theorem C51_choose_one : forall (T : Type) (p : T -> bool) (l : list T),
  fst (choose_one p l) = match filter p l with [x] => Ok x | _ => Err ValueError end.
Proof. intros T p l. exact (choose_multi p l None). Qed.
Print Assumptions C51_choose_one.

Theorem C51_choose_with_index : forall (T : Type) (p : T -> bool) (l : list T),
  match choose_with_index p l with
  | (Ok (x, j), rest) => exists before, l = before ++ x :: rest /\ j = length before /\ p x = true /\
                                        Forall (fun y => p y = false) before
  | (Err e, rest) => e = ValueError /\ rest = [] /\ Forall (fun y => p y = false) l
  end.
Proof. intros T p l. exact (choose_index_ok p l 0). Qed.
Print Assumptions C51_choose_with_index.

(** "If check_multiple is True this guarantees to exhaust the generator": it does when
    it returns. *)
Theorem C51_exhausts_partial : forall (T : Type) (p : T -> bool) (l : list T) x,
  fst (choose_one p l) = Ok x -> snd (choose_one p l) = [].
Proof. intros T p l x. exact (choose_multi_left p l None x). Qed.
Print Assumptions C51_exhausts_partial.

Definition C51_full_statement : Prop := forall (T : Type) (p : T -> bool) (l : list T), snd (choose_one p l) = [].
(** It does not when it raises. *)
Theorem C51_exhausts_refuted : choose_one (Nat.ltb 1) [2; 3; 4; 5] = (Err ValueError, [4; 5]).
Proof. vm_compute. reflexivity. Qed.
Print Assumptions C51_exhausts_refuted.
Theorem C51_full_statement_refuted : ~ C51_full_statement.
Proof. intros H. specialize (H nat (Nat.ltb 1) [2; 3; 4; 5]). rewrite C51_exhausts_refuted in H. discriminate. Qed.
Print Assumptions C51_full_statement_refuted.

Example C51_examples :
  choose (Nat.ltb 1) [1; 2; 3] false = (Ok 2, [3]) /\ choose_one (Nat.ltb 2) [1; 2; 3; 0] = (Ok 3, []) /\
  choose_with_index (Nat.ltb 2) [1; 2; 3; 0] = (Ok (3, 2), [0]).
Proof. vm_compute. repeat split. Qed.
