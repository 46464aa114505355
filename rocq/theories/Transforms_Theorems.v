(** C23: numeric and collection transforms. *)
From Coq Require Import QArith Qround Qabs Lqa.
From Verif Require Import Prelude PreludeFacts MoreFacts PySeq_Model PyGen_Model Transforms_Model Transforms_Spec Transforms_Proofs.
Local Open Scope Z_scope.

Theorem C23_clip : forall v lo hi, (lo <= hi)%Q ->
  nearest lo hi v (clip v lo hi) /\ ((lo <= v <= hi)%Q -> clip v lo hi = v).
Proof. intros v lo hi H. exact (conj (clip_ok v lo hi H) (clip_inside v lo hi)). Qed.
Print Assumptions C23_clip.

(** percentile puts the list on the points 0, 1, ..., len - 1 and reads the broken
    line through them at (len - 1) * percent. *)
Theorem C23_percentile_interpolates : forall n p i a b,
  nth_error n i = Some a -> nth_error n (S i) = Some b ->
  let k := (inject_Z (Z.of_nat (length n) - 1) * p)%Q in
  (inject_Z (Z.of_nat i) <= k <= inject_Z (Z.of_nat (S i)))%Q ->
  exists x, percentile n p = Ok x /\ (x == line (inject_Z (Z.of_nat i)) a (inject_Z (Z.of_nat (S i))) b k)%Q.
Proof. intros n p i a b Ha Hb k [H1 H2]. exact (percentile_between n p i a b Ha Hb H1 H2). Qed.
Print Assumptions C23_percentile_interpolates.

Theorem C23_percentile_single : forall x p, percentile [x] p = Ok x.
Proof. exact percentile_single. Qed.
Print Assumptions C23_percentile_single.

(** It lies between the smallest and the largest, for every percent from 0 to 1. *)
Theorem C23_percentile_bounds : forall n p lo hi, n <> [] -> ordered n -> (0 <= p <= 1)%Q ->
  nth_error n 0 = Some lo -> nth_error n (length n - 1) = Some hi ->
  exists x, percentile n p = Ok x /\ (lo <= x <= hi)%Q.
Proof. exact percentile_bounds. Qed.
Print Assumptions C23_percentile_bounds.

Theorem C23_percentile_monotone : forall n p q x y, n <> [] -> ordered n -> (0 <= p)%Q -> (p <= q)%Q -> (q <= 1)%Q ->
  percentile n p = Ok x -> percentile n q = Ok y -> (x <= y)%Q.
Proof. exact percentile_mono. Qed.
Print Assumptions C23_percentile_monotone.

(** linear_interpolate: outside, at the first abscissa, and on every segment. *)
Theorem C23_interpolate : forall series t c, series <> [] -> ordered (map fst series) ->
  forall t0 v0 tn vn, nth_error series 0 = Some (t0, v0) -> nth_error series (length series - 1) = Some (tn, vn) ->
  ((t < t0)%Q -> linear_interpolate series t c = if c then Ok v0 else Err ValueError) /\
  ((tn < t)%Q -> linear_interpolate series t c = if c then Ok vn else Err ValueError) /\
  ((t == t0)%Q -> linear_interpolate series t c = Ok v0) /\
  (forall i t1 v1 t2 v2, nth_error series i = Some (t1, v1) -> nth_error series (S i) = Some (t2, v2) -> (t1 < t <= t2)%Q ->
     exists x, linear_interpolate series t c = Ok x /\ (x == line t1 v1 t2 v2 t)%Q).
Proof. exact interpolate_ok. Qed.
Print Assumptions C23_interpolate.

Theorem C23_interpolate_stored : forall series t v c, strictly_ordered (map fst series) -> In (t, v) series ->
  exists x, linear_interpolate series t c = Ok x /\ (x == v)%Q.
Proof. exact interpolate_stored. Qed.
Print Assumptions C23_interpolate_stored.

Theorem C23_interpolate_between_neighbours : forall series t c, series <> [] -> ordered (map fst series) ->
  forall t0 v0 tn vn, nth_error series 0 = Some (t0, v0) -> nth_error series (length series - 1) = Some (tn, vn) ->
  (t0 < t <= tn)%Q -> exists i t1 v1 t2 v2 x, nth_error series i = Some (t1, v1) /\ nth_error series (S i) = Some (t2, v2) /\
    (t1 < t <= t2)%Q /\ linear_interpolate series t c = Ok x /\ ((v1 <= x <= v2)%Q \/ (v2 <= x <= v1)%Q).
Proof. exact interpolate_inside. Qed.
Print Assumptions C23_interpolate_between_neighbours.

(** pad_to_multiple_of_length: the shortest extension, by what the factory gives, or
    by pad_with, or by None; not both; and no multiple of zero. *)
Theorem C23_pad : forall (T : Type) (none : T) l m pw pf,
  (m <> 0 -> pw = None \/ pf = None -> exists l', pad_to_multiple_of_length none l m pw pf = Ok l' /\
    padded (match pf with Some f => f | None => fun _ => match pw with Some x => x | None => none end end) m l l') /\
  (pw <> None -> pf <> None -> pad_to_multiple_of_length none l m pw pf = Err ValueError) /\
  (pw = None \/ pf = None -> pad_to_multiple_of_length none l 0 pw pf = Err ZeroDivision).
Proof.
  intros T none l m pw pf. split; [exact (pad_ok none l m pw pf)|].
  split; destruct pw, pf; try reflexivity; try congruence. intros [H|H]; discriminate H.
Qed.
Print Assumptions C23_pad.

Theorem C23_is_subset : forall (K V : Type) (eqK : K -> K -> bool) (eqV : V -> V -> bool) (sub sup : dict K V),
  eqb_ok eqK -> eqb_ok eqV ->
  is_subset eqK eqV sub sup = true <-> forall k v, In (k, v) sub -> dget eqK sup k = Some v.
Proof. intros K V eqK eqV sub sup. exact (is_subset_ok eqK eqV sub sup). Qed.
Print Assumptions C23_is_subset.

(** list_values_to_indices: ValueError exactly when a value is repeated, otherwise
    every value is mapped to the place where it stands. *)
Theorem C23_indices : forall (T : Type) (eqb : T -> T -> bool), eqb_ok eqb -> forall l,
  (NoDup l -> exists d, list_values_to_indices eqb l = Ok d /\
     forall x z, dget eqb d x = Some z <-> exists i, nth_error l i = Some x /\ z = Z.of_nat i) /\
  (~ NoDup l -> list_values_to_indices eqb l = Err ValueError).
Proof.
  intros T eqb He l. pose proof (indices_loop_ok eqb He l 0 []) as H. unfold list_values_to_indices.
  destruct (indices_loop eqb 0 l []) as [d|e].
  - destruct H as (H1 & _ & H2). split; [|contradiction]. intros _. exists d. split; auto.
    intros x z. rewrite H2. simpl. split; [intros [X|X]; [discriminate|auto]|auto].
  - destruct H as [-> H]. split; auto. intros N. exfalso. destruct H as [H|(x & _ & H)]; [auto|]. apply H. reflexivity.
Qed.
Print Assumptions C23_indices.

(** hashables_to_int: whatever order Python's set has, exactly the words given are
    mapped, each to a number of its own, and the numbers are 0, ..., count - 1. *)
Theorem C23_words : forall (T : Type) (eqb : T -> T -> bool) (set_of : list T -> list T) words, eqb_ok eqb ->
  NoDup (set_of words) -> (forall x, In x (set_of words) <-> In x words) ->
  let d := hashables_to_int eqb set_of words in
  (forall x, dget eqb d x <> None <-> In x words) /\
  (forall x y z, dget eqb d x = Some z -> dget eqb d y = Some z -> x = y) /\
  (forall z, (exists x, dget eqb d x = Some z) <-> 0 <= z < Z.of_nat (length (set_of words))).
Proof.
  intros T eqb set_of words He Hnd Hin d.
  assert (forall x z, dget eqb d x = Some z <-> exists j, nth_error (set_of words) j = Some x /\ z = Z.of_nat j) as G.
  { intros x z. unfold d, hashables_to_int. rewrite (words_loop_ok eqb He _ 0 [] Hnd). simpl. split; [intros [X|[_ X]]; [auto|discriminate]|auto]. }
  split; [|split].
  - intros x. rewrite <- Hin. split.
    + intros H. destruct (dget eqb d x) as [z|] eqn:E; [|congruence]. apply G in E. destruct E as (j & E & _). apply nth_error_In in E. auto.
    + intros H. apply In_nth_error in H. destruct H as [j H]. assert (dget eqb d x = Some (Z.of_nat j)) as -> by (apply G; eauto). discriminate.
  - intros x y z Hx Hy. apply G in Hx. apply G in Hy. destruct Hx as (i & Hi & ->), Hy as (j & Hj & E).
    apply Nat2Z.inj in E. congruence.
  - intros z. split.
    + intros [x Hx]. apply G in Hx. destruct Hx as (j & Hj & ->).
      assert (j < length (set_of words))%nat by (apply nth_error_Some; congruence). lia.
    + intros Hz. destruct (nth_error (set_of words) (Z.to_nat z)) as [x|] eqn:E; [|apply nth_error_None in E; lia].
      exists x. apply G. exists (Z.to_nat z). split; [auto|lia].
Qed.
Print Assumptions C23_words.

(** split_shuffle_and_join, for every shuffle that permutes: the elements not to be
    shuffled keep their order and stand together on the side asked for; the rest is a
    permutation of the elements to be shuffled. *)
Theorem C23_split_shuffle : forall (T : Type) (shuffle : list T -> list T) entries (p : T -> bool) front,
  (forall l, Permutation (shuffle l) l) ->
  let kept := filter (fun x => negb (p x)) entries in
  exists rest, Permutation rest (filter p entries) /\
    split_shuffle_and_join shuffle entries p front = (if front then kept ++ rest else rest ++ kept) /\
    Permutation (split_shuffle_and_join shuffle entries p front) entries.
Proof.
  intros T shuffle entries p front Hs kept. unfold split_shuffle_and_join. rewrite split_loop_ok. simpl.
  exists (shuffle (filter p entries)). split; [apply Hs|]. split; [reflexivity|].
  pose proof (filter_perm_parts p entries) as H. symmetry. destruct front.
  - rewrite Permutation_app_comm. rewrite Hs. auto.
  - rewrite Hs. auto.
Qed.
Print Assumptions C23_split_shuffle.

(** unpack_dict: the mapped values in the order of the keys; None for a key that is
    missing, or KeyError after the keys before it. *)
Theorem C23_unpack : forall (K V : Type) (eqK : K -> K -> bool) (d : dict K V) f raise_ args,
  (forall key, In key args -> raise_ = true -> dget eqK d key <> None) ->
  (forall key v, In key args -> dget eqK d key = Some v -> exists w, f v = Ok w) ->
  let g := unpack_dict eqK d args f raise_ in
  ends g = None /\ Forall2 (fun key out => match dget eqK d key with
                                           | Some v => exists w, f v = Ok w /\ out = Some w
                                           | None => out = None end) args (map fst (yields g)).
Proof. intros K V eqK d f raise_ args. exact (unpack_ok eqK d f raise_ args). Qed.
Print Assumptions C23_unpack.
Theorem C23_unpack_missing : forall (K V : Type) (eqK : K -> K -> bool) (d : dict K V) f pre key post,
  (forall k, In k pre -> exists v w, dget eqK d k = Some v /\ f v = Ok w) -> dget eqK d key = None ->
  let g := unpack_dict eqK d (pre ++ key :: post) f true in
  ends g = Some KeyError /\ length (yields g) = length pre.
Proof. intros K V eqK d f pre key post. exact (unpack_missing eqK d f pre key post). Qed.
Print Assumptions C23_unpack_missing.

(** one_tuple gives every element as a tuple of one *)
Theorem C23_one_tuple : forall (T : Type) (l : list T), ends (one_tuple l) = None /\ map fst (yields (one_tuple l)) = map (fun x => [x]) l.
Proof. intros T l. induction l as [|x l [IH1 IH2]]; simpl; auto. split; auto. f_equal. auto. Qed.
Print Assumptions C23_one_tuple.

(** none_if_false keeps what is true and gives None for the rest. *)
Theorem C23_none_if_false : forall (T : Type) (truth : T -> bool) y,
  (truth y = true -> none_if_false truth y = Some y) /\ (truth y = false -> none_if_false truth y = None).
Proof. intros T truth y. unfold none_if_false. destruct (truth y); split; intros; congruence || reflexivity. Qed.
Print Assumptions C23_none_if_false.
Example C23_none_if_false_case : map (none_if_false (fun z => negb (z =? 0))) [3; 0] = [Some 3; None].
Proof. reflexivity. Qed.

(** A KeyError of map_through's own is taken for a missing key. *)
Example C23_unpack_masks :
  map fst (yields (unpack_dict Z.eqb [(1, 10)] [1] (fun _ => Err KeyError) false)) = [None].
Proof. reflexivity. Qed.

Example C23_examples :
  clip 5 0 3 = 3%Q /\ clip (-1) 0 3 = 0%Q /\
  (match percentile [1; 2; 4]%Q (3#4)%Q with Ok x => Qeq_bool x 3 | _ => false end) = true /\
  (match linear_interpolate [(0, 0); (2, 4); (3, 0)]%Q (5#2)%Q false with Ok x => Qeq_bool x 2 | _ => false end) = true /\
  pad_to_multiple_of_length 0 [1; 2; 3; 4] 3 (Some 9) None = Ok [1; 2; 3; 4; 9; 9] /\
  pad_to_multiple_of_length 0 [1; 2; 3; 4] (-3) None (Some Z.of_nat) = Ok [1; 2; 3; 4; 0; 1] /\
  list_values_to_indices Z.eqb [5; 7] = Ok [(5, 0); (7, 1)] /\ list_values_to_indices Z.eqb [5; 7; 5] = Err ValueError /\
  is_subset Z.eqb Z.eqb [(1, 2)] [(3, 4); (1, 2)] = true /\
  split_shuffle_and_join (@rev Z) [1; 2; 3; 4; 5] Z.even false = [4; 2; 1; 3; 5].
Proof. vm_compute. repeat split. Qed.
Example C23_hypotheses_met : ordered [1; 2; 4]%Q /\ strictly_ordered (map fst [(0, 0); (2, 4); (3, 0)]%Q).
Proof.
  split.
  - intros [|[|[|i]]] [|[|[|j]]] a b H Ha Hb; simpl in *; try lia; try (destruct i; discriminate); try (destruct j; discriminate);
      inversion Ha; inversion Hb; subst; lra.
  - intros [|[|[|i]]] [|[|[|j]]] a b H Ha Hb; simpl in *; try lia; try (destruct i; discriminate); try (destruct j; discriminate);
      inversion Ha; inversion Hb; subst; lra.
Qed.
