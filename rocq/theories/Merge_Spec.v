(** What merging ordered sequences means. *)
From Verif Require Import Prelude Order_Spec.
Set Implicit Arguments.

(** a total order, with the equality that goes with it *)
Definition linear_order {A} (lt eqb : A -> A -> bool) : Prop :=
  eqb_ok eqb /\ total_preorder lt /\ (forall a b, lt a b = false -> lt b a = false -> a = b).

(** a sequence of (key, value) ordered by key *)
Definition by_key {K V} (ltK : K -> K -> bool) (l : list (K * V)) : Prop := ascending ltK (map fst l).
(** keys that only grow *)
Definition strictly_increasing {K} (ltK : K -> K -> bool) (ks : list K) : Prop :=
  forall i j a b, i < j -> nth_error ks i = Some a -> nth_error ks j = Some b -> ltK a b = true.
(** the values that stand with a key *)
Definition values_at {K V} (eqK : K -> K -> bool) (k : K) (M : list (K * V)) : list V :=
  map snd (filter (fun e => eqK (fst e) k) M).

(** [out] is the merge of all the elements [M]: keys grow, every key is there and
    no other, and with it stands the result of joining all of its values, in some
    order, by [f] *)
Definition is_merge {K V} (ltK eqK : K -> K -> bool) (f : V -> V -> V) (M out : list (K * V)) : Prop :=
  strictly_increasing ltK (map fst out) /\
  (forall k, In k (map fst out) <-> In k (map fst M)) /\
  (forall k w, In (k, w) out -> exists v vs, Permutation (values_at eqK k M) (v :: vs) /\ w = fold_left f vs v).

(** ** Series of (timestamp, value) *)
Local Open Scope Z_scope.
Definition timestamps_grow {V} (l : list (Z * V)) : Prop := strictly_increasing Z.ltb (map fst l).
(** the most recent value of a series at a time *)
Definition value_at {V} (l : list (Z * V)) (t : Z) : option V :=
  match rev (filter (fun e => fst e <=? t) l) with e :: _ => Some (snd e) | [] => None end.
(** [t] is the first time at which every series has a value *)
Definition all_started {V} (series : list (list (Z * V))) (t : Z) : Prop :=
  (forall l, In l series -> exists v r, l = v :: r /\ fst v <= t) /\
  exists l v r, In l series /\ l = v :: r /\ fst v = t.
(** The rows: one at the first time when every series has a value and one at every
    later time at which some series has one, ordered by time; each row holds the
    most recent value of every series. *)
Definition is_series_merge {V} (series : list (list (Z * V))) (out : list (Z * list V)) : Prop :=
  exists M, all_started series M /\
  strictly_increasing Z.ltb (map fst out) /\
  (forall t, In t (map fst out) <-> t = M \/ (M < t /\ exists l v, In l series /\ In (t, v) l)) /\
  (forall t row, In (t, row) out -> map Some row = map (fun l => value_at l t) series).
(** no series has two elements before every other one has started *)
Definition start_together {V} (series : list (list (Z * V))) : Prop :=
  forall M l a b r, all_started series M -> In l series -> l = a :: b :: r -> M <= fst b.
