(** Specification of SortedList and Ranking: the visible state is one list. *)
From Verif Require Import Prelude SortedList_Model.
Local Open Scope Z_scope.

(** keys are in non-decreasing order along [l] *)
Definition by_key {A} (key : A -> Z) (l : list A) : Prop :=
  forall i j a b, (i <= j)%nat -> nth_error l i = Some a -> nth_error l j = Some b -> key a <= key b.

(** what Python's l[i] denotes: position i from the front, or -i from the end *)
Definition at_index {A} (l : list A) (i : Z) (x : A) : Prop :=
  (0 <= i /\ nth_error l (Z.to_nat i) = Some x) \/
  (i < 0 /\ 0 <= Z.of_nat (length l) + i /\ nth_error l (Z.to_nat (Z.of_nat (length l) + i)) = Some x).

(** what the slice l[a:b] denotes: an omitted bound is the respective end,
    a negative one counts from the end, both are clamped to the list; the
    result has the elements at positions start, start+1, ..., stop-1. *)
Definition bound_pos (n default : nat) (i : option Z) : Z :=
  match i with
  | None => Z.of_nat default
  | Some i => Z.max 0 (Z.min (Z.of_nat n) (if i <? 0 then Z.of_nat n + i else i))
  end.
Definition slice_denotes {A} (l : list A) (a b : option Z) (r : list A) : Prop :=
  forall k : nat,
    nth_error r k =
    let p := bound_pos (length l) 0 a + Z.of_nat k in
    if p <? bound_pos (length l) (length l) b then nth_error l (Z.to_nat p) else None.

(** [x] occurs at position [i] and not before *)
Definition first_at {A} (l : list A) (x : A) (i : nat) : Prop :=
  nth_error l i = Some x /\ forall j, (j < i)%nat -> nth_error l j <> Some x.

Inductive sl_spec {A} (key : A -> Z) (l : list A) : sl_op A -> sl_out A -> list A -> Prop :=
| sls_add x l1 l2 : l = l1 ++ l2 -> (forall y, In y l1 -> key y < key x) -> (forall y, In y l2 -> key x <= key y) ->
    sl_spec key l (SLAdd x) (SOIndex (length l1)) (l1 ++ x :: l2)
| sls_extend xs l' : Permutation l' (xs ++ l) -> by_key key l' -> sl_spec key l (SLExtend xs) (SONone) l'
| sls_remove x l1 l2 : l = l1 ++ x :: l2 -> ~ In x l1 -> sl_spec key l (SLRemove x) (SONone) (l1 ++ l2)
| sls_remove_absent x : ~ In x l -> sl_spec key l (SLRemove x) (SORaise ValueError) l
| sls_pop x l' : l = l' ++ [x] -> sl_spec key l (SLPop) (SOItem x) l'
| sls_pop_empty : l = [] -> sl_spec key l (SLPop) (SORaise IndexError) l
| sls_popleft x l' : l = x :: l' -> sl_spec key l (SLPopLeft) (SOItem x) l'
| sls_popleft_empty : l = [] -> sl_spec key l (SLPopLeft) (SORaise IndexError) l
| sls_index x i : first_at l x i -> sl_spec key l (SLIndex x) (SOIndex i) l
| sls_index_absent x : ~ In x l -> sl_spec key l (SLIndex x) (SORaise ValueError) l
| sls_contains x b : (b = true <-> In x l) -> sl_spec key l (SLContains x) (SOBool b) l
| sls_len : sl_spec key l (SLLen) (SOIndex (length l)) l
| sls_bool b : (b = true <-> l <> []) -> sl_spec key l (SLBool) (SOBool b) l
| sls_iter : sl_spec key l (SLIter) (SOItems l) l
| sls_get i x : at_index l i x -> sl_spec key l (SLGet i) (SOItem x) l
| sls_get_out i : (forall x, ~ at_index l i x) -> sl_spec key l (SLGet i) (SORaise IndexError) l
| sls_slice a b r : slice_denotes l a b r -> sl_spec key l (SLSlice a b) (SOItems r) l.

Inductive sl_session {A} (key : A -> Z) :
  list A -> list (sl_op A) -> list (sl_out A) -> list A -> Prop :=
| slss_nil l : by_key key l -> sl_session key l [] [] l
| slss_cons l o out l1 ops outs l2 :
    by_key key l -> sl_spec key l o out l1 -> sl_session key l1 ops outs l2 ->
    sl_session key l (o :: ops) (out :: outs) l2.

(** Ranking: the state is the list of ranked objects in position order *)
Inductive rk_spec {A} (key : A -> Z) (l : list A) : rk_op A -> sl_out A -> list A -> Prop :=
| rks_add x l1 l2 : l = l1 ++ l2 -> rk_spec key l (RKAdd x) (SONone) (l1 ++ x :: l2)
| rks_remove x l1 l2 : l = l1 ++ x :: l2 -> rk_spec key l (RKRemove x) (SONone) (l1 ++ l2)
| rks_remove_absent x : ~ In x l -> rk_spec key l (RKRemove x) (SORaise ValueError) l
| rks_calc x p : nth_error l p = Some x -> rk_spec key l (RKCalc x) (SOIndex p) l
| rks_calc_absent x e : ~ In x l -> rk_spec key l (RKCalc x) (SORaise e) l
| rks_position x p : first_at l x p -> rk_spec key l (RKPosition x) (SOIndex p) l
| rks_position_absent x : ~ In x l -> rk_spec key l (RKPosition x) (SORaise ValueError) l
| rks_get i x : at_index l i x -> rk_spec key l (RKGet i) (SOItem x) l
| rks_get_out i : (forall x, ~ at_index l i x) -> rk_spec key l (RKGet i) (SORaise IndexError) l
| rks_sorted : rk_spec key l (RKSorted) (SOItems l) l.

Inductive rk_session {A} (key : A -> Z) :
  list A -> list (rk_op A) -> list (sl_out A) -> list A -> Prop :=
| rkss_nil l : by_key key l -> rk_session key l [] [] l
| rkss_cons l o out l1 ops outs l2 :
    by_key key l -> rk_spec key l o out l1 -> rk_session key l1 ops outs l2 ->
    rk_session key l (o :: ops) (out :: outs) l2.

(** Sessions in which calculate_ranking_for is asked only about ranked objects:
    [l] is the list of held objects before the calls. *)
Fixpoint asks_only_ranked {A} (eqb : A -> A -> bool) (l : list A) (ops : list (rk_op A)) : bool :=
  match ops with
  | [] => true
  | RKAdd x :: t => asks_only_ranked eqb (x :: l) t
  | RKRemove x :: t => asks_only_ranked eqb (remove_first eqb x l) t
  | RKCalc x :: t => memb eqb x l && asks_only_ranked eqb l t
  | _ :: t => asks_only_ranked eqb l t
  end.
