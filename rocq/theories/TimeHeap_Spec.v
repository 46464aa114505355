(** Specification of the time-based heaps: a bag (respectively a finite map) of
    (timestamp, item) entries. *)
From Verif Require Import Prelude TimeHeap_Model.
Local Open Scope Z_scope.

(** times in non-decreasing order *)
Fixpoint times_ascend {V} (l : list (Z * V)) : Prop :=
  match l with
  | [] => True
  | e :: t => (forall e', In e' t -> fst e <= fst e') /\ times_ascend t
  end.

(** [l] are the entries handed out by pop_less_than(t) consumed [n] times, from
    a heap holding [b], leaving [b']. *)
Definition due_popped {V} (b : list (Z * V)) (t : Z) (n : nat) (l b' : list (Z * V)) : Prop :=
  Permutation b (l ++ b') /\
  times_ascend l /\
  (forall e, In e l -> fst e < t) /\
  (forall e e', In e l -> In e' b' -> fst e <= fst e') /\
  (length l <= n)%nat /\
  ((length l < n)%nat -> forall e, In e b' -> t <= fst e).

Inductive time_bag_step {V} (b : list (Z * V)) : time_op V -> time_out V -> list (Z * V) -> Prop :=
| tb_put ts v b' : Permutation b' ((ts, v) :: b) -> time_bag_step b (TPut ts v) (TONone) b'
| tb_put_now now v b' : Permutation b' ((now, v) :: b) -> time_bag_step b (TPutNow now v) (TONone) b'
| tb_pop_empty b' : b = [] -> b' = [] -> time_bag_step b (TPop) (TORaise IndexError) b'
| tb_pop e b' : Permutation b (e :: b') -> (forall e', In e' b -> fst e <= fst e') ->
             time_bag_step b (TPop) (TOEntry e) b'
| tb_pop_less t n l b' : due_popped b t n l b' -> time_bag_step b (TPopLess t n) (TOEntries l) b'
| tb_pop_ts t v b' : Permutation b ((t, v) :: b') -> time_bag_step b (TPopTimestamp t) (TOItem v) b'
| tb_pop_ts_absent t b' : (forall v, ~ In (t, v) b) -> Permutation b' b ->
             time_bag_step b (TPopTimestamp t) (TORaise ValueError) b'
| tb_pop_item ts v b' : Permutation b ((ts, v) :: b') -> time_bag_step b (TPopItem v) (TOEntry (ts, v)) b'
| tb_pop_item_absent v b' : (forall ts, ~ In (ts, v) b) -> Permutation b' b ->
             time_bag_step b (TPopItem v) (TORaise ValueError) b'
| tb_remove v b' removed :
    Permutation b (removed ++ b') -> (forall e, In e removed -> snd e = v) ->
    (forall e, In e b' -> snd e <> v) -> time_bag_step b (TRemove v) (TONone) b'
| tb_peek_empty b' : b = [] -> b' = [] -> time_bag_step b (TPeek) (TORaise IndexError) b'
| tb_peek e b' : In e b -> (forall e', In e' b -> fst e <= fst e') -> Permutation b' b ->
             time_bag_step b (TPeek) (TOEntry e) b'
| tb_items l b' : Permutation l (map snd b) -> Permutation b' b -> time_bag_step b (TItems) (TOItems l) b'
| tb_len b' : Permutation b' b -> time_bag_step b (TLen) (TONat (length b)) b'
| tb_get ts v b' : In (ts, v) b -> Permutation b' b -> time_bag_step b (TGetTimestamp v) (TOTime ts) b'
| tb_copy b' : Permutation b' b -> time_bag_step b (TCopy) (TONone) b'.

Inductive time_bag_session {V} :
  list (Z * V) -> list (time_op V) -> list (time_out V) -> list (Z * V) -> Prop :=
| tbs_nil b : time_bag_session b [] [] b
| tbs_cons b o out b1 ops outs b2 :
    time_bag_step b o out b1 -> time_bag_session b1 ops outs b2 ->
    time_bag_session b (o :: ops) (out :: outs) b2.

(** calls on which TimeBasedHeap meets the bag specification *)
Definition time_bag_safe {V} (o : time_op V) : bool :=
  match o with TGetTimestamp _ => false | TCopy => false | _ => true end.

(** Set variant: at most one entry per item; putting an item replaces its
    entry; get_timestamp answers the current timestamp, ValueError when absent. *)
Inductive time_set_step {V} (b : list (Z * V)) : time_op V -> time_out V -> list (Z * V) -> Prop :=
| tset_put ts v b' :
    (forall e, In e b' <-> e = (ts, v) \/ (In e b /\ snd e <> v)) -> time_set_step b (TPut ts v) (TONone) b'
| tset_put_now now v b' :
    (forall e, In e b' <-> e = (now, v) \/ (In e b /\ snd e <> v)) -> time_set_step b (TPutNow now v) (TONone) b'
| tset_pop_empty b' : b = [] -> b' = [] -> time_set_step b (TPop) (TORaise IndexError) b'
| tset_pop e b' : Permutation b (e :: b') -> (forall e', In e' b -> fst e <= fst e') ->
             time_set_step b (TPop) (TOEntry e) b'
| tset_pop_less t n l b' : due_popped b t n l b' -> time_set_step b (TPopLess t n) (TOEntries l) b'
| tset_pop_ts t v b' : Permutation b ((t, v) :: b') -> time_set_step b (TPopTimestamp t) (TOItem v) b'
| tset_pop_ts_absent t b' : (forall v, ~ In (t, v) b) -> Permutation b' b ->
             time_set_step b (TPopTimestamp t) (TORaise ValueError) b'
| tset_pop_item ts v b' : Permutation b ((ts, v) :: b') -> time_set_step b (TPopItem v) (TOEntry (ts, v)) b'
| tset_pop_item_absent v b' : (forall ts, ~ In (ts, v) b) -> Permutation b' b ->
             time_set_step b (TPopItem v) (TORaise ValueError) b'
| tset_remove v b' : (forall e, In e b' <-> In e b /\ snd e <> v) -> time_set_step b (TRemove v) (TONone) b'
| tset_items l b' : Permutation l (map snd b) -> Permutation b' b -> time_set_step b (TItems) (TOItems l) b'
| tset_len b' : Permutation b' b -> time_set_step b (TLen) (TONat (length b)) b'
| tset_get ts v b' : In (ts, v) b -> Permutation b' b -> time_set_step b (TGetTimestamp v) (TOTime ts) b'
| tset_get_absent v b' : (forall ts, ~ In (ts, v) b) -> Permutation b' b ->
             time_set_step b (TGetTimestamp v) (TORaise ValueError) b'
| tset_copy b' : Permutation b' b -> time_set_step b (TCopy) (TONone) b'.

Inductive time_set_session {V} :
  list (Z * V) -> list (time_op V) -> list (time_out V) -> list (Z * V) -> Prop :=
| tss_nil b : time_set_session b [] [] b
| tss_cons b o out b1 ops outs b2 :
    NoDup (map snd b1) -> time_set_step b o out b1 -> time_set_session b1 ops outs b2 ->
    time_set_session b (o :: ops) (out :: outs) b2.

(** calls on which TimeBasedSetHeap meets the map specification (peek_closest
    does not exist on it) *)
Definition time_set_safe {V} (o : time_op V) : bool :=
  match o with TRemove _ => false | TCopy => false | TPeek => false | _ => true end.
