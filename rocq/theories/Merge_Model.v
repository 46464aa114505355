(** Model of satella/coding/transforms/merge_list.py and merger.py.

    Iterators are lists of what they have still to give. The heaps are the models
    of satella's Heap and SetHeap. Python's limit on recursion depth, which the
    recursive __next__ of merge_list can meet, is not modelled. *)
From Verif Require Import Prelude Heapq_Model Heap_Model.
Set Implicit Arguments.

Section MergeList.
  Context {K V : Type}.
  Variables (ltK eqK : K -> K -> bool) (ltV eqV : V -> V -> bool).
  Variable merge_func : V -> V -> V.

  (** Python's [<] on the tuples (key, value, index): the first components that
      differ decide *)
  Definition entry : Type := (K * V * nat)%type.
  Definition entry_lt (a b : entry) : bool :=
    let '(k1, v1, i1) := a in let '(k2, v2, i2) := b in
    if eqK k1 k2 then if eqV v1 v2 then Nat.ltb i1 i2 else ltV v1 v2 else ltK k1 k2.

  Record merge := { its : list (list (K * V)); available : list nat; m_heap : list entry;
                    m_cur : option entry; m_closed : bool }.

  (** merge_list.py:67-75 pop; None is IndexError of the empty heap *)
  Definition m_pop (s : merge) : merge * option entry :=
    match heappop entry_lt (m_heap s) with
    | None => (s, None)
    | Some ((k, v, i), h) =>
      if memb Nat.eqb i (available s)
      then match nth_error (its s) i with
           | Some ((k2, v2) :: rest) =>
             ({| its := upd (its s) i rest; available := available s; m_heap := heappush entry_lt h (k2, v2, i);
                 m_cur := m_cur s; m_closed := m_closed s |}, Some (k, v, i))
           | _ =>
             ({| its := its s; available := remove_first Nat.eqb i (available s); m_heap := h;
                 m_cur := m_cur s; m_closed := m_closed s |}, Some (k, v, i))
           end
      else ({| its := its s; available := available s; m_heap := h; m_cur := m_cur s; m_closed := m_closed s |},
            Some (k, v, i))
    end.

  (** merge_list.py:37-42, the loop of __init__ from the i-th iterator on *)
  Fixpoint m_load (i : nat) (ls : list (list (K * V))) (s : merge) : merge :=
    match ls with
    | [] => s
    | l :: r =>
      m_load (S i) r
        match l with
        | [] => s
        | (k, v) :: rest =>
          {| its := upd (its s) i rest; available := available s ++ [i]; m_heap := heappush entry_lt (m_heap s) (k, v, i);
             m_cur := m_cur s; m_closed := m_closed s |}
        end
    end.
  Definition set_cur (s : merge) (e : entry) : merge :=
    {| its := its s; available := available s; m_heap := m_heap s; m_cur := Some e; m_closed := m_closed s |}.
  Definition set_closed (s : merge) : merge :=
    {| its := its s; available := available s; m_heap := m_heap s; m_cur := m_cur s; m_closed := true |}.
  (** merge_list.py:29-46 __init__ *)
  Definition m_init (lists : list (list (K * V))) : merge :=
    let s := m_load 0 lists {| its := lists; available := []; m_heap := []; m_cur := None; m_closed := false |} in
    match m_pop s with
    | (s', Some e) => set_cur s' e
    | (s', None) => set_closed s'
    end.

  (** merge_list.py:48-65 __next__, which calls itself while keys are equal *)
  Fixpoint m_next (fuel : nat) (s : merge) : merge * res (K * V) :=
    match fuel with
    | O => (s, Err Diverges)
    | S fuel' =>
      if m_closed s then (s, Err StopIteration)
      else match m_cur s with
           | None => (s, Err AttributeError)
           | Some (k, v, i) =>
             match m_pop s with
             | (s', None) => (set_closed s', Ok (k, v))
             | (s', Some (k2, v2, i2)) =>
               if eqK k2 k then m_next fuel' (set_cur s' (k, merge_func v v2, i))
               else (set_cur s' (k2, v2, i2), Ok (k, v))
             end
           end
    end.

  (** [list(merge_list(...))]: next() until StopIteration *)
  Fixpoint m_collect (fuel : nat) (s : merge) (out : list (K * V)) : res (list (K * V)) :=
    match fuel with
    | O => Err Diverges
    | S fuel' => match m_next (S fuel) s with
                 | (s', Ok e) => m_collect fuel' s' (out ++ [e])
                 | (_, Err StopIteration) => Ok out
                 | (_, Err e) => Err e
                 end
    end.
  Definition merge_list (lists : list (list (K * V))) : res (list (K * V)) :=
    m_collect (S (S (length (concat lists)))) (m_init lists) [].
End MergeList.

Section MergeSeries.
  Context {V : Type}.
  Open Scope Z_scope.
  (** Timestamps are integers. *)
  Record series_merge := { rest_of : list (list (Z * V)); preloaded : list (Z * V);
                           super_preloaded : list (option (Z * V)); timestamps : setheap Z }.
  Definition push_ts (h : setheap Z) (t : Z) : setheap Z := sh_push Z.ltb Z.eqb h t.

  (** [\[next(x) for x in self.series\]]; None when one raises StopIteration *)
  Fixpoint take_heads (ls : list (list (Z * V))) : option (list (Z * V) * list (list (Z * V))) :=
    match ls with
    | [] => Some ([], [])
    | [] :: _ => None
    | (x :: t) :: r => match take_heads r with Some (hs, ts) => Some (x :: hs, t :: ts) | None => None end
    end.
  (** merger.py:38-44, the loop of __init__ *)
  Fixpoint load_super (ls : list (list (Z * V))) (h : setheap Z) : list (option (Z * V)) * list (list (Z * V)) * setheap Z :=
    match ls with
    | [] => ([], [], h)
    | [] :: r => let '(sup, rest, h') := load_super r h in (None :: sup, [] :: rest, h')
    | (value :: t) :: r =>
      let '(sup, rest, h') := load_super r (push_ts h (fst value)) in (Some value :: sup, t :: rest, h')
    end.
  (** merger.py:22-44 __init__; Ok None is the merger with its flag [empty] set. The
      maximum of no timestamps is ValueError. *)
  Definition s_init (series : list (list (Z * V))) : res (option series_merge) :=
    match take_heads series with
    | None => Ok None
    | Some (hs, ts) =>
      match map fst hs with
      | [] => Err ValueError
      | t0 :: r =>
        let h := push_ts (sh_init Z.ltb Z.eqb []) (fold_left Z.max r t0) in
        let '(sup, rest, h') := load_super ts h in
        Ok (Some {| rest_of := rest; preloaded := hs; super_preloaded := sup; timestamps := h' |})
      end
    end.

  (** merger.py:49-62 advance *)
  Definition s_advance (s : series_merge) (i : nat) : series_merge * res unit :=
    match nth_error (super_preloaded s) i with
    | Some (Some v) =>
      match nth_error (rest_of s) i with
      | Some (x :: t) =>
        ({| rest_of := upd (rest_of s) i t; preloaded := upd (preloaded s) i v;
            super_preloaded := upd (super_preloaded s) i (Some x); timestamps := push_ts (timestamps s) (fst x) |}, Ok tt)
      | _ =>
        ({| rest_of := rest_of s; preloaded := upd (preloaded s) i v;
            super_preloaded := upd (super_preloaded s) i None; timestamps := timestamps s |}, Ok tt)
      end
    | _ => (s, Err ValueError)
    end.

  (** merger.py:64-68 next: advance every series that stands at the minimum *)
  Fixpoint s_advance_at (min_ts : Z) (i : nat) (vs : list (Z * V)) (s : series_merge) : series_merge * res unit :=
    match vs with
    | [] => (s, Ok tt)
    | v :: r => if fst v =? min_ts
                then match s_advance s i with
                     | (s', Ok _) => s_advance_at min_ts (S i) r s'
                     | (s', Err e) => (s', Err e)
                     end
                else s_advance_at min_ts (S i) r s
    end.
  Definition s_next_min (s : series_merge) : series_merge * res unit :=
    match map fst (preloaded s) with
    | [] => (s, Err ValueError)
    | t0 :: r => s_advance_at (fold_left Z.min r t0) 0 (preloaded s) s
    end.

  (** merger.py:82-88, the loop over one series in assert_preloaded: the answer
      false means "return False". With no value after the next one, the comparison
      raises TypeError, but only if its first half holds. *)
  Fixpoint s_load_one (fuel : nat) (for_ts : Z) (i : nat) (s : series_merge) : series_merge * res bool :=
    match fuel with
    | O => (s, Err Diverges)
    | S fuel' =>
      match nth_error (preloaded s) i, nth_error (super_preloaded s) i with
      | Some p, Some sup =>
        if fst p <=? for_ts
        then match sup with
             | None => (s, Ok (negb (for_ts <? fst p)))
             | Some x => if for_ts <? fst x then (s, Ok true)
                         else match s_advance s i with
                              | (s', Ok _) => s_load_one fuel' for_ts i s'
                              | (s', Err e) => (s', Err e)
                              end
             end
        else match s_advance s i with
             | (s', Ok _) => s_load_one fuel' for_ts i s'
             | (s', Err e) => (s', Err e)
             end
      | _, _ => (s, Err IndexError)
      end
    end.
  (** merger.py:70-89 assert_preloaded, from the i-th of the [n] series left *)
  Fixpoint s_assert_preloaded (n : nat) (for_ts : Z) (i : nat) (s : series_merge) : series_merge * res bool :=
    match n with
    | O => (s, Ok true)
    | S n' =>
      match nth_error (preloaded s) i, nth_error (super_preloaded s) i with
      | Some p, Some None => if for_ts <? fst p then (s, Ok false) else s_assert_preloaded n' for_ts (S i) s
      | Some _, Some (Some _) =>
        match s_load_one (S (S (length (nth i (rest_of s) [])))) for_ts i s with
        | (s', Ok true) => s_assert_preloaded n' for_ts (S i) s'
        | r => r
        end
      | _, _ => (s, Err IndexError)
      end
    end.

  (** merger.py:91-101 assert_have_timestamps *)
  Definition s_have_timestamps (s : series_merge) : series_merge * res unit :=
    if heap_bool (sh_data (timestamps s)) then (s, Ok tt)
    else if forallb (fun x => match x with None => true | _ => false end) (super_preloaded s) then (s, Err StopIteration)
    else match s_next_min s with
         | (s', Ok _) => if heap_bool (sh_data (timestamps s')) then (s', Ok tt) else (s', Err StopIteration)
         | r => r
         end.

  (** merger.py:112-113, popping timestamps until one can be reported; IndexError
      of the empty heap becomes StopIteration (103) *)
  Fixpoint s_find (fuel : nat) (s : series_merge) : series_merge * res Z :=
    match fuel with
    | O => (s, Err Diverges)
    | S fuel' =>
      match sh_pop Z.ltb Z.eqb (timestamps s) with
      | (h, Err e) => (s, Err (match e with IndexError => StopIteration | _ => e end))
      | (h, Ok ts) =>
        match s_assert_preloaded (length (rest_of s)) ts 0
                {| rest_of := rest_of s; preloaded := preloaded s; super_preloaded := super_preloaded s; timestamps := h |} with
        | (s', Ok true) => (s', Ok ts)
        | (s', Ok false) => s_find fuel' s'
        | (s', Err e) => (s', Err (match e with IndexError => StopIteration | _ => e end))
        end
      end
    end.
  (** merger.py:103-116 __next__ of a merger that is not [empty] *)
  Definition s_next (fuel : nat) (s : series_merge) : series_merge * res (Z * list V) :=
    match s_have_timestamps s with
    | (s1, Ok _) => match s_find fuel s1 with
                    | (s2, Ok ts) => (s2, Ok (ts, map snd (preloaded s2)))
                    | (s2, Err e) => (s2, Err e)
                    end
    | (s1, Err e) => (s1, Err e)
    end.
  (** [list(merge_series(...))] *)
  Fixpoint s_collect (fuel : nat) (s : series_merge) (out : list (Z * list V)) : res (list (Z * list V)) :=
    match fuel with
    | O => Err Diverges
    | S fuel' => match s_next (S fuel) s with
                 | (s', Ok row) => s_collect fuel' s' (out ++ [row])
                 | (_, Err StopIteration) => Ok out
                 | (_, Err e) => Err e
                 end
    end.
  Definition merge_series (series : list (list (Z * V))) : res (list (Z * list V)) :=
    match s_init series with
    | Err e => Err e
    | Ok None => Ok []
    | Ok (Some s) => s_collect (S (S (length (concat series)))) s []
    end.
End MergeSeries.
Arguments merge : clear implicits.
Arguments series_merge : clear implicits.
