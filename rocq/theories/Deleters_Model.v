(** /repo/satella/coding/deleters.py: DictDeleter and ListDeleter. While a
    deleter is in use nobody else changes the container. *)
From Verif Require Import Prelude.
Set Implicit Arguments.

(** ** DictDeleter, 12-80 *)
Section DictDeleter.
  Context {K V : Type}.
  Variable eqb : K -> K -> bool.

  Inductive iter_mode := ITER_KEYS | ITER_VALUES | ITER_ITEMS.      (* 7-9 *)
  (** inside of a with block: the attributes; those not yet set are None.
      [dd_marks] is the set keys_to_delete, as a list without repetitions. *)
  Record dd := { dd_dict : list (K * V); dd_iter : option (list (K * V));
                 dd_marks : list K; dd_mode : iter_mode; dd_key : option K }.
  (** 40-46 __init__ and __enter__ *)
  Definition dd_enter (d : list (K * V)) : dd :=
    {| dd_dict := d; dd_iter := None; dd_marks := []; dd_mode := ITER_KEYS; dd_key := None |}.

  Inductive dd_out := DOKey (k : K) | DOValue (v : V) | DOItem (k : K) (v : V) | DONone | DORaise (e : exn).
  (** 48-50 *)
  Definition dd_start (s : dd) : dd :=
    {| dd_dict := dd_dict s; dd_iter := Some (dd_dict s); dd_marks := dd_marks s; dd_mode := dd_mode s; dd_key := dd_key s |}.
  (** 52-60 __next__ *)
  Definition dd_next (s : dd) : dd * dd_out :=
    match dd_iter s with
    | None => (s, DORaise AttributeError)
    | Some [] => (s, DORaise StopIteration)
    | Some ((k, v) :: t) =>
        ({| dd_dict := dd_dict s; dd_iter := Some t; dd_marks := dd_marks s; dd_mode := dd_mode s; dd_key := Some k |},
         match dd_mode s with ITER_ITEMS => DOItem k v | ITER_VALUES => DOValue v | ITER_KEYS => DOKey k end)
    end.
  (** 62-72 *)
  Definition dd_set_mode (s : dd) (m : iter_mode) : dd :=
    {| dd_dict := dd_dict s; dd_iter := dd_iter s; dd_marks := dd_marks s; dd_mode := m; dd_key := dd_key s |}.
  (** 74-75 delete *)
  Definition dd_delete (s : dd) : dd * dd_out :=
    match dd_key s with
    | None => (s, DORaise AttributeError)
    | Some k => ({| dd_dict := dd_dict s; dd_iter := dd_iter s;
                    dd_marks := if memb eqb k (dd_marks s) then dd_marks s else dd_marks s ++ [k];
                    dd_mode := dd_mode s; dd_key := dd_key s |}, DONone)
    end.
  (** 77-80 __exit__: the set is iterated in any order: in [order], if that
      enumerates it, and otherwise in the order of insertion *)
  Fixpoint dd_del_all (ks : list K) (d : list (K * V)) : list (K * V) * option exn :=
    match ks with
    | [] => (d, None)
    | k :: t => if dmem eqb d k then dd_del_all t (ddel eqb d k) else (d, Some KeyError)
    end.
  Fixpoint distinct (l : list K) : bool :=
    match l with [] => true | k :: t => negb (memb eqb k t) && distinct t end.
  Definition enumerates (order marks : list K) : bool :=
    distinct order && forallb (fun k => memb eqb k marks) order && forallb (fun k => memb eqb k order) marks.
  Definition dd_exit (s : dd) (order : list K) : list (K * V) * option exn :=
    dd_del_all (if enumerates order (dd_marks s) then order else dd_marks s) (dd_dict s).

  Inductive dd_op := DIter | DNext | DMode (m : iter_mode) | DDelete.
  Definition dd_step (s : dd) (o : dd_op) : dd * dd_out :=
    match o with
    | DIter => (dd_start s, DONone)
    | DNext => dd_next s
    | DMode m => (dd_set_mode s m, DONone)
    | DDelete => dd_delete s
    end.
  Fixpoint dd_run (s : dd) (ops : list dd_op) : list dd_out * dd :=
    match ops with
    | [] => ([], s)
    | o :: t => let (s1, out) := dd_step s o in
                let (outs, s') := dd_run s1 t in (out :: outs, s')
    end.
  (** with DictDeleter(d) as dd: body. The dictionary afterwards, and what
      __exit__ raised. *)
  Definition dd_with (d : list (K * V)) (body : list dd_op) (order : list K)
    : list dd_out * (list (K * V) * option exn) :=
    let (outs, s) := dd_run (dd_enter d) body in (outs, dd_exit s order).
End DictDeleter.
Arguments dd : clear implicits.
Arguments dd_out : clear implicits.

(** ** ListDeleter, 87-238 *)
Section ListDeleter.
  Context {T : Type}.
  Open Scope Z_scope.
  Definition zlen (l : list T) : Z := Z.of_nat (length l).

  (** Python's l[i]: a negative index counts from the end *)
  Definition py_index (l : list T) (i : Z) : option T :=
    let j := if i <? 0 then i + zlen l else i in
    if j <? 0 then None else nth_error l (Z.to_nat j).

  Record ld := { ld_list : list T; ld_fwd : bool; ld_idx : Z; ld_marks : list Z; ld_removed : bool }.
  (** 136, 154 *)
  Definition ld_origin (l : list T) (fwd : bool) : Z := if fwd then -1 else zlen l.
  (** 132-138 *)
  Definition ld_init (l : list T) (fwd : bool) : ld :=
    {| ld_list := l; ld_fwd := fwd; ld_idx := ld_origin l fwd; ld_marks := []; ld_removed := false |}.
  Definition ld_move (s : ld) (i : Z) : ld :=
    {| ld_list := ld_list s; ld_fwd := ld_fwd s; ld_idx := i; ld_marks := ld_marks s; ld_removed := ld_removed s |}.

  Inductive ld_out := LOElem (x : T) | LONone | LOList (l : list T) | LORaise (e : exn).
  Definition ld_at (s : ld) (e : exn) : ld_out :=
    match py_index (ld_list s) (ld_idx s) with Some x => LOElem x | None => LORaise e end.
  (** 153-156 __iter__ *)
  Definition ld_iter (s : ld) : ld :=
    {| ld_list := ld_list s; ld_fwd := ld_fwd s; ld_idx := ld_origin (ld_list s) (ld_fwd s); ld_marks := []; ld_removed := ld_removed s |}.
  (** 158-174 __next__, next *)
  Definition ld_next (s : ld) : ld * ld_out :=
    if negb (ld_fwd s) && (ld_idx s =? -1) then (s, LORaise StopIteration)
    else if ld_fwd s && (ld_idx s =? zlen (ld_list s)) then (s, LORaise StopIteration)
    else let s' := ld_move s (ld_idx s + if ld_fwd s then 1 else -1) in (s', ld_at s' StopIteration).
  (** 176-191 prev *)
  Definition ld_prev (s : ld) : ld * ld_out :=
    if ld_fwd s && (ld_idx s =? -1) then (s, LORaise StopIteration)
    else if negb (ld_fwd s) && (ld_idx s =? zlen (ld_list s)) then (s, LORaise StopIteration)
    else let s' := ld_move s (ld_idx s + if ld_fwd s then -1 else 1) in (s', ld_at s' StopIteration).
  (** 193-194 delete; the set is only ever tested for membership *)
  Definition ld_delete (s : ld) : ld :=
    {| ld_list := ld_list s; ld_fwd := ld_fwd s; ld_idx := ld_idx s; ld_marks := ld_idx s :: ld_marks s; ld_removed := ld_removed s |}.
  (** 223-226: the loop over the indices of a copy, popping from the list *)
  Fixpoint ld_remove_loop (marks : list Z) (index delta : nat) (copy l : list T) : list T :=
    match copy with
    | [] => l
    | _ :: t => if memb Z.eqb (Z.of_nat index) marks
                then ld_remove_loop marks (S index) (S delta) t (del_nth (index - delta) l)
                else ld_remove_loop marks (S index) delta t l
    end.
  (** 217-231 remove_items, __exit__ *)
  Definition ld_remove (s : ld) : ld :=
    if ld_removed s then s
    else {| ld_list := ld_remove_loop (ld_marks s) 0 0 (ld_list s) (ld_list s); ld_fwd := ld_fwd s;
            ld_idx := ld_idx s; ld_marks := ld_marks s; ld_removed := true |}.
  (** 196-215 *)
  Definition ld_reversed (s : ld) : ld := ld_init (ld_list s) (negb (ld_fwd s)).
  (** 233-238: the copy has not removed anything yet *)
  Definition ld_copy (s : ld) : ld :=
    {| ld_list := ld_list s; ld_fwd := ld_fwd s; ld_idx := ld_idx s; ld_marks := ld_marks s; ld_removed := false |}.

  (** [LReversed], [LCopy]: continue with the new deleter. [LList]: look at the list. *)
  Inductive ld_op := LIter | LNext | LPrev | LValue | LDelete | LRemove | LReversed | LCopy | LList.
  Definition ld_step (s : ld) (o : ld_op) : ld * ld_out :=
    match o with
    | LIter => (ld_iter s, LONone)
    | LNext => ld_next s
    | LPrev => ld_prev s
    | LValue => (s, ld_at s IndexError)                      (* 143-151 *)
    | LDelete => (ld_delete s, LONone)
    | LRemove => (ld_remove s, LONone)
    | LReversed => (ld_reversed s, LONone)
    | LCopy => (ld_copy s, LONone)
    | LList => (s, LOList (ld_list s))
    end.
  Fixpoint ld_run (s : ld) (ops : list ld_op) : list ld_out * ld :=
    match ops with
    | [] => ([], s)
    | o :: t => let (s1, out) := ld_step s o in
                let (outs, s') := ld_run s1 t in (out :: outs, s')
    end.

  (** The loop of the docstring, 101-104: for x in ld: if p(x): ld.delete().
      The elements x took, in order; None if the loop did not end within [fuel]
      rounds. *)
  Fixpoint ld_for (fuel : nat) (p : T -> bool) (s : ld) : option (list T * ld) :=
    match fuel with
    | O => None
    | S fuel =>
      match ld_next s with
      | (s1, LOElem x) => match ld_for fuel p (if p x then ld_delete s1 else s1) with
                          | Some (xs, s') => Some (x :: xs, s')
                          | None => None
                          end
      | (s1, _) => Some ([], s1)
      end
    end.
  (** with ListDeleter(l, direction) as ld: that loop. The elements x took and
      the list afterwards. *)
  Definition ld_with (l : list T) (fwd : bool) (p : T -> bool) : option (list T * list T) :=
    match ld_for (length l + 2) p (ld_iter (ld_init l fwd)) with
    | Some (xs, s) => Some (xs, ld_list (ld_remove s))
    | None => None
    end.
End ListDeleter.
Arguments ld : clear implicits.
Arguments ld_out : clear implicits.
