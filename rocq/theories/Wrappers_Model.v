(** Model of ListWrapperIterator and AlreadySeen (satella/coding/sequences/iterators.py), PushIterable
    (satella/coding/structures/push_iterable.py), Subqueue (satella/coding/structures/queues.py) and RollingArithmeticAverage
    (satella/coding/sequences/average.py), each used by one thread. *)
From Verif Require Import Prelude PySeq_Model.
Set Implicit Arguments.

(** ** ListWrapperIterator *)
Section ListWrapper.
  Variable T : Type.
  Variable eqb : T -> T -> bool.
  Inductive lwop : Type :=
  | LNext | LLen | LGet (i : Z) | LSlice (a b : option Z) | LContains (x : T) | LExhaust | LAdvance (i : Z).
  Inductive lwout : Type := LItem (x : T) | LList (l : list T) | LInt (n : nat) | LBool (b : bool) | LNone | LRaised (e : exn).
  (** rest: what the wrapped iterator still has to give *)
  Record lw : Type := mk_lw { rest : list T; exhausted : bool; loaded : list T; pointer : nat }.
  (** sequences/iterators.py:529-533 __init__ *)
  Definition lw_new (src : list T) : lw := mk_lw src false [] 0.
  (** sequences/iterators.py:535-543 exhaust *)
  Definition lw_exhaust (s : lw) : lw := if exhausted s then s else mk_lw [] true (loaded s ++ rest s) (pointer s).
  (** sequences/iterators.py:552-558: while len(self.list) < i *)
  Fixpoint lw_load (r l : list T) (p : nat) (i : Z) : lw :=
    if (Z.of_nat (length l) <? i)%Z then
      match r with
      | x :: r' => lw_load r' (l ++ [x]) p i
      | [] => mk_lw [] true l p
      end
    else mk_lw r false l p.
  (** sequences/iterators.py:545-558 advance_to_item *)
  Definition lw_advance (s : lw) (i : Z) : lw := if exhausted s then s else lw_load (rest s) (loaded s) (pointer s) i.
  (** sequences/iterators.py:575-599 __next__ *)
  Definition lw_next (s : lw) : option T * lw :=
    if (pointer s =? length (loaded s)) && exhausted s then (None, s)
    else match nth_error (loaded s) (pointer s) with
         | Some x => (Some x, mk_lw (rest s) (exhausted s) (loaded s) (S (pointer s)))
         | None => match rest s with
                   | x :: r => (Some x, mk_lw r (exhausted s) (loaded s ++ [x]) (S (pointer s)))
                   | [] => (None, mk_lw [] true (loaded s) (pointer s))
                   end
         end.
  (** sequences/iterators.py:524-527: the part of the loop that goes over self. [fuel]: one more than there are elements *)
  Fixpoint lw_find (fuel : nat) (x : T) (s : lw) : bool * lw :=
    match fuel with
    | O => (false, s)
    | S n => match lw_next s with
             | (Some y, s') => if eqb y x then (true, s') else lw_find n x s'
             | (None, s') => (false, s')
             end
    end.
  (** sequences/iterators.py:521-527 __contains__ *)
  Definition lw_contains (x : T) (s : lw) : bool * lw :=
    if memb eqb x (loaded s) then (true, s)
    else if exhausted s then (false, s)
    else lw_find (S (length (loaded s) + length (rest s))) x s.
  Definition lw_step (s : lw) (op : lwop) : lwout * lw :=
    match op with
    | LNext => match lw_next s with (Some x, s') => (LItem x, s') | (None, s') => (LRaised StopIteration, s') end
    (* sequences/iterators.py:560-562 __len__ *)
    | LLen => let s' := lw_exhaust s in (LInt (length (loaded s')), s')
    (* sequences/iterators.py:568-573 __getitem__ *)
    | LGet i => let s' := if (Z.of_nat (length (loaded s)) <? i + 1)%Z then lw_advance s (i + 1) else s in
                (match py_index (loaded s') i with Some x => LItem x | None => LRaised IndexError end, s')
    (* with a slice of step 1; comparing with a stop of None raises TypeError unless all is loaded *)
    | LSlice a b => match b with
                    | Some b' => let s' := lw_advance s b' in (LList (py_slice (loaded s') a b), s')
                    | None => if exhausted s then (LList (py_slice (loaded s) a b), s) else (LRaised TypeError, s)
                    end
    | LContains x => let (r, s') := lw_contains x s in (LBool r, s')
    | LExhaust => (LNone, lw_exhaust s)
    | LAdvance i => (LNone, lw_advance s i)
    end.
  Fixpoint lw_run (s : lw) (ops : list lwop) : list lwout * lw :=
    match ops with
    | [] => ([], s)
    | op :: more => let (o, s1) := lw_step s op in let (os, s2) := lw_run s1 more in (o :: os, s2)
    end.
End ListWrapper.
Arguments LNext {T}.
Arguments LLen {T}.
Arguments LGet {T} i.
Arguments LSlice {T} a b.
Arguments LExhaust {T}.
Arguments LAdvance {T} i.
Arguments LInt {T} n.
Arguments LBool {T} b.
Arguments LNone {T}.
Arguments LRaised {T} e.

(** ** PushIterable *)
Section Push.
  Variable T : Type.
  Inductive pop : Type := PPop | PPush (x : T) | PPushLeft (x : T).
  (** collection: a deque, its right end last *)
  Record push : Type := mk_push { iterable : list T; collection : list T }.
  (** push_iterable.py:33-35 __init__ *)
  Definition push_new (src : list T) : push := mk_push src [].
  (** push_iterable.py:37-45 pop, also __next__ at push_iterable.py:50-51; push_iterable.py:53-59 push; push_iterable.py:61-67 push_left.
      None: StopIteration *)
  Definition push_step (s : push) (op : pop) : option (option T) * push :=
    match op with
    | PPop => match collection s with
              | [] => match iterable s with
                      | x :: r => (Some (Some x), mk_push r [])
                      | [] => (Some None, s)
                      end
              | _ => match rev (collection s) with
                     | x :: r => (Some (Some x), mk_push (iterable s) (rev r))
                     | [] => (Some None, s)
                     end
              end
    | PPush x => (None, mk_push (iterable s) (collection s ++ [x]))
    | PPushLeft x => (None, mk_push (iterable s) (x :: collection s))
    end.
  Fixpoint push_run (s : push) (ops : list pop) : list (option (option T)) :=
    match ops with [] => [] | op :: more => let (o, s') := push_step s op in o :: push_run s' more end.
End Push.
Arguments PPop {T}.

(** ** Subqueue *)
Section Subqueue.
  Variables N T : Type.
  Variable neqb : N -> N -> bool.
  (** get(block=False); a get that blocks on an empty queue waits for ever in one thread *)
  Inductive sop : Type := SPut (n : N) (x : T) | SGet (n : N) | SGetAny | SSize.
  Inductive sout : Type := SDone | SItem (n : N) (x : T) | SEmpty | SInt (k : nat).
  Definition subq := dict N (list T).
  (** queues.py:18-25 assert_queue *)
  Definition assert_queue (s : subq) (n : N) : subq := if dmem neqb s n then s else dset neqb s n [].
  (** queues.py:54-58 get_any: the queues in order of creation *)
  Fixpoint first_nonempty (s : subq) : option (N * T * list T) :=
    match s with
    | [] => None
    | (n, x :: q) :: _ => Some (n, x, q)
    | (_, []) :: more => first_nonempty more
    end.
  Definition sq_step (s : subq) (op : sop) : sout * subq :=
    match op with
    (* queues.py:27-32 put *)
    | SPut n x => let s' := assert_queue s n in
                  (SDone, dset neqb s' n (match dget neqb s' n with Some q => q ++ [x] | None => [x] end))
    (* queues.py:34-39 get *)
    | SGet n => let s' := assert_queue s n in
                match dget neqb s' n with
                | Some (x :: q) => (SItem n x, dset neqb s' n q)
                | _ => (SEmpty, s')
                end
    | SGetAny => match first_nonempty s with
                 | Some (n, x, q) => (SItem n x, dset neqb s n q)
                 | None => (SEmpty, s)
                 end
    (* queues.py:41-43 qsize *)
    | SSize => (SInt (fold_left (fun acc nq => acc + length (snd nq)) s 0), s)
    end.
  Fixpoint sq_run (s : subq) (ops : list sop) : list sout * subq :=
    match ops with
    | [] => ([], s)
    | op :: more => let (o, s1) := sq_step s op in let (os, s2) := sq_run s1 more in (o :: os, s2)
    end.
End Subqueue.
Arguments SGet {N T} n.
Arguments SGetAny {N T}.
Arguments SSize {N T}.
Arguments SDone {N T}.
Arguments SEmpty {N T}.
Arguments SInt {N T} k.

(** ** RollingArithmeticAverage; whole numbers instead of floats *)
Inductive rop : Type := RInsert (x : Z) | RAvg | RClear.
(** avg: the sum and what it is divided by *)
Inductive rout : Type := RDone | RMean (sum : Z) (count : nat) | RRaised (e : exn).
Record rolling : Type := mk_rolling { queue : list Z; tot_sum : Z }.
(** average.py:12-15 __init__ *)
Definition rolling_new : rolling := mk_rolling [] 0.
(** average.py:17-29 insert; average.py:31-38 avg; average.py:40-45 clear *)
Definition rolling_step (n : Z) (s : rolling) (op : rop) : rout * rolling :=
  match op with
  | RInsert x =>
    if (n <=? Z.of_nat (length (queue s)))%Z then
      match queue s with
      | prev :: q => (RDone, mk_rolling (q ++ [x]) (tot_sum s - prev + x))
      | [] => (RRaised IndexError, s)
      end
    else (RDone, mk_rolling (queue s ++ [x]) (tot_sum s + x))
  | RAvg => (match queue s with [] => RRaised ZeroDivision | _ => RMean (tot_sum s) (length (queue s)) end, s)
  | RClear => (RDone, mk_rolling [] 0)
  end.
Fixpoint rolling_run (n : Z) (s : rolling) (ops : list rop) : list rout :=
  match ops with [] => [] | op :: more => let (o, s') := rolling_step n s op in o :: rolling_run n s' more end.

(** ** AlreadySeen *)
Section Seen.
  Variable T : Type.
  Variable eqb : T -> T -> bool.
  Variable hashable : T -> bool.
  Inductive seen : Type := Nothing | ASet (l : list T) | AList (l : list T).
  (** sequences/iterators.py:225-250 is_unique. An unhashable key cannot be looked up in a set; a list has no add. *)
  Definition is_unique (s : seen) (x : T) : res bool * seen :=
    if hashable x then
      match s with
      | Nothing => (Ok true, ASet [x])
      | ASet l => if memb eqb x l then (Ok false, s) else (Ok true, ASet (l ++ [x]))
      | AList l => if memb eqb x l then (Ok false, s) else (Err AttributeError, s)
      end
    else
      match s with
      | Nothing => (Ok true, AList [x])
      | ASet _ => (Err TypeError, s)
      | AList l => if memb eqb x l then (Ok false, s) else (Ok true, AList (l ++ [x]))
      end.
  Fixpoint seen_run (s : seen) (l : list T) : list (res bool) :=
    match l with [] => [] | x :: more => let (r, s') := is_unique s x in r :: seen_run s' more end.
End Seen.
