(** heapq as CPython runs it (Modules/_heapqmodule.c: siftdown, siftup, heappush, heappop), with comparisons that may raise: elements are
    swapped in place, so that an exception leaves the list with the swaps made so far. Called from
    /repo/satella/coding/structures/heaps/base.py (lines 64 and 81). Without exceptions it computes what Heapq_Model does (proved in
    HeapqC_Proofs). Fuel as in Heapq_Model. *)
From Verif Require Import Prelude.
Set Implicit Arguments.

Section HeapqC.
  Context {A : Type}.
  Variable cmp : A -> A -> res bool.   (* Python's [<], or the exception it raises *)

  (** siftdown *)
  Fixpoint csiftdown (fuel : nat) (heap : list A) (startpos pos : nat) : list A * option exn :=
    match fuel with
    | O => ([], None)
    | S f =>
      if startpos <? pos then
        let parentpos := Nat.div2 (pos - 1) in
        match nth_error heap pos, nth_error heap parentpos with
        | Some newitem, Some parent =>
          match cmp newitem parent with
          | Err e => (heap, Some e)
          | Ok false => (heap, None)
          | Ok true => csiftdown f (upd (upd heap parentpos newitem) pos parent) startpos parentpos
          end
        | _, _ => ([], None)
        end
      else (heap, None)
    end.
  (** siftup, the loop: the smaller child is swapped up until a leaf is reached *)
  Definition smaller_child (heap : list A) (childpos : nat) : res nat :=
    if childpos + 1 <? length heap then
      match nth_error heap childpos, nth_error heap (childpos + 1) with
      | Some c, Some r => match cmp c r with Err e => Err e | Ok true => Ok childpos | Ok false => Ok (childpos + 1) end
      | _, _ => Ok childpos
      end
    else Ok childpos.
  Fixpoint csiftup_loop (fuel : nat) (heap : list A) (pos : nat) : list A * res nat :=
    match fuel with
    | O => ([], Ok 0)
    | S f =>
      if 2 * pos + 1 <? length heap then
        match smaller_child heap (2 * pos + 1) with
        | Err e => (heap, Err e)
        | Ok childpos =>
          match nth_error heap childpos, nth_error heap pos with
          | Some c, Some x => csiftup_loop f (upd (upd heap pos c) childpos x) childpos
          | _, _ => ([], Ok 0)
          end
        end
      else (heap, Ok pos)
    end.
  Definition cheappush (heap : list A) (item : A) : list A * option exn :=
    csiftdown (S (length heap)) (heap ++ [item]) 0 (length heap).
  (** heappop: if a comparison raises, the smallest element has been taken out already *)
  Definition cheappop (heap : list A) : list A * res A :=
    match rev heap with
    | [] => (heap, Err IndexError)
    | lastelt :: revrest =>
      match rev revrest with
      | [] => ([], Ok lastelt)
      | returnitem :: _ =>
        let h := upd (rev revrest) 0 lastelt in
        match csiftup_loop (S (length h)) h 0 with
        | (h', Err e) => (h', Err e)
        | (h', Ok pos) => match csiftdown (S pos) h' 0 pos with
                          | (h'', Some e) => (h'', Err e)
                          | (h'', None) => (h'', Ok returnitem)
                          end
        end
      end
    end.
End HeapqC.
