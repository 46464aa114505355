(** CPython's [heapq] on a list used as an array, as called from
    /repo/satella/coding/structures/heaps/base.py (lines 22, 35, 44, 64, 81, 94,
    109), heaps/time.py (58, 81, 200, 215) and
    /repo/satella/coding/transforms/merge_list.py.  heapq itself is Python's
    standard library; its algorithm (Lib/heapq.py: _siftdown, _siftup, heapify,
    heappush, heappop) is transcribed here so that nothing about it is assumed.

    The loops run on fuel.  Exhausted fuel (and an index out of range) returns
    the empty list: any theorem stating that the contents are a permutation of
    the input therefore excludes these cases. *)
From Verif Require Import Prelude.

Set Implicit Arguments.

Section Heapq.
  Context {A : Type}.
  Variable lt : A -> A -> bool.   (* Python's [<] on the elements *)

  (** heapq._siftdown, the while loop: [heap] has a hole at [pos] to be filled
      with [newitem]; move it towards [startpos] past larger parents. *)
  Fixpoint siftdown_loop (fuel : nat) (heap : list A) (startpos pos : nat) (newitem : A)
    : list A :=
    match fuel with
    | O => []
    | S f =>
      if startpos <? pos then
        let parentpos := Nat.div2 (pos - 1) in
        match nth_error heap parentpos with
        | None => []
        | Some parent =>
          if lt newitem parent
          then siftdown_loop f (upd heap pos parent) startpos parentpos newitem
          else upd heap pos newitem
        end
      else upd heap pos newitem
    end.

  (** heapq._siftdown(heap, startpos, pos) *)
  Definition siftdown (heap : list A) (startpos pos : nat) : list A :=
    match nth_error heap pos with
    | None => []
    | Some newitem => siftdown_loop (S pos) heap startpos pos newitem
    end.

  (** heapq._siftup, the while loop: bubble the smaller child up until a leaf is
      hit; returns the list (with a hole) and the final position. *)
  Fixpoint siftup_loop (fuel : nat) (heap : list A) (pos : nat) : list A * nat :=
    match fuel with
    | O => ([], 0)
    | S f =>
      let childpos := 2 * pos + 1 in
      if childpos <? length heap then
        let rightpos := childpos + 1 in
        let childpos :=
          if rightpos <? length heap then
            match nth_error heap childpos, nth_error heap rightpos with
            | Some c, Some r => if negb (lt c r) then rightpos else childpos
            | _, _ => childpos
            end
          else childpos in
        match nth_error heap childpos with
        | None => ([], 0)
        | Some c => siftup_loop f (upd heap pos c) childpos
        end
      else (heap, pos)
    end.

  (** heapq._siftup(heap, pos) *)
  Definition siftup (heap : list A) (pos : nat) : list A :=
    match nth_error heap pos with
    | None => []
    | Some newitem =>
      let (h, p) := siftup_loop (S (length heap)) heap pos in
      siftdown (upd h p newitem) pos p
    end.

  (** heapq.heapify: _siftup for i in reversed(range(n//2)) *)
  Fixpoint heapify_from (i : nat) (heap : list A) : list A :=
    match i with
    | O => heap
    | S j => heapify_from j (siftup heap j)
    end.
  Definition heapify (heap : list A) : list A :=
    heapify_from (Nat.div2 (length heap)) heap.

  (** heapq.heappush: append, then _siftdown(heap, 0, len(heap)-1) *)
  Definition heappush (heap : list A) (item : A) : list A :=
    siftdown (heap ++ [item]) 0 (length heap).

  (** heapq.heappop: pop the last element; if anything is left put it at the
      root and sift up.  IndexError on an empty list ([None] here). *)
  Definition heappop (heap : list A) : option (A * list A) :=
    match rev heap with
    | [] => None
    | lastelt :: revrest =>
      let rest := rev revrest in
      match rest with
      | [] => Some (lastelt, [])
      | returnitem :: _ => Some (returnitem, siftup (upd rest 0 lastelt) 0)
      end
    end.
End Heapq.
