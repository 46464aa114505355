(** /repo/satella/coding/concurrent/id_allocator.py. Every method is
    synchronized on the object's monitor, so calls take effect one at a time in
    the order in which they get the lock. *)
From Verif Require Import Prelude.
Open Scope Z_scope.

(** ** SequentialIssuer, 8-50 *)
(** 22-32 issue: the value returned and the new start (the finally clause) *)
Definition si_issue (start : Z) : Z * Z := (start, start + 1).
(** 34-50 no_less_than: line 45 is not reached *)
Definition si_no_less_than (start n : Z) : Z * Z :=
  if n <? start then (start, start + 1) else (n, n + 1).

Inductive si_op := IIssue | INoLessThan (n : Z).
Definition si_step (start : Z) (o : si_op) : Z * Z :=
  match o with IIssue => si_issue start | INoLessThan n => si_no_less_than start n end.
Fixpoint si_run (start : Z) (ops : list si_op) : list Z * Z :=
  match ops with
  | [] => ([], start)
  | o :: t => let (x, start1) := si_step start o in
              let (xs, start') := si_run start1 t in (x :: xs, start')
  end.

(** ** IDAllocator, 53-141. The sets are lists; [set.pop] takes any element: the
    position is chosen by the call's [pick]. top_limit None is math.inf. *)
Record ida := { ia_alloc : list Z; ia_free : list Z; ia_bound : Z }.
Section IDAllocator.
  Variables (start_at : Z) (top_limit : option Z).

  (** 69-75: [top_limit or math.inf] *)
  Definition ia_top : option Z := match top_limit with Some t => if t =? 0 then None else Some t | None => None end.
  Definition ia_init : ida := {| ia_alloc := []; ia_free := []; ia_bound := 0 |}.

  Definition range (a b : Z) : list Z := map (fun i => a + Z.of_nat i) (seq 0 (Z.to_nat (b - a))).
  Definition set_add (l : list Z) (x : Z) : list Z := if memb Z.eqb x l then l else l ++ [x].
  (** 77-86 _extend_the_bound_to: how many, and the new state *)
  Definition ia_extend (s : ida) (x : Z) : nat * ida :=
    let x := match ia_top with Some t => if t <? x then t else x | None => x end in
    let new := range (ia_bound s) x in
    (length new, {| ia_alloc := ia_alloc s; ia_free := fold_left set_add new (ia_free s); ia_bound := x |}).

  (** 88-102 mark_as_free *)
  Definition ia_mark_free (s : ida) (x : Z) : ida * option exn :=
    if x <? start_at then (s, Some ValueError)
    else let x := x - start_at in
         if memb Z.eqb x (ia_alloc s)
         then ({| ia_alloc := remove_first Z.eqb x (ia_alloc s); ia_free := set_add (ia_free s) x; ia_bound := ia_bound s |}, None)
         else (s, Some ValueError).

  (** 104-117 allocate_int *)
  Definition ia_allocate (s : ida) (pick : nat) : ida * res Z :=
    let pop s :=
      match nth_error (ia_free s) (pick mod length (ia_free s)) with
      | None => (s, Err KeyError)
      | Some x => ({| ia_alloc := set_add (ia_alloc s) x;
                      ia_free := remove_first Z.eqb x (ia_free s); ia_bound := ia_bound s |}, Ok (x + start_at))
      end in
    match ia_free s with
    | [] => let (n, s') := ia_extend s (ia_bound s + 10) in
            match n with O => (s', Err EmptyExn) | _ => pop s' end
    | _ => pop s
    end.

  (** 119-141 mark_as_allocated; set.remove of an absent element is a KeyError *)
  Definition ia_take (s : ida) (x : Z) : ida * option exn :=
    if memb Z.eqb x (ia_free s)
    then ({| ia_alloc := set_add (ia_alloc s) x; ia_free := remove_first Z.eqb x (ia_free s); ia_bound := ia_bound s |}, None)
    else (s, Some KeyError).
  Definition ia_mark_allocated (s : ida) (x : Z) : ida * option exn :=
    if x <? start_at then (s, Some ValueError)
    else if match ia_top with Some t => t <=? x | None => false end then (s, Some ValueError)
    else let x := x - start_at in
         if ia_bound s <=? x then ia_take (snd (ia_extend s (x + 1))) x
         else if memb Z.eqb x (ia_alloc s) then (s, Some AlreadyAllocated)
         else ia_take s x.

  Inductive ida_op := AAllocate (pick : nat) | AMarkAllocated (x : Z) | AMarkFree (x : Z).
  Inductive ida_out := AOId (x : Z) | AONone | AORaise (e : exn).
  Definition ao_unit (p : ida * option exn) : ida * ida_out :=
    (fst p, match snd p with None => AONone | Some e => AORaise e end).
  Definition ida_step (s : ida) (o : ida_op) : ida * ida_out :=
    match o with
    | AAllocate pick => match ia_allocate s pick with (s', Ok x) => (s', AOId x) | (s', Err e) => (s', AORaise e) end
    | AMarkAllocated x => ao_unit (ia_mark_allocated s x)
    | AMarkFree x => ao_unit (ia_mark_free s x)
    end.
  Fixpoint ida_run (s : ida) (ops : list ida_op) : list ida_out * ida :=
    match ops with
    | [] => ([], s)
    | o :: t => let (s1, out) := ida_step s o in
                let (outs, s') := ida_run s1 t in (out :: outs, s')
    end.
End IDAllocator.
