(** Specification of IDAllocator and SequentialIssuer. *)
From Verif Require Import Prelude IDAlloc_Model.
Open Scope Z_scope.

(** ** IDAllocator: the set of identifiers held *)
(** [call held o out held']: call o may be answered by out when exactly [held]
    are held, after which exactly [held'] are. *)
Definition held_set := Z -> Prop.
Definition take (x : Z) (held : held_set) : held_set := fun y => y = x \/ held y.
Definition drop (x : Z) (held : held_set) : held_set := fun y => y <> x /\ held y.

Section IDAllocatorSpec.
  (** the smallest identifier; the first one too large, if there is a limit *)
  Variables (start_at : Z) (limit : option Z).
  Definition allowed (x : Z) : Prop := start_at <= x /\ match limit with Some t => x < t | None => True end.

  Inductive call (held : held_set) : ida_op -> ida_out -> held_set -> Prop :=
  | CAlloc pick x : allowed x -> ~ held x -> call held (AAllocate pick) (AOId x) (take x held)
  | CEmpty pick : limit <> None -> (forall x, allowed x -> held x) ->
                  call held (AAllocate pick) (AORaise EmptyExn) held
  | CMark x : allowed x -> ~ held x -> call held (AMarkAllocated x) AONone (take x held)
  | CMarkHeld x : allowed x -> held x -> call held (AMarkAllocated x) (AORaise AlreadyAllocated) held
  | CMarkBad x : ~ allowed x -> call held (AMarkAllocated x) (AORaise ValueError) held
  | CFree x : held x -> call held (AMarkFree x) AONone (drop x held)
  | CFreeBad x : ~ held x -> call held (AMarkFree x) (AORaise ValueError) held.

  (** The same with nothing said about the limit: which allocations may be
      refused and with what. *)
  Inductive ident_call (held : held_set) : ida_op -> ida_out -> held_set -> Prop :=
  | ICAlloc pick x : start_at <= x -> ~ held x -> ident_call held (AAllocate pick) (AOId x) (take x held)
  | ICRefuse pick : limit <> None -> ident_call held (AAllocate pick) (AORaise EmptyExn) held
  | ICMark x : start_at <= x -> ~ held x -> ident_call held (AMarkAllocated x) AONone (take x held)
  | ICMarkHeld x : held x -> ident_call held (AMarkAllocated x) (AORaise AlreadyAllocated) held
  | ICMarkRefuse x e : x < start_at \/ limit <> None -> e = ValueError \/ e = KeyError ->
                       ident_call held (AMarkAllocated x) (AORaise e) held
  | ICFree x : held x -> ident_call held (AMarkFree x) AONone (drop x held)
  | ICFreeBad x : ~ held x -> ident_call held (AMarkFree x) (AORaise ValueError) held.
End IDAllocatorSpec.

(** A history of calls, each allowed by [C] in the state the earlier ones left. *)
Inductive ida_session (C : held_set -> ida_op -> ida_out -> held_set -> Prop)
  : held_set -> list ida_op -> list ida_out -> Prop :=
| AS_nil held : ida_session C held [] []
| AS_cons held o out held' ops outs :
    C held o out held' -> ida_session C held' ops outs -> ida_session C held (o :: ops) (out :: outs).

Definition none_held : held_set := fun _ => False.

(** ** SequentialIssuer: [issued prev ops outs]: with every identifier given out
    so far in [prev], the calls may be answered by outs. *)
Fixpoint issued (prev : list Z) (ops : list si_op) (outs : list Z) : Prop :=
  match ops, outs with
  | [], [] => True
  | o :: ops', x :: outs' =>
      (forall y, In y prev -> y < x) /\
      match o with IIssue => True | INoLessThan n => n <= x end /\
      issued (prev ++ [x]) ops' outs'
  | _, _ => False
  end.

(** Nothing is skipped needlessly: the next identifier is the smallest that is
    at least [next] (and at least n). *)
Fixpoint issued_tightly (next : Z) (ops : list si_op) (outs : list Z) : Prop :=
  match ops, outs with
  | [], [] => True
  | o :: ops', x :: outs' =>
      x = match o with IIssue => next | INoLessThan n => Z.max n next end /\
      issued_tightly (x + 1) ops' outs'
  | _, _ => False
  end.
