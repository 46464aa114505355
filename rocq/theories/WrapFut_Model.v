(** Wrapping a future that another thread may be completing: WrappingFuture.__init__ and _on_future_completed
    (satella/coding/concurrent/futures/futures.py:185-209), wrap_if (216-226), call_in_future
    (call_in_future.py:7-26) and ExecutorWrapper (wrapped_executor.py:6-28); and FutureCollection as a container
    (collection.py:20-39, 68-87).

    The wrapped future is one of CPython: its state changes under its lock, and its done callbacks are called
    afterwards, without it. Each step below is one that other threads can get between. What the wrapping future's
    own set_result does (C31) is one step here, and no callbacks are added to it. *)
From Verif Require Import Prelude Futures_Model.
Set Implicit Arguments.

Section Wrap.
  Variable V : Type.
  Variable none : V.

  (** where the constructor is: before 187 (186 done); 187 done; 188 reads source_future._state; 188 writes it *)
  Inductive place := BeforeAdd | Added | HasRead (s : fstate) | Constructed.
  Record world := {
    at_ : place;
    src : fstate; src_outcome : option (res V);     (* the wrapped future *)
    registered : bool;                              (* our callback is among its callbacks *)
    to_call : bool;                                 (* it is over and its callbacks have not been called yet *)
    own : fstate; own_outcome : option (res V)      (* _old_state, and _result or _exception *)
  }.
  Definition start : world :=
    {| at_ := BeforeAdd; src := PENDING; src_outcome := None; registered := false; to_call := false; own := PENDING; own_outcome := None |}.

  (** futures.py:191-196 *)
  Definition state_of (w : world) : fstate := match src w with FINISHED => own w | s => s end.
  (** futures.py:205-209 with 134-173: a cancelled source has neither result nor exception, so set_result(None) *)
  Definition on_completed (w : world) : world :=
    if is_over (state_of w) then w                                  (* InvalidStateError, logged *)
    else {| at_ := at_ w; src := src w; src_outcome := src_outcome w; registered := registered w; to_call := to_call w;
            own := FINISHED; own_outcome := Some (match src_outcome w with Some r => r | None => Ok none end) |}.

  (** who makes the next step, and which *)
  Inductive move :=
  | Construct                     (* the thread that wraps *)
  | Run                           (* the source: set_running_or_notify_cancel *)
  | Finish (r : res V)            (* the source: set_result or set_exception, up to the callbacks *)
  | CancelSource                  (* the source: cancel(), up to the callbacks *)
  | Notify.                       (* the source: _invoke_callbacks *)

  Definition set_at (w : world) (p : place) : world :=
    {| at_ := p; src := src w; src_outcome := src_outcome w; registered := registered w; to_call := to_call w; own := own w; own_outcome := own_outcome w |}.
  Definition set_own (w : world) (s : fstate) : world :=
    {| at_ := at_ w; src := src w; src_outcome := src_outcome w; registered := registered w; to_call := to_call w; own := s; own_outcome := own_outcome w |}.
  Definition set_src (w : world) (s : fstate) (o : option (res V)) (c : bool) : world :=
    {| at_ := at_ w; src := s; src_outcome := o; registered := registered w; to_call := c; own := own w; own_outcome := own_outcome w |}.
  Definition set_registered (w : world) : world :=
    {| at_ := at_ w; src := src w; src_outcome := src_outcome w; registered := true; to_call := to_call w; own := own w; own_outcome := own_outcome w |}.

  Definition step (w : world) (m : move) : world :=
    match m with
    | Construct =>
      match at_ w with
      | BeforeAdd =>                                                (* 187: at once if the source is over *)
        set_at (if is_over (src w) then on_completed w else set_registered w) Added
      | Added => set_at w (HasRead (src w))                         (* 188, the right side *)
      | HasRead s => set_at (set_own w s) Constructed               (* 188 *)
      | Constructed => w
      end
    | Run => match src w with
             | PENDING => set_src w RUNNING (src_outcome w) (to_call w)
             | CANCELLED => set_src w CANCELLED_AND_NOTIFIED (src_outcome w) (to_call w)
             | _ => w
             end
    | Finish r => if is_over (src w) then w else set_src w FINISHED (Some r) true
    | CancelSource => match src w with PENDING => set_src w CANCELLED (src_outcome w) true | _ => w end
    | Notify => if to_call w
                then let w' := set_src w (src w) (src_outcome w) false in if registered w then on_completed w' else w'
                else w
    end.
  Definition run (w : world) (ms : list move) : world := fold_left step ms w.

  (** what result() of the wrapping future says; TimeoutExn: it waits *)
  Definition wrapped_result (w : world) : res V :=
    match state_of w with
    | PRE_FINISHED | FINISHED => match own_outcome w with Some r => r | None => Ok none end
    | CANCELLED | CANCELLED_AND_NOTIFIED => Err CancelledExn
    | PENDING | RUNNING => Err TimeoutExn
    end.
End Wrap.
Arguments start {V}.
Arguments Construct {V}.
Arguments Run {V}.
Arguments CancelSource {V}.
Arguments Notify {V}.

(** futures.py:216-226 wrap_if: [true] for a future of satella *)
Inductive fut := Python (id : nat) | Satella (id : nat) | Wrapping (f : fut).
Definition is_satella (f : fut) : bool := match f with Python _ => false | _ => true end.
Definition wrap_if (f : fut) : fut := if is_satella f then f else Wrapping f.

(** Executors: what was submitted so far; [gives] is what submit returns, or raises *)
Section Executor.
  Variables F A : Type.
  Definition submitted := list (F * A).
  Variable gives : submitted -> F -> A -> res fut.
  Definition submit (l : submitted) (f : F) (a : A) : submitted * res fut :=
    match gives l f a with Ok x => (l ++ [(f, a)], Ok x) | Err e => (l, Err e) end.
  (** wrapped_executor.py:14-15 *)
  Definition wrapper_submit (l : submitted) (f : F) (a : A) : submitted * res fut :=
    let (l', r) := submit l f a in (l', match r with Ok x => Ok (wrap_if x) | Err e => Err e end).
  (** call_in_future.py:23-24, whatever it is called with *)
  Definition inner {B} (f : F) (a : A) (l : submitted) (my_args : B) : submitted * res fut :=
    let (l', r) := submit l f a in (l', match r with Ok x => Ok (wrap_if x) | Err e => Err e end).
  Fixpoint inner_calls {B} (f : F) (a : A) (l : submitted) (calls : list B) : submitted * list (res fut) :=
    match calls with
    | [] => (l, [])
    | b :: t => let (l1, r) := inner f a l b in let (l2, rs) := inner_calls f a l1 t in (l2, r :: rs)
    end.
End Executor.

(** ** FutureCollection as a container. Lists are objects: [lists] by number; a collection is the number of its list.
    Using a collection that was not made (a NameError) does nothing. *)
Record store := { lists : nat -> list nat; colls : nat -> option nat; next_list : nat }.
Inductive operand := OColl (c : nat) | OList (l : nat) | OTuple (fs : list nat) | OFuture (f : nat).
Definition put {A} (f : nat -> A) (i : nat) (v : A) : nat -> A := fun x => if Nat.eqb x i then v else f x.
(** c = a collection over a new list *)
Definition new_coll (s : store) (c : nat) (l : list nat) : store :=
  {| lists := put (lists s) (next_list s) l; colls := put (colls s) c (Some (next_list s)); next_list := S (next_list s) |}.
Definition bind_coll (s : store) (c l : nat) : store := {| lists := lists s; colls := put (colls s) c (Some l); next_list := next_list s |}.
Definition change_list (s : store) (l : nat) (v : list nat) : store :=
  {| lists := put (lists s) l v; colls := colls s; next_list := next_list s |}.
Definition elements (s : store) (o : operand) : option (list nat) :=
  match o with
  | OColl c => match colls s c with Some l => Some (lists s l) | None => None end
  | OList l => Some (lists s l)
  | OTuple fs => Some fs
  | OFuture f => Some [f]
  end.
Inductive coll_op :=
| CNew (c : nat) (o : operand)             (* c = FutureCollection(o), of a list, tuple or collection: collection.py:20-23 *)
| CAdd (c a : nat) (o : operand)           (* c = a + o: collection.py:31-39 *)
| CIAdd (c : nat) (o : operand)            (* c += o: collection.py:68-77 *)
| CAppend (c f : nat)                      (* c.add(f): collection.py:79-87 *)
| CUser (l : nat) (f : nat).               (* l.append(f) by the user *)
Definition coll_step (s : store) (op : coll_op) : store :=
  match op with
  | CNew c (OList l) => bind_coll s c l                             (* 21-23: a list is taken as it is *)
  | CNew c o => match elements s o with Some x => new_coll s c x | None => s end
  | CAdd c a o => match elements s (OColl a), elements s o with Some x, Some y => new_coll s c (x ++ y) | _, _ => s end
  | CIAdd c o => match colls s c, elements s o with Some l, Some y => change_list s l (lists s l ++ y) | _, _ => s end
  | CAppend c f => match colls s c with Some l => change_list s l (lists s l ++ [f]) | None => s end
  | CUser l f => change_list s l (lists s l ++ [f])
  end.
Definition coll_run (s : store) (ops : list coll_op) : store := fold_left coll_step ops s.
(** the user has [n] lists, and no collections were made *)
Definition no_colls (n : nat) (l : nat -> list nat) : store := {| lists := l; colls := fun _ => None; next_list := n |}.
(** len(c), c[n]: 25-29 *)
Definition coll_len (s : store) (c : nat) : option nat := option_map (@length nat) (elements s (OColl c)).
Definition coll_get (s : store) (c n : nat) : option nat :=
  match elements s (OColl c) with Some x => nth_error x n | None => None end.
