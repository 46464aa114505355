(** Decorators for methods and arguments (satella/coding/decorators/arguments.py and decorators.py). *)
From Verif Require Import Prelude.
Set Implicit Arguments.

(** ** cached_property, arguments.py:420-459 *)
Section Cached.
  Variables V S : Type.
  Variable veq : V -> V -> bool.               (* == *)
  Variable not_loaded : V.                     (* assume_not_loaded *)
  Variable fun_ : nat -> S -> S * res V.       (* the property's method, of an object; it may do things elsewhere *)
  Record cstate := { attr : nat -> V; rest : S; calls : list nat (* objects whose method was called *) }.
  Definition set_attr (s : cstate) (o : nat) (v : V) : cstate :=
    {| attr := fun x => if Nat.eqb x o then v else attr s x; rest := rest s; calls := calls s |}.
  Inductive cop := Get (o : nat) | Assign (o : nat) (v : V) (* the attribute is set by someone *).
  (** arguments.py:447-454 *)
  Definition cached_get (s : cstate) (o : nat) : cstate * res V :=
    if veq (attr s o) not_loaded then
      match fun_ o (rest s) with
      | (r, Ok v) => (set_attr {| attr := attr s; rest := r; calls := calls s ++ [o] |} o v, Ok v)
      | (r, Err e) => ({| attr := attr s; rest := r; calls := calls s ++ [o] |}, Err e)
      end
    else (s, Ok (attr s o)).
  Definition cstep (s : cstate) (op : cop) : cstate * option (res V) :=
    match op with Get o => let (s', r) := cached_get s o in (s', Some r) | Assign o v => (set_attr s o v, None) end.
  Definition crun (s : cstate) (l : list cop) : cstate := fold_left (fun s o => fst (cstep s o)) l s.
End Cached.

(** ** execute_if_attribute_none, execute_if_attribute_not_none (arguments.py:378-417); an attribute that is None is [None];
    [missing]: there is no such attribute *)
Section IfAttribute.
  Variables V S R : Type.
  Definition execute_if_none (missing : bool) (a : option V) (fun_ : S -> S * res (option R)) (s : S) : S * res (option R) :=
    if missing then (s, Err AttributeError) else match a with None => fun_ s | Some _ => (s, Ok None) end.
  Definition execute_if_not_none (missing : bool) (a : option V) (fun_ : S -> S * res (option R)) (s : S) : S * res (option R) :=
    if missing then (s, Err AttributeError) else match a with Some _ => fun_ s | None => (s, Ok None) end.
  (** ** call_method_on_exception (decorators.py:324-360); [is_exception]: of class Exception; [caught]: of exc_classes *)
  Definition call_method_on_exception (is_exception caught : exn -> bool) (method : S -> S * res R) (fun_ : S -> S * res R) (s : S) : S * res R :=
    match fun_ s with
    | (s', Ok r) => (s', Ok r)
    | (s', Err e) => if is_exception e then if caught e then method s' else (s', Err e) else (s', Err e)
    end.
  (** ** return_as_list (decorators.py:103-137): what the generator yields, and how it ends *)
  Definition return_as_list (ignore_nulls : bool) (yields : list (option V)) (ends : option exn) : res (list (option V)) :=
    match ends with
    | Some e => Err e
    | None => Ok (filter (fun i => match i with None => negb ignore_nulls | Some _ => true end) yields)
    end.
End IfAttribute.

(** ** execute_before (arguments.py:79-122). A value passed may be callable. *)
Section Before.
  Variable A : Type.
  Inductive arg := Callable (f : nat) | Plain (a : A).
  Inductive made := Decorated (f : nat) (before : list arg) (* calls callable_(before) first *) | Decorator (before : list arg).
  (** what @do_things(args) is, positional arguments only *)
  Definition execute_before (args : list arg) : made :=
    match args with
    | [Callable f] => Decorated f []
    | _ => Decorator args
    end.
  Inductive call := CallBefore (args : list arg) | CallFun (f : nat).
  (** calls made by a decorated function *)
  Definition run_made (m : made) : list call := match m with Decorated f before => [CallBefore before; CallFun f] | Decorator _ => [] end.
  Definition decorate (m : made) (f : nat) : option made := match m with Decorator before => Some (Decorated f before) | Decorated _ _ => None end.
End Before.

(** ** auto_adapt_to_methods (arguments.py:171-212). A decorator makes, of a function, a state of its own and a function. *)
Section Adapt.
  Variables Self A R D : Type.
  Variable init : D.                                              (* made by decorator(func) *)
  Variable inner : D -> (A -> res R) -> A -> D * res R.           (* the decorated function *)
  Variable func : option Self -> A -> res R.                      (* [None]: a plain function *)
  (** 207-211: decorator(...) at each call *)
  Definition adapted (calls : list (option Self * A)) : list (res R) := map (fun c => snd (inner init (func (fst c)) (snd c))) calls.
  (** decorated once *)
  Fixpoint decorated (d : D) (calls : list (option Self * A)) : list (res R) :=
    match calls with [] => [] | c :: t => let (d', r) := inner d (func (fst c)) (snd c) in r :: decorated d' t end.
End Adapt.

(** ** copy_arguments (arguments.py:246-275). Mutable objects are cells of a heap, their contents references and immutable
    values. *)
Inductive val := Imm (z : Z) | Ref (n : nat).
Record heap := { cells : nat -> list val; next : nat }.
Definition write (h : heap) (n : nat) (c : list val) : heap := {| cells := fun x => if Nat.eqb x n then c else cells h x; next := next h |}.
Definition alloc (h : heap) (c : list val) : heap := {| cells := fun x => if Nat.eqb x (next h) then c else cells h x; next := S (next h) |}.
(** copy.copy *)
Definition shallow (h : heap) (v : val) : heap * val :=
  match v with Imm z => (h, v) | Ref n => (alloc h (cells h n), Ref (next h)) end.
(** copy.deepcopy, with its memo; [None]: not enough fuel *)
Fixpoint deep (fuel : nat) (h : heap) (memo : list (nat * nat)) (v : val) : option (heap * list (nat * nat) * val) :=
  match v with
  | Imm z => Some (h, memo, v)
  | Ref n =>
    match dget Nat.eqb memo n with
    | Some m => Some (h, memo, Ref m)
    | None =>
      match fuel with
      | O => None
      | S fuel =>
        let m := next h in
        (fix items (l : list val) (h : heap) (memo : list (nat * nat)) (done : list val) : option (heap * list (nat * nat) * val) :=
           match l with
           | [] => Some (h, memo, Ref m)
           | x :: t => match deep fuel h memo x with
                       | Some (h', memo', x') => items t (write h' m (done ++ [x'])) memo' (done ++ [x'])
                       | None => None
                       end
           end) (cells h n) (alloc h []) ((n, m) :: memo) []
      end
    end
  end.
(** the arguments, one after another, each with a memo of its own (arguments.py:271-272; keyword arguments come after the positional ones); the number
    of objects is fuel enough (proved) *)
Fixpoint copy_args (deep_copy : bool) (h : heap) (args : list val) : option (heap * list val) :=
  match args with
  | [] => Some (h, [])
  | a :: t =>
    match (if deep_copy then match deep (next h) h [] a with Some (h', _, a') => Some (h', a') | None => None end else Some (shallow h a)) with
    | Some (h', a') => match copy_args deep_copy h' t with Some (h'', t') => Some (h'', a' :: t') | None => None end
    | None => None
    end
  end.
Definition copy_arguments (R : Type) (deep_copy : bool) (fun_ : heap -> list val -> heap * R) (h : heap) (args : list val) : option (heap * R) :=
  match copy_args deep_copy h args with Some (h', args') => Some (fun_ h' args') | None => None end.
