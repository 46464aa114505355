(** Decorators and helpers that direct the flow of control: satella/coding/decorators/flow_control.py, decorators/decorators.py (chain_functions, default_return),
    coding/misc.py, ctxt_managers.py, expect_exception.py. User code is given as functions on a state of the world [W], which may raise. *)
From Coq Require Import List Arith.
From Verif Require Import Prelude.
Import ListNotations.

(** A call of user code: how it ends, and the world afterwards. *)
Definition code (W A : Type) := W -> res A * W.

(** *** queue_get *)

(** inner of queue_get, flow_control.py 83-94. [getter]: my_queue_getter and queue_get_method together, lines 85-86; [is_empty e]: e is one of exception_empty;
    [on_empty]: method_to_execute_on_empty, if any. None is returned when the queue was empty. *)
Definition queue_get {W I R} (getter : code W I) (is_empty : exn -> bool) (on_empty : option (code W unit)) (fun_ : I -> code W R) (w : W) : res (option R) * W :=
  let handle e w' :=
    if is_empty e then
      match on_empty with
      | None => (Ok None, w')
      | Some m => match m w' with (Ok _, w2) => (Ok None, w2) | (Err e2, w2) => (Err e2, w2) end
      end
    else (Err e, w') in
  match getter w with
  | (Err e, w1) => handle e w1
  | (Ok item, w1) => match fun_ item w1 with
                     | (Ok r, w2) => (Ok (Some r), w2)
                     | (Err e, w2) => handle e w2
                     end
  end.

(** A queue.Queue with a timeout, and those who handle its items: what the world is for C91. [waiting]: the queue; [handled]: items handed to the method, in order;
    [noticed]: how often the method for an empty queue ran. *)
Record shop := { waiting : list nat; handled : list nat; noticed : nat }.
(** x.get(timeout=timeout), flow_control.py 30-31 *)
Definition shop_get : code shop nat := fun w =>
  match waiting w with
  | [] => (Err EmptyExn, w)
  | x :: t => (Ok x, {| waiting := t; handled := handled w; noticed := noticed w |})
  end.
Definition shop_notice : code shop unit := fun w => (Ok tt, {| waiting := waiting w; handled := handled w; noticed := S (noticed w) |}).
(** The decorated method: it notes the item, then ends as [outcome] says. *)
Definition shop_handle (outcome : nat -> res nat) (item : nat) : code shop nat := fun w =>
  (outcome item, {| waiting := waiting w; handled := handled w ++ [item]; noticed := noticed w |}).

(** Puts and calls of the decorated method, in any order. *)
Inductive shop_op := SPut (x : nat) | SCall.
Definition shop_empty (e : exn) : bool := match e with EmptyExn => true | _ => false end.
Definition shop_step (outcome : nat -> res nat) (w : shop) (o : shop_op) : shop * option (res (option nat)) :=
  match o with
  | SPut x => ({| waiting := waiting w ++ [x]; handled := handled w; noticed := noticed w |}, None)
  | SCall => let '(r, w') := queue_get shop_get shop_empty (Some shop_notice) (shop_handle outcome) w in (w', Some r)
  end.
Fixpoint shop_run (outcome : nat -> res nat) (w : shop) (ops : list shop_op) : list (option (res (option nat))) * shop :=
  match ops with
  | [] => ([], w)
  | o :: t => let '(w1, r) := shop_step outcome w o in let '(rs, w') := shop_run outcome w1 t in (r :: rs, w')
  end.

(** *** Loops *)

(** The call of the predicate, flow_control.py 132-136: with the first argument if there are any arguments. [accepts n] is whether the predicate can be called with n arguments. *)
Definition call_pred {W A} (accepts : nat -> bool) (pred : option A -> code W bool) (args : list A) : code W bool :=
  match args with
  | [] => if accepts 0 then pred None else fun w => (Err TypeError, w)
  | a :: _ => if accepts 1 then pred (Some a) else fun w => (Err TypeError, w)
  end.

(** inner of loop_while, flow_control.py 131-137. The fuel bounds the turns. *)
Fixpoint loop_while {W A R} (fuel : nat) (accepts : nat -> bool) (pred : option A -> code W bool) (fun_ : list A -> code W R) (args : list A) (w : W) : res unit * W :=
  match fuel with
  | 0 => (Err Diverges, w)
  | S f =>
    match call_pred accepts pred args w with
    | (Err e, w1) => (Err e, w1)
    | (Ok false, w1) => (Ok tt, w1)
    | (Ok true, w1) => match fun_ args w1 with
                       | (Err e, w2) => (Err e, w2)
                       | (Ok _, w2) => loop_while f accepts pred fun_ args w2
                       end
    end
  end.

(** repeat_forever, flow_control.py 10-22 *)
Fixpoint repeat_forever {W R} (fuel : nat) (fun_ : code W R) (w : W) : res unit * W :=
  match fuel with
  | 0 => (Err Diverges, w)
  | S f => match fun_ w with (Err e, w1) => (Err e, w1) | (Ok _, w1) => repeat_forever f fun_ w1 end
  end.

(** *** Chaining *)

(** A Python value as chain_functions tells them apart: a dict, a tuple, anything else. *)
Inductive value := VDict (d : list (nat * value)) | VTuple (l : list value) | VOther (n : nat).

(** f( *args, **kwargs): args must be iterable and kwargs a mapping, else TypeError. Iterating over a dict gives its keys. *)
Definition star_args (v : value) : res (list value) :=
  match v with VTuple l => Ok l | VDict d => Ok (map (fun p => VOther (fst p)) d) | VOther _ => Err TypeError end.
Definition star_kwargs (v : value) : res (list (nat * value)) :=
  match v with VDict d => Ok d | _ => Err TypeError end.

(** inner of chain_functions, decorators/decorators.py 53-66: what fun_next is called with. *)
Definition chain_arguments (ret : value) : res (list value * list (nat * value)) :=
  match ret with
  | VDict d => Ok ([], d)
  | VTuple [a; k] => res_bind (star_args a) (fun args => res_bind (star_kwargs k) (fun kwargs => Ok (args, kwargs)))
  | VTuple l => Ok (l, [])
  | VOther n => Ok ([VOther n], [])
  end.

(** How callable2 ends: normally, with a TypeError whose message is like "f() takes 0 positional arguments but 1 was given", with a TypeError of another message, one with
    no message, or with another exception. *)
Inductive second (R : Type) := SecOk (r : R) | SecTakes | SecType | SecBareType | SecErr (e : exn).
Arguments SecOk {R}. Arguments SecTakes {R}. Arguments SecType {R}. Arguments SecBareType {R}. Arguments SecErr {R}.
Definition second_res {R} (s : second R) : res R :=
  match s with SecOk r => Ok r | SecTakes | SecType | SecBareType => Err TypeError | SecErr e => Err e end.
(** inner of chain_callables, coding/misc.py 166-177; callable2 is called with the result, or with nothing ([None]). e.args[0] of a bare TypeError raises IndexError. *)
Definition chain_callables {W A R} (callable1 : code W A) (callable2 : option A -> W -> second R * W) (w : W) : res R * W :=
  match callable1 w with
  | (Err e, w1) => (Err e, w1)
  | (Ok a, w1) =>
    match callable2 (Some a) w1 with
    | (SecTakes, w2) => let '(s, w3) := callable2 None w2 in (second_res s, w3)
    | (SecBareType, w2) => (Err IndexError, w2)
    | (s, w2) => (second_res s, w2)
    end
  end.

(** default_return, decorators/decorators.py 73-100; None is None. *)
Definition default_return {W R} (v : option R) (fun_ : code W (option R)) (w : W) : res (option R) * W :=
  match fun_ w with
  | (Ok None, w1) => (Ok v, w1)
  | r => r
  end.

(** *** Context managers *)

(** expect_exception, expect_exception.py 35-40: [matches] is isinstance(exc_val, exc_to_except), which raises TypeError if that is a list. *)
Definition expect_exception {W A} (matches : exn -> res bool) (else_raise : exn) (body : code W A) (w : W) : res (option A) * W :=
  match body w with
  | (Ok _, w1) => (Err else_raise, w1)
  | (Err e, w1) => match matches e with
                   | Ok true => (Ok None, w1)
                   | Ok false => (Err e, w1)
                   | Err e2 => (Err e2, w1)
                   end
  end.
(** exc_to_except: a class, a tuple of classes, or a list of them. A class is a set of exceptions. *)
Inductive expected := One (c : exn -> bool) | Tuple (cs : list (exn -> bool)) | AList (cs : list (exn -> bool)).
(** isinstance(exc_val, exc_to_except), expect_exception.py 38 *)
Definition isinstance_of (x : expected) (e : exn) : res bool :=
  match x with One c => Ok (c e) | Tuple cs => Ok (existsb (fun c => c e) cs) | AList _ => Err TypeError end.

(** with m: body — [enter] and [exit] of a context manager; exit is told of the exception and says whether to swallow it. *)
Record manager (W : Type) := { enter : code W unit; exit : option exn -> code W bool }.
Arguments enter {W}. Arguments exit {W}.
Definition with_ {W A} (m : manager W) (body : code W A) (w : W) : res (option A) * W :=
  match enter m w with
  | (Err e, w1) => (Err e, w1)
  | (Ok _, w1) =>
    match body w1 with
    | (Ok a, w2) => match exit m None w2 with (Ok _, w3) => (Ok (Some a), w3) | (Err e, w3) => (Err e, w3) end
    | (Err e, w2) => match exit m (Some e) w2 with
                     | (Ok true, w3) => (Ok None, w3)
                     | (Ok false, w3) => (Err e, w3)
                     | (Err e2, w3) => (Err e2, w3)
                     end
    end
  end.
(** wrap_callable_in_context_manager, ctxt_managers.py 44-48: a new manager for each call. *)
Definition wrap_callable {W A B} (make : code W (manager W)) (clbl : A -> code W B) (a : A) (w : W) : res (option B) * W :=
  match make w with (Err e, w1) => (Err e, w1) | (Ok m, w1) => with_ m (clbl a) w1 end.
(** EmptyContextManager, ctxt_managers.py 19-26 *)
Definition empty_manager {W} : manager W := {| enter := fun w => (Ok tt, w); exit := fun _ w => (Ok false, w) |}.

(** *** queue_iterator among other consumers *)

(** The queue, what queue_iterator has yielded, what others took, whether the generator has ended, and whether it is past its check of qsize (coding/misc.py 138-142). *)
Record qiter := { q : list nat; yielded : list nat; others : list nat; log : list nat; past_check : bool; ended : bool }.
(** [log]: everything that was taken, by anyone, in order. *)
Inductive qevent := QPut (x : nat) | QTaken | QCheck | QGet.
(** QPut, QTaken: another thread puts or takes (if there is anything); QCheck: queue.qsize() > 0; QGet: queue.get(block=False). *)
Definition q_step (s : qiter) (e : qevent) : qiter :=
  match e with
  | QPut x => {| q := q s ++ [x]; yielded := yielded s; others := others s; log := log s; past_check := past_check s; ended := ended s |}
  | QTaken => match q s with
              | [] => s
              | x :: t => {| q := t; yielded := yielded s; others := others s ++ [x]; log := log s ++ [x]; past_check := past_check s; ended := ended s |}
              end
  | QCheck => if ended s || past_check s then s
              else if 0 <? length (q s) then {| q := q s; yielded := yielded s; others := others s; log := log s; past_check := true; ended := false |}
              else {| q := q s; yielded := yielded s; others := others s; log := log s; past_check := false; ended := true |}
  | QGet => if past_check s then
              match q s with
              | [] => {| q := []; yielded := yielded s; others := others s; log := log s; past_check := false; ended := true |} (* except Empty: return *)
              | x :: t => {| q := t; yielded := yielded s ++ [x]; others := others s; log := log s ++ [x]; past_check := false; ended := false |}
              end
            else s
  end.
Definition q_exec (s : qiter) (l : list qevent) : qiter := fold_left q_step l s.
Definition q_init (items : list nat) : qiter := {| q := items; yielded := []; others := []; log := []; past_check := false; ended := false |}.

(** *** Small helpers *)

(** update_key_if_true, coding/misc.py 238-254; the value and what bool() says of it, the flag if given. *)
Definition update_key_if_true {K V} (eqb : K -> K -> bool) (truth : V -> bool) (d : dict K V) (k : K) (v : V) (flag : option bool) : dict K V :=
  if match flag with None => truth v | Some b => b end then dset eqb d k v else d.
(** update_key_if_not_none, coding/misc.py 398-423: one key, or a dictionary of items. *)
Definition update_key_if_not_none {K V} (eqb : K -> K -> bool) (d : dict K V) (k : K) (v : option V) : dict K V :=
  match v with Some x => dset eqb d k x | None => d end.
Definition update_keys_if_not_none {K V} (eqb : K -> K -> bool) (d : dict K V) (items : dict K (option V)) : dict K V :=
  fold_left (fun acc p => update_key_if_not_none eqb acc (fst p) (snd p)) items d.
(** contains, coding/misc.py 38-60: needle == item for each in turn; [eq] is the needle's __eq__. *)
Fixpoint contains {A} (eq : A -> bool) (haystack : list A) : bool :=
  match haystack with [] => false | x :: t => if eq x then true else contains eq t end.
(** length, coding/misc.py 25-35: len(), or the number of items of an iterable that has none. *)
Definition length_of {A} (has_len : option nat) (items : list A) : nat :=
  match has_len with Some n => n | None => fold_left (fun i _ => S i) items 0 end.
