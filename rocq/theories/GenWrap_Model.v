(** Model of satella/coding/generators.py and of satella/coding/iterators.py: wrappers of generators.

    A generator is a state of type [S] with [resume], what its body does when it is resumed; S also carries whatever the body does to the
    world. A generator that has ended keeps its last state here so that its effects can be talked about. *)
From Verif Require Import Prelude.
Set Implicit Arguments.

Section Generators.
  Variables (S V : Type).
  Inductive input : Type := INext | ISend (v : V) | IThrow (e : exn).
  Inductive reply : Type := Yields (v : V) | Returns | Raises (e : exn).
  Variable resume : S -> input -> S * reply.
  (** GeneratorExit *)
  Variable gen_exit : exn.
  Variable exn_eqb : exn -> exn -> bool.

  Inductive gen : Type := Live (s : S) | Done (s : S).
  Definition end_state (g : gen) : S := match g with Live s | Done s => s end.
  (** next(g), g.send(v), g.throw(e) of Python *)
  Definition g_resume (g : gen) (i : input) : gen * res V :=
    match g with
    | Done s => (Done s, Err match i with IThrow e => e | _ => StopIteration end)
    | Live s =>
      match resume s i with
      | (s', Yields v) => (Live s', Ok v)
      | (s', Returns) => (Done s', Err StopIteration)
      | (s', Raises e) => (Done s', Err e)
      end
    end.
  (** g.close() of Python *)
  Definition g_close (g : gen) : gen * res unit :=
    match g with
    | Done s => (Done s, Ok tt)
    | Live s =>
      match resume s (IThrow gen_exit) with
      | (s', Yields _) => (Live s', Err RuntimeError)
      | (s', Returns) => (Done s', Ok tt)
      | (s', Raises e) => (Done s', if exn_eqb e gen_exit || exn_eqb e StopIteration then Ok tt else Err e)
      end
    end.

  (** * RunActionAfterGeneratorCompletes (generators.py:6-55) *)
  (** [action] of an operation is what the action would do if it were run: return, or raise *)
  Inductive r_op : Type :=
  | RNext (action : option exn)      (* __next__, what a for loop calls *)
  | RNextMethod                      (* next() *)
  | RSend (v : V) | RThrow (e : exn) | RClose.
  Record r_state : Type := mk_r { r_gen : gen; r_closed : bool; r_runs : nat }.
  Definition r_begin (g : gen) : r_state := mk_r g false 0.
  Inductive r_out : Type := OVal (r : res V) | OUnit (r : res unit).
  Definition r_step (s : r_state) (o : r_op) : r_state * r_out :=
    match o with
    | RNext action =>                                                            (* generators.py:45-51 *)
      let (g, r) := g_resume (r_gen s) INext in
      match r with
      | Err StopIteration =>
        if r_closed s then (mk_r g (r_closed s) (r_runs s), OVal r)
        else (mk_r g (r_closed s) (1 + r_runs s), OVal match action with None => r | Some e => Err e end)
      | _ => (mk_r g (r_closed s) (r_runs s), OVal r)
      end
    | RNextMethod => let (g, r) := g_resume (r_gen s) INext in (mk_r g (r_closed s) (r_runs s), OVal r)      (* generators.py:36-37 *)
    | RSend v => let (g, r) := g_resume (r_gen s) (ISend v) in (mk_r g (r_closed s) (r_runs s), OVal r)      (* generators.py:32-34 *)
    | RThrow e => let (g, r) := g_resume (r_gen s) (IThrow e) in (mk_r g (r_closed s) (r_runs s), OVal r)    (* generators.py:42-43 *)
    | RClose => let (g, r) := g_close (r_gen s) in (mk_r g true (r_runs s), OUnit r)                         (* generators.py:28-30 *)
    end.
  Fixpoint r_run (s : r_state) (ops : list r_op) : r_state * list r_out :=
    match ops with
    | [] => (s, [])
    | o :: t => let (s1, x) := r_step s o in let (s2, xs) := r_run s1 t in (s2, x :: xs)
    end.

  (** * exhaust and SelfClosingGenerator (iterators.py:23-88) *)
  (** iterators.py:23-33: until StopIteration, or another exception; None: it has not ended after this many items *)
  Fixpoint exhaust (fuel : nat) (g : gen) : option (gen * res unit) :=
    match fuel with
    | O => None
    | Datatypes.S n =>
      match g_resume g INext with
      | (g', Ok _) => exhaust n g'
      | (g', Err StopIteration) => Some (g', Ok tt)
      | (g', Err e) => Some (g', Err e)
      end
    end.
  Inductive c_op : Type := CNext | CSend (v : V) | CClose (fuel : nat).            (* CClose: close(), __exit__ or __del__ *)
  Record c_state : Type := mk_c { c_gen : gen; c_stopped : bool }.
  Definition c_begin (g : gen) : c_state := mk_c g false.
  Inductive c_out : Type := CVal (r : res V) | CUnit (r : res unit) | CForever.
  Definition c_step (s : c_state) (o : c_op) : c_state * c_out :=
    match o with
    | CNext =>                                                                    (* iterators.py:65-70 *)
      match g_resume (c_gen s) INext with
      | (g, Err StopIteration) => (mk_c g true, CVal (Err StopIteration))
      | (g, r) => (mk_c g (c_stopped s), CVal r)
      end
    | CSend v =>                                                                  (* iterators.py:62-63; returns None *)
      match g_resume (c_gen s) (ISend v) with
      | (g, Ok _) => (mk_c g (c_stopped s), CUnit (Ok tt))
      | (g, Err e) => (mk_c g (c_stopped s), CUnit (Err e))
      end
    | CClose fuel =>                                                              (* iterators.py:79-88 *)
      if c_stopped s then (s, CUnit (Ok tt))
      else match exhaust fuel (c_gen s) with
           | None => (s, CForever)
           | Some (g, Ok _) => (mk_c g true, CUnit (Ok tt))
           | Some (g, Err TypeError) => (mk_c g true, CUnit (Ok tt))              (* silence_excs(TypeError) *)
           | Some (g, Err e) => (mk_c g (c_stopped s), CUnit (Err e))
           end
    end.
  Fixpoint c_run (s : c_state) (ops : list c_op) : c_state * list c_out :=
    match ops with
    | [] => (s, [])
    | o :: t => let (s1, x) := c_step s o in let (s2, xs) := c_run s1 t in (s2, x :: xs)
    end.
End Generators.

(** * chain (iterators.py:7-20) *)
Section Chain.
  Variable V : Type.
  (** an argument: not iterable, or an iterable with these items, whose iteration then ends, or raises *)
  Inductive arg : Type := Scalar (v : V) | Iterable (items : list V) (ends : option exn).
  Inductive piece : Type := Item (v : V) | Whole (items : list V) (ends : option exn).      (* Whole: the iterable itself is yielded *)
  Fixpoint chain (args : list arg) : list piece * option exn :=
    match args with
    | [] => ([], None)
    | Scalar v :: t => let (l, e) := chain t in (Item v :: l, e)
    | Iterable items None :: t => let (l, e) := chain t in (map Item items ++ l, e)
    | Iterable items (Some TypeError) :: t => let (l, e) := chain t in (map Item items ++ Whole items (Some TypeError) :: l, e)
    | Iterable items (Some e) :: _ => (map Item items, Some e)
    end.
End Chain.

(** * hint_with_length (iterators.py:92-138) *)
(** the length given, and what the length factory returns if one is given *)
Record hint : Type := mk_hint { h_length : option nat; h_factory : option nat }.
Definition hint_with_length (length factory : option nat) : res hint :=           (* iterators.py:108-117 *)
  match length, factory with
  | None, None => Err ValueError
  | Some _, Some _ => Err ValueError
  | _, _ => Ok (mk_hint length factory)
  end.
(** iterators.py:119-120 __call__, for generator functions *)
Definition hint_call (h : hint) : res hint := hint_with_length (h_length h) None.
(** iterators.py:134-138 *)
Definition length_hint (h : hint) : res nat :=
  match h_length h with None => match h_factory h with Some n => Ok n | None => Err TypeError end | Some n => Ok n end.
