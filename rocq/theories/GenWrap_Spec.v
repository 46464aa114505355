(** What the wrappers promise, in terms of the generator they wrap. *)
From Verif Require Import Prelude GenWrap_Model.
Set Implicit Arguments.

Section Generators.
  Variables (S V : Type) (resume : S -> input V -> S * reply V) (gen_exit : exn) (exn_eqb : exn -> exn -> bool).
  (** what the same operation does on the generator itself *)
  Definition direct (g : gen S) (o : r_op V) : gen S * r_out V :=
    match o with
    | RNext _ _ | RNextMethod _ => let (g', r) := g_resume resume g (INext V) in (g', OVal r)
    | RSend v => let (g', r) := g_resume resume g (ISend v) in (g', OVal r)
    | RThrow _ e => let (g', r) := g_resume resume g (IThrow V e) in (g', OVal r)
    | RClose _ => let (g', r) := g_close resume gen_exit exn_eqb g in (g', OUnit V r)
    end.
  Fixpoint direct_run (g : gen S) (ops : list (r_op V)) : gen S * list (r_out V) :=
    match ops with [] => (g, []) | o :: t => let (g1, x) := direct g o in let (g2, xs) := direct_run g1 t in (g2, x :: xs) end.
  Definition quiet (o : r_op V) : Prop := match o with RNext _ (Some _) => False | _ => True end.
  (** the for loop over the generator gives these values and then ends by itself, or with an exception, in this state *)
  Inductive yields : gen S -> list V -> gen S -> option exn -> Prop :=
  | Y_end : forall g g', g_resume resume g (INext V) = (g', Err StopIteration) -> yields g [] g' None
  | Y_raise : forall g g' e, g_resume resume g (INext V) = (g', Err e) -> e <> StopIteration -> yields g [] g' (Some e)
  | Y_item : forall g g1 v vs g' e, g_resume resume g (INext V) = (g1, Ok v) -> yields g1 vs g' e -> yields g (v :: vs) g' e.
  (** the number of times a for loop or next() was told that the iteration is over, before close() *)
  Fixpoint told_over (ops : list (r_op V)) (outs : list (r_out V)) : nat :=
    match ops, outs with
    | RClose _ :: _, _ => 0
    | RNext _ _ :: t, OVal (Err StopIteration) :: u => 1 + told_over t u
    | _ :: t, _ :: u => told_over t u
    | _, _ => 0
    end.
End Generators.

(** the items of the iterables and the other arguments, in order *)
Fixpoint flattened (V : Type) (args : list (arg V)) : list V :=
  match args with [] => [] | Scalar v :: t => v :: flattened t | Iterable items _ :: t => items ++ flattened t end.
Definition ends_well (V : Type) (a : arg V) : Prop := match a with Iterable _ (Some _) => False | _ => True end.
