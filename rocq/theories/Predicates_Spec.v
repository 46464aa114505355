(** What an expression in x means: the same expression with the argument in place of x; what build_structure is to return. *)
From Coq Require Import String.
From Verif Require Import Prelude Predicates_Model.
Set Implicit Arguments.

Section Values.
  Variable V : Type.
  Variables (op2 : binop -> V -> V -> res V) (op1 : unop -> V -> res V) (attr : V -> string -> res V) (call0 : V -> res V) (call1 : V -> V -> res V)
            (contains : V -> V -> res V) (truth : V -> bool) (of_bool : bool -> V).
  (** the value of the expression when x is this *)
  Fixpoint meaning (e : expr V) (x : V) : res V :=
    match e with
    | X _ => Ok x
    | Const c => Ok c
    | Bin op a b => match meaning a x with Err e => Err e | Ok l => match meaning b x with Err e => Err e | Ok r => op2 op l r end end
    | Un op a => match meaning a x with Err e => Err e | Ok l => op1 op l end
    | Attr a name => match meaning a x with Err e => Err e | Ok l => attr l name end
    | Call0 a => match meaning a x with Err e => Err e | Ok l => call0 l end
    | Call1 a b => match meaning a x with Err e => Err e | Ok l => match meaning b x with Err e => Err e | Ok r => call1 l r end end
    | In_ a b => match meaning a x with Err e => Err e | Ok l => match meaning b x with Err e => Err e | Ok r => contains r l end end
    | OneOf a c | Inside a c => match meaning a x with Err e => Err e | Ok l => contains c l end
    | And a b => match meaning a x with Err e => Err e | Ok l => if truth l then meaning b x else Ok l end
    | Or a b => match meaning a x with Err e => Err e | Ok l => if truth l then Ok l else meaning b x end
    | Not a => match meaning a x with Err e => Err e | Ok l => Ok (of_bool (negb (truth l))) end
    end.
  (** the expression mentions x *)
  Fixpoint mentions (e : expr V) : bool :=
    match e with
    | X _ => true | Const _ => false
    | Bin _ a b | Call1 a b | In_ a b | And a b | Or a b => mentions a || mentions b
    | Un _ a | Attr a _ | Call0 a | OneOf a _ | Inside a _ | Not a => mentions a
    end.
  Variable own : binop -> V -> option (res V).
  (** written with the operators only: no keyword of Python (and, or, not, in), no argument in a call, no attribute named like a method
      of predicates, no inside(), and a constant left of an operator only if its class leaves the operator to the right operand *)
  Fixpoint operators_only (e : expr V) : Prop :=
    match e with
    | X _ | Const _ => True
    | Bin op a b => operators_only a /\ operators_only b /\ (mentions a = false -> mentions b = true -> op <> Getitem /\ forall c, own op c = None)
    | Un _ a => operators_only a
    | Attr a name => operators_only a /\ (mentions a = true -> ~ In name methods)
    | Call0 a => operators_only a
    | OneOf a _ => operators_only a /\ mentions a = true
    | Call1 a b | In_ a b | And a b | Or a b => operators_only a /\ operators_only b /\ mentions a = false /\ mentions b = false
    | Not a => operators_only a /\ mentions a = false
    | Inside _ _ => False
    end.

  (** the structure with each predicate replaced by its value *)
  Inductive replaced (x : V) : struct V -> struct V -> Prop :=
  | R_pred : forall p v, p x = Ok v -> replaced x (SPred p) (SVal v)
  | R_val : forall v, replaced x (SVal v) (SVal v)
  | R_str : forall s, replaced x (SStr V s) (SStr V s)
  | R_seq : forall k l l', Forall2 (replaced x) l l' -> replaced x (SSeq k l) (SSeq k l')
  | R_dict : forall l l', Forall2 (fun e e' => replaced x (fst e) (fst e') /\ replaced x (snd e) (snd e')) l l' -> replaced x (SDict l) (SDict l')
  | R_wrapped : forall s s', replaced x s s' -> replaced x (SWrapped s) s'.
  (** without strings, with dicts of one entry, with lists and tuples only *)
  Inductive simple : struct V -> Prop :=
  | S_pred : forall p, simple (SPred p)
  | S_val : forall v, simple (SVal v)
  | S_seq : forall k l, k <> KOther -> Forall simple l -> simple (SSeq k l)
  | S_dict : forall k w, simple k -> simple w -> simple (SDict [(k, w)])
  | S_wrapped : forall s, simple s -> simple (SWrapped s).
  Variable hashable : struct V -> bool.
  Inductive hashable_keys : struct V -> Prop :=
  | H_val : forall v, hashable_keys (SVal v)
  | H_seq : forall k l, Forall hashable_keys l -> hashable_keys (SSeq k l)
  | H_dict : forall l, Forall (fun e => hashable (fst e) = true /\ hashable_keys (fst e) /\ hashable_keys (snd e)) l -> hashable_keys (SDict l).
End Values.
