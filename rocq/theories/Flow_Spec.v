(** What the flow of control should be. *)
From Coq Require Import List Arith.
From Verif Require Import Prelude Flow_Model.
Import ListNotations.

(** All that was put, in order. *)
Definition all_put (ops : list shop_op) : list nat := flat_map (fun o => match o with SPut x => [x] | SCall => [] end) ops.
(** What each call of the decorated method should end with, given what is in the queue: the method's result or exception for the item at the head; None if there is none. *)
Fixpoint wanted_results (outcome : nat -> res nat) (queue : list nat) (ops : list shop_op) : list (option (res (option nat))) :=
  match ops with
  | [] => []
  | SPut x :: t => None :: wanted_results outcome (queue ++ [x]) t
  | SCall :: t => match queue with
                  | [] => Some (Ok None) :: wanted_results outcome [] t
                  | x :: queue' => Some (match outcome x with Ok r => Ok (Some r) | Err e => Err e end) :: wanted_results outcome queue' t
                  end
  end.
(** How often a call finds the queue empty. *)
Fixpoint wanted_notices (queue : nat) (ops : list shop_op) : nat :=
  match ops with
  | [] => 0
  | SPut _ :: t => wanted_notices (S queue) t
  | SCall :: t => match queue with 0 => S (wanted_notices 0 t) | S n => wanted_notices n t end
  end.

(** [turns p f w n r w']: the loop "while p(): f()" makes n turns from w and then ends with r in w'. *)
Inductive turns {W R} (p : code W bool) (f : code W R) : W -> nat -> res unit -> W -> Prop :=
| t_stop : forall w w', p w = (Ok false, w') -> turns p f w 0 (Ok tt) w'
| t_pred : forall w e w', p w = (Err e, w') -> turns p f w 0 (Err e) w'
| t_body : forall w w1 e w', p w = (Ok true, w1) -> f w1 = (Err e, w') -> turns p f w 0 (Err e) w'
| t_turn : forall w w1 a w2 n r w', p w = (Ok true, w1) -> f w1 = (Ok a, w2) -> turns p f w2 n r w' -> turns p f w (S n) r w'.
(** n turns are made and the loop goes on. *)
Inductive going {W R} (p : code W bool) (f : code W R) : W -> nat -> W -> Prop :=
| g_none : forall w, going p f w 0 w
| g_turn : forall w w1 a w2 n w', p w = (Ok true, w1) -> f w1 = (Ok a, w2) -> going p f w2 n w' -> going p f w (S n) w'.

(** chain_functions as documented. *)
Definition documented_arguments (ret : value) : list value * list (nat * value) :=
  match ret with
  | VTuple [VTuple args; VDict kwargs] => (args, kwargs)
  | VDict d => ([], d)
  | VTuple l => (l, [])
  | VOther n => ([VOther n], [])
  end.

(** A callable that takes one argument does nothing but raise a TypeError (missing argument) when called with none; one that takes none, when called with one. *)
Definition takes_one {W A R} (c : option A -> W -> second R * W) : Prop := forall w, c None w = (SecType, w).
Definition takes_none {W A R} (c : option A -> W -> second R * W) : Prop := forall a w, c (Some a) w = (SecTakes, w).

(** Which exceptions are expected. *)
Definition is_expected (x : expected) (e : exn) : bool :=
  match x with One c => c e | Tuple cs | AList cs => existsb (fun c => c e) cs end.

(** A manager that counts its entrances and exits. *)
Definition counted {W} (m : manager W) : manager (W * (nat * nat)) :=
  {| enter := fun w => let '(r, w1) := enter m (fst w) in (r, (w1, (S (fst (snd w)), snd (snd w))));
     exit := fun e w => let '(r, w1) := exit m e (fst w) in (r, (w1, (fst (snd w), S (snd (snd w))))) |}.
Definition on_first {W X A} (c : code W A) : code (W * X) A := fun w => let '(r, w1) := c (fst w) in (r, (w1, snd w)).

(** What others put. *)
Definition puts (l : list qevent) : list nat := flat_map (fun e => match e with QPut x => [x] | _ => [] end) l.
(** [merge a b l]: l is a and b, interleaved. *)
Inductive merge : list nat -> list nat -> list nat -> Prop :=
| merge_nil : merge [] [] []
| merge_l : forall x a b l, merge a b l -> merge (a ++ [x]) b (l ++ [x])
| merge_r : forall x a b l, merge a b l -> merge a (b ++ [x]) (l ++ [x]).
