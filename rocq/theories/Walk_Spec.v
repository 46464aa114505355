(** What walking through a nested structure should give, in terms of trees. *)
From Coq Require Import List Arith.
From Verif Require Import Prelude Walk_Model.
Import ListNotations.

Section S.
  Context {T : Type}.

  Inductive rose := Node (label : T) (branches : list rose).

  (** [shape getter x t]: t is the whole (finite) tree below x, as the getter shows it. *)
  Inductive shape (getter : T -> kids T) : T -> rose -> Prop :=
  | shape_none : forall x, getter x = KNone -> shape getter x (Node x [])
  | shape_list : forall x l ts, getter x = KList l -> Forall2 (shape getter) l ts -> shape getter x (Node x ts).

  (** Depth first: a node, then what is below it, branch by branch. *)
  Fixpoint preorder (t : rose) : list T := match t with Node x ts => x :: flat_map preorder ts end.

  (** The nodes at the given depth, from the left. *)
  Fixpoint level (n : nat) (t : rose) : list T :=
    match t, n with
    | Node x _, 0 => [x]
    | Node _ ts, S m => flat_map (level m) ts
    end.

  Fixpoint height (t : rose) : nat := match t with Node _ ts => S (fold_right (fun t' h => Nat.max (height t') h) 0 ts) end.

  (** Breadth first: level after level. *)
  Definition level_order (ts : list rose) : list T :=
    flat_map (fun n => flat_map (level n) ts) (seq 0 (fold_right (fun t h => Nat.max (height t) h) 0 ts)).

  (** The leaves, from the left. *)
  Fixpoint leaves (t : rose) : list T :=
    match t with
    | Node x [] => [x]
    | Node _ ts => flat_map leaves ts
    end.

  (** The leaves at a given depth. *)
  Fixpoint level_leaves (n : nat) (t : rose) : list T :=
    match n, t with
    | 0, Node x [] => [x]
    | 0, Node _ _ => []
    | S m, Node _ ts => flat_map (level_leaves m) ts
    end.

  Definition level_order_leaves (ts : list rose) : list T :=
    flat_map (fun n => flat_map (level_leaves n) ts) (seq 0 (fold_right (fun t h => Nat.max (height t) h) 0 ts)).

  (** What each way of adding to a ConstruableIterator should do: come next, or come at the end, in the order given. *)
  Definition wanted (a : addition T) (waiting : list T) : list T :=
    match a with AddImmediate x => x :: waiting | AddManyImmediate l => l ++ waiting | Add x => waiting ++ [x] | AddMany l => waiting ++ l end.
  Definition added (a : addition T) : list T :=
    match a with AddImmediate x | Add x => [x] | AddManyImmediate l | AddMany l => l end.
End S.
Arguments rose : clear implicits.

(** Every object of a nested list below its root, at any depth. *)
Fixpoint everything (x : pyobj) : list pyobj :=
  match x with PyList l => flat_map (fun y => y :: everything y) l | _ => [] end.

(** Lists of lists, at any depth, with nothing else inside. *)
Fixpoint only_lists (x : pyobj) : Prop :=
  match x with PyList l => fold_right (fun y P => only_lists y /\ P) True l | _ => False end.
