From Coq Require Import ZArith.
From Verif Require Import Prelude PySeq_Model Adapter_Model.
Set Implicit Arguments.
(** what a list answers *)
Definition list_answer (A : Type) (eqb : A -> A -> bool) (l : list A) (o : op A) : answer A :=
  match o with
  | Item i => match py_index l i with Some a => Elem a | None => Exc _ IndexError end
  | Contains x => Is _ (memb eqb x l)
  | Len => Count _ (length l)
  | Loop => Elems l
  | Next => Exc _ TypeError
  end.
(** the operations the adapter adds *)
Definition of_list (A : Type) (o : op A) : Prop := match o with Item _ | Contains _ | Len => True | _ => False end.
(** the n-th element, or the end of the iteration *)
Definition element (A : Type) (l : list A) (n : nat) : answer A := match nth_error l n with Some a => Elem a | None => Exc _ StopIteration end.
(** the answers to Next, in order; how many there were *)
Definition taken (A : Type) (l : list (op A * answer A)) : list (answer A) := flat_map (fun x => match fst x with Next => [snd x] | _ => [] end) l.
Definition count_next (A : Type) (os : list (op A)) : nat := length (filter (fun o => match o with Next => true | _ => false end) os).
