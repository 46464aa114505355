(** C89: walking through a nested structure gives its nodes, each once, in the promised order. *)
From Coq Require Import List Arith Lia Permutation.
From Verif Require Import Prelude Walk_Model Walk_Spec Walk_Proofs.
Import ListNotations.

(** Every finite structure, whatever its size: depth first gives each node before what is below it, breadth first gives level after level,
    leaves_only gives just the leaves; the structure's root does not appear. *)
Theorem C89_walk : forall (T : Type) (getter : T -> kids T) x ts deep_first leaves_only, shape getter x (Node x ts) -> getter x <> KNone ->
  exists n, forall fuel, n <= fuel -> walk fuel getter deep_first leaves_only x =
    (if deep_first then if leaves_only then flat_map leaves ts else flat_map preorder ts
     else if leaves_only then level_order_leaves ts else level_order ts, EDone).
Proof. exact @walk_finite. Qed.
Print Assumptions C89_walk.

(** The two orders give the same nodes, each as many times. *)
Theorem C89_same_nodes : forall (T : Type) (ts : list (rose T)), Permutation (level_order ts) (flat_map preorder ts) /\ Permutation (level_order_leaves ts) (flat_map leaves ts).
Proof. intros T ts. split; [apply bfs_perm|apply bfs_leaves_perm]. Qed.
Print Assumptions C89_same_nodes.

(** The walk ends just when the structure is finite (and no getter raises). *)
Theorem C89_ends : forall (T : Type) (getter : T -> kids T) x deep_first leaves_only, (forall y l, getter y <> KUnsized l) ->
  ((exists fuel ys, walk fuel getter deep_first leaves_only x = (ys, EDone)) <-> getter x <> KNone /\ exists t, shape getter x t).
Proof. exact @walk_ends. Qed.
Print Assumptions C89_ends.

(** With its own child getter, walk is to give everything inside a nested list. It fails at the first object that cannot be iterated over... *)
Definition C89_full_statement : Prop := forall x, (exists l, x = PyList l) ->
  exists n, forall fuel, n <= fuel -> exists ys, walk fuel list_of true false x = (ys, EDone) /\ Permutation ys (everything x).
Theorem C89_full_statement_refuted : ~ C89_full_statement.
Proof. exact default_refuted. Qed.
Print Assumptions C89_full_statement_refuted.
(** ... it never ends if there is a string that is not empty ... *)
Theorem C89_string_refuted : forall c fuel, exists ys, walk fuel list_of true false (PyList [PyStr [c]]) = (ys, EGoing).
Proof. exact default_str_diverges. Qed.
Print Assumptions C89_string_refuted.
(** ... and works for lists of lists. *)
Theorem C89_default_partial : forall x, only_lists x -> exists n, forall fuel, n <= fuel -> walk fuel list_of true false x = (everything x, EDone).
Proof. exact default_lists. Qed.
Print Assumptions C89_default_partial.

(** A ConstruableIterator gives, to a loop that ends, the items it had and all that were added meanwhile, each once. *)
Theorem C89_construable : forall (T : Type) (body : T -> list (addition T)) fuel l ys, for_loop fuel body l = (ys, true) ->
  Permutation ys (l ++ flat_map (fun x => flat_map added (body x)) ys).
Proof. exact @for_loop_perm. Qed.
Print Assumptions C89_construable.
(** Those added to be immediate come next, in the order given; others come after all that wait. *)
Theorem C89_construable_order : forall (T : Type) (body : T -> list (addition T)) fuel x t, for_loop (S fuel) body (x :: t) =
  (x :: fst (for_loop fuel body (fold_left (fun es a => wanted a es) (body x) t)), snd (for_loop fuel body (fold_left (fun es a => wanted a es) (body x) t))).
Proof. exact @for_loop_next. Qed.
Print Assumptions C89_construable_order.
Theorem C89_construable_empty : forall (T : Type) (body : T -> list (addition T)) fuel, for_loop (S fuel) body [] = ([], true).
Proof. reflexivity. Qed.
Print Assumptions C89_construable_empty.

(** Cases: 1 has 2 and 3 below, 2 has 4 and 5, 5 has 6. *)
Definition a_getter (n : nat) : kids nat := match n with 1 => KList [2; 3] | 2 => KList [4; 5] | 5 => KList [6] | 4 => KList [] | _ => KNone end.
Example C89_case_shape : shape a_getter 1 (Node 1 [Node 2 [Node 4 []; Node 5 [Node 6 []]]; Node 3 []]).
Proof. repeat (first [apply shape_none; reflexivity | eapply shape_list; [reflexivity|] | constructor]). Qed.
Example C89_case_deep : walk 9 a_getter true false 1 = ([2; 4; 5; 6; 3], EDone).
Proof. reflexivity. Qed.
Example C89_case_wide : walk 9 a_getter false false 1 = ([2; 3; 4; 5; 6], EDone).
Proof. reflexivity. Qed.
Example C89_case_leaves : walk 9 a_getter true true 1 = ([4; 6; 3], EDone) /\ walk 9 a_getter false true 1 = ([3; 4; 6], EDone).
Proof. split; reflexivity. Qed.
Example C89_case_lists : only_lists (PyList [PyList [PyList []]; PyList []]).
Proof. cbn. auto. Qed.
Example C89_case_construable : for_loop 9 (fun x => if x =? 2 then [AddManyImmediate [6; 7]; Add 8] else []) [1; 2; 3] = ([1; 2; 6; 7; 3; 8], true).
Proof. reflexivity. Qed.
