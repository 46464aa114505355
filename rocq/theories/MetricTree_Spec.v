(** What the tree of metrics is expected to do. *)
From Coq Require Import Ascii String.
From Verif Require Import Prelude Files_Model MetricTree_Model.
Import ListNotations.
Open Scope list_scope.

(** the level of a metric is its own, or that of the nearest ancestor not INHERIT *)
Inductive effective (s : st) : nat -> lvl -> Prop :=
| own_level i : o_level (heap s i) <> INHERIT -> effective s i (o_level (heap s i))
| inherited i p l : o_level (heap s i) = INHERIT -> o_parent (heap s i) = Some p -> effective s p l -> effective s i l.

(** [o] is at the end of [parts]: the root, or a child called as the last part of the one at the end of the others; each of
    them is registered under the parts joined with dots. The first part may be empty: that is the root again. *)
Inductive lineage (s : st) : list name -> nat -> Prop :=
| at_root r : reg s [] = Some r -> o_parent (heap s r) = None -> o_class (heap s r) = "base"%string -> lineage s [] r
| at_root_again r : lineage s [] r -> lineage s [[]] r
| at_child parts q n o : lineage s parts q -> parts ++ [n] <> [[]] -> reg s (join_on dot (parts ++ [n])) = Some o ->
    o_parent (heap s o) = Some q -> o_name (heap s o) = n -> lineage s (parts ++ [n]) o.

Definition leaf (s : st) (i : nat) : Prop := kind_of (o_class (heap s i)) = Some KLeaf.
Definition container (s : st) (i : nat) : Prop := o_class (heap s i) = "base"%string.
(** the order of levels *)
Definition rank (l : lvl) : nat := match l with DISABLED => 0 | RUNTIME => 1 | DEBUG => 2 | INHERIT => 3 end.
(** the child's level is not above that of the parent *)
Definition shown (s : st) (c i : nat) : Prop := exists a b, effective s c a /\ effective s i b /\ (rank a <= rank b)%nat.
(** exporting [i] visits the leaf [o] under the name [n] *)
Inductive exports (s : st) : nat -> name -> nat -> Prop :=
| exports_leaf i : leaf s i -> exports s i (o_name (heap s i)) i
| exports_child i c n o : container s i -> In c (o_children (heap s i)) -> shown s c i -> exports s c n o ->
    exports s i (prefix_name (o_name (heap s i)) n) o.
(** [o] and every ancestor of it up to [r] is shown by its parent, which is a container *)
Inductive shown_from (s : st) (r : nat) : nat -> Prop :=
| shown_self : shown_from s r r
| shown_below p c : shown_from s r p -> container s p -> o_parent (heap s c) = Some p -> shown s c p -> shown_from s r c.

(** the documented form of names: parts between dots that are not empty (or the root's name) *)
Definition proper (n : name) : Prop := n = [] \/ ~ In [] (split_on dot n).
Definition proper_names (ops : list op) : Prop := forall n t l bad, In (Get n t l bad) ops -> proper n.
Definition no_resets (ops : list op) : Prop := forall i, ~ In (Reset i) ops.
(** [k] is [f] or the name of something below it *)
Definition at_or_below (f k : name) : Prop := k = f \/ exists r, k = f ++ dot :: r.
