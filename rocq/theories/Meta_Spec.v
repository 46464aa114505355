(** What the metaclasses should do. *)
From Coq Require Import List Arith.
From Verif Require Import Prelude Walk_Model Walk_Spec Meta_Model.
Import ListNotations.

(** The ancestors of a class that has the given bases, level after level (breadth first), nothing above or including object except if it is given
    as a base; [family] is the tree of bases. *)
Inductive family (w : world) : nat -> rose nat -> Prop :=
  family_intro : forall c ts, Forall2 (family w) (filter (fun b => negb (b =? object_cls w)) (bases_of w c)) ts -> family w c (Node c ts).

(** The docstring that getattr finds for a name on a class, if it is not empty. *)
Definition doc_on (w : world) (d : docs) (key c : nat) (t : text) : Prop :=
  t <> [] /\ exists o before k after, mro w c = before ++ k :: after /\ (forall x, In x before -> own w x key = None) /\ own w k key = Some o /\ d o = t.

(** The first of the classes on which the predicate holds for some text decides. *)
Inductive first_text (P : nat -> text -> Prop) : list nat -> option text -> Prop :=
| ft_none : first_text P [] None
| ft_here : forall c cs t, P c t -> first_text P (c :: cs) (Some t)
| ft_later : forall c cs r, (forall t, ~ P c t) -> first_text P cs r -> first_text P (c :: cs) r.

(** The members of a class body are its own: no function stands under two names, and none is an attribute of a class that already is. *)
Definition fresh_members (w : world) (ms : list (nat * nat)) : Prop :=
  NoDup (map snd ms) /\ forall c key o, own w c key = Some o -> ~ In o (map snd ms).

(** How classes inherit. *)
Record inheritance (mro : nat -> list nat) : Prop := {
  mro_self : forall c, exists rest, mro c = c :: rest;
  mro_once : forall c, NoDup (mro c);
  mro_trans : forall a b c, In b (mro a) -> In c (mro b) -> In c (mro a);
  mro_anti : forall a b, In b (mro a) -> In a (mro b) -> a = b }.

(** Creating a class works as in Python: the new class inherits from all its bases. *)
Definition creates (mro : nat -> list nat) (make : nat -> list nat -> res nat) : Prop :=
  forall meta bases c, make meta bases = Ok c -> forall b, In b bases -> In b (mro c).
