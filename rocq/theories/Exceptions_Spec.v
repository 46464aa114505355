(** How exceptions should be written, and when an exception belongs to a coded class. *)
From Coq Require Import List Bool Arith ZArith.
From Verif Require Import Prelude Exceptions_Model.
Import ListNotations.
Open Scope nat_scope.

(** texts separated by ", " *)
Inductive comma_separated : list text -> text -> Prop :=
| cs_none : comma_separated [] []
| cs_one x : comma_separated [x] x
| cs_more x y l r : comma_separated (y :: l) r -> comma_separated (x :: y :: l) (x ++ [44; 32] ++ r).
(** name(arguments, name=argument): how the constructor would be called *)
Definition call_syntax (name : text) (args : list text) (kwargs : list (text * text)) (t : text) : Prop :=
  exists inside, comma_separated (args ++ map (fun kv => fst kv ++ [61] ++ snd kv) kwargs) inside /\ t = name ++ [40] ++ inside ++ [41].
(** the last part of a qualified name *)
Definition short_name (qualname s : text) : Prop := ~ In 46 s /\ (qualname = s \/ exists outer, qualname = outer ++ [46] ++ s).
Definition full_name (x : exception) (t : text) : Prop :=
  (x_module x = builtins /\ t = x_qualname x) \/ (x_module x <> builtins /\ t = x_module x ++ [46] ++ x_qualname x).

(** ** Classes *)
(** a class with all it inherits from, nearest first, if no class has more than one base *)
Inductive lineage : cls -> list cls -> Prop :=
| lin_top n k : lineage (Cls n k []) [Cls n k []]
| lin_under n k b l : lineage b l -> lineage (Cls n k [b]) (Cls n k [b] :: l).
(** numbers identify classes *)
Definition identified (l : list cls) : Prop := forall a b, In a l -> In b l -> number a = number b -> a = b.
(** the hierarchy a class belongs to: the class directly below CodedCustomException *)
Definition hierarchy (l : list cls) (r : cls) : Prop := In r l /\ exists b, bases r = [b] /\ number b = 0.
(** the first of a lineage that says what its code is *)
Inductive inherited_code : list cls -> option Z -> Prop :=
| ic_here c l k : own_code c = Some k -> inherited_code (c :: l) k
| ic_later c l k : own_code c = None -> inherited_code l k -> inherited_code (c :: l) k.
Definition no_code (l : list cls) : Prop := forall c, In c l -> own_code c = None.
Definition code_of_class (l : list cls) (k : option Z) : Prop := inherited_code l k \/ (no_code l /\ k = None).
Definition code_of_instance (i : instance) (l : list cls) (k : option Z) : Prop := i_code i = Some k \/ (i_code i = None /\ inherited_code l k).
