(** What the small dictionaries should hold. *)
From Coq Require Import List Bool Arith ZArith.
From Verif Require Import Prelude Dicts_Model.
Import ListNotations.

Section S.
  Context {K C : Type}.
  Variable eqb : K -> K -> bool.

  (** How many pieces of k have been counted since the dictionary was last cleared; None if it has not been counted. *)
  Definition counted (ops : list (cd_op K)) (k : K) : option Z :=
    fold_left (fun n o => match o with
                          | CCount e p => if eqb k e then Some (match n with Some m => m | None => 0 end + p)%Z else n
                          | CClear => None
                          end) ops None.

  (** What was last stored under k, c0 if nothing was or it was deleted. *)
  Definition value_after (c0 : C) (first : C) (ops : list (sd_op K C)) (k : K) : C :=
    fold_left (fun v o => match o with
                          | SSet e c => if eqb k e then c else v
                          | SDel e | SPop e => if eqb k e then c0 else v
                          | _ => v
                          end) ops first.
  Definition initial_value (c0 : C) (l : list (K * C)) (k : K) : C := fold_left (fun v kc => if eqb k (fst kc) then snd kc else v) l c0.
  Definition no_mutation (ops : list (sd_op K C)) : Prop := forall r c, ~ In (SMutate r c) ops.

  Definition writes (o : df_op K C) : bool := match o with FGet _ => false | _ => true end.
End S.

(** The dictionaries to be maintained: added and not collected, in order. *)
Definition added (es : list eedt_event) : list nat := flat_map (fun e => match e with AddDict d => [d] | _ => [] end) es.
Definition gone (es : list eedt_event) (d : nat) : Prop := In (Collect d) es.
Definition never_raises (es : list eedt_event) : Prop := forall r, In (Tick r) es -> forall d, r d = false.
