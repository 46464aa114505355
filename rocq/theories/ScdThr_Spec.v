(** What is expected of a SelfCleaningDefaultDict that several threads use. *)
From Verif Require Import Prelude MetrThr_Model ScdThr_Model.
Set Implicit Arguments.

Section ScdThrSpec.
  Context {K V : Type}.
  Variable eqb : K -> K -> bool.
  Variable veqb : V -> V -> bool.
  Variable zero : V.
  (** the value of the key after the calls that ended, in this order: the one stored last, or the default *)
  Definition value (l : list (call K V * res (answer V))) (k : K) : V :=
    fold_left (fun x e => match fst e with
                          | Set_ k' v => if eqb k' k then (if veqb v zero then zero else v) else x
                          | Del k' => if eqb k' k then zero else x
                          | _ => x
                          end) l zero.
  (** how a call should end after those in [l] *)
  Definition fits (l : list (call K V * res (answer V))) (d : call K V) (r : res (answer V)) : Prop :=
    match d with
    | Get k => r = Ok (Val (value l k))
    | Set_ _ _ | Del _ | Cleanup => r = Ok Nothing
    | Len => exists keys, NoDup keys /\ (forall k, In k keys <-> veqb (value l k) zero = false) /\ r = Ok (Num (length keys))
    end.
  (** what goes wrong: KeyError from del, and from storing the default; in both cases the key has the default value all the same. Without
      background maintenance, len() counts keys that have the default value. *)
  Definition slips (background : bool) (l : list (call K V * res (answer V))) (d : call K V) (r : res (answer V)) : Prop :=
    match d with
    | Set_ k v => r = Err KeyError /\ veqb v zero = true /\ value l k = zero
    | Del k => r = Err KeyError /\ value l k = zero
    | Len => background = false /\ exists keys, NoDup keys /\ (forall k, veqb (value l k) zero = false -> In k keys) /\ r = Ok (Num (length keys))
    | _ => False
    end.
  (** what is stored under the key after calls made one at a time: cleanups remove defaults, and so do reads; without background maintenance
      a read of a missing key stores the default *)
  Definition stored (background : bool) (l : list (call K V)) (k : K) : option V :=
    let sweep o := match o with Some v => if veqb v zero then None else Some v | None => None end in
    fold_left (fun o d => match d with
                          | Get k' => if eqb k' k then match o with Some _ => sweep o | None => if background then None else Some zero end else o
                          | Set_ k' v => if eqb k' k then sweep (Some v) else o
                          | Del k' => if eqb k' k then None else o
                          | Cleanup | Len => sweep o
                          end) l None.
  (** the call is about the key *)
  Definition about (d : call K V) (k : K) : Prop := match d with Get k' | Set_ k' _ | Del k' => k' = k | _ => False end.
End ScdThrSpec.
