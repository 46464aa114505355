(** What a stored traceback should keep. *)
From Coq Require Import List Bool Arith ZArith.
From Verif Require Import Prelude Trace_Model.
Import ListNotations.
Open Scope nat_scope.

(** the frames from one outwards *)
Fixpoint outwards (f : frame) : list frame := f :: match f with Frame _ _ _ _ _ (Some back) => outwards back | Frame _ _ _ _ _ None => [] end.
Definition same_place (f : frame) (s : stack_frame) : Prop :=
  match f with Frame name filename lineno locals globals _ =>
    f_name s = name /\ f_filename s = filename /\ f_lineno s = lineno /\ map fst (f_locals s) = map fst locals /\ map fst (f_globals s) = map fst globals
  end.
Definition variables (f : frame) : list Z := match f with Frame _ _ _ locals globals _ => map snd locals ++ map snd globals end.
(** every dictionary of variables has each name once *)
Definition names_once (t : trace) : Prop := forall f, In f (t_frames t) -> NoDup (map fst (f_locals f)) /\ NoDup (map fst (f_globals f)).
(** all stored values of a traceback *)
Definition all_stored (t : trace) : list stored := flat_map (fun f => map snd (f_locals f) ++ map snd (f_globals f)) (t_frames t).

(** the variables of a frame, as they are kept *)
Section Kept.
  Variables (repr_of type_of : Z -> res text).
  Definition kept_as (p : policy) (v : Z) (s : stored) : Prop :=
    (exists r, repr_of v = Ok r /\ s_repr s = process_repr p r) /\ type_of v = Ok (s_type s).
  Definition keeps (p : policy) (f : frame) (s : stack_frame) : Prop :=
    match f with Frame _ _ _ locals globals _ =>
      Forall2 (fun kv ks => fst kv = fst ks /\ kept_as p (snd kv) (snd ks)) locals (f_locals s) /\
      Forall2 (fun kv ks => fst kv = fst ks /\ kept_as p (snd kv) (snd ks)) globals (f_globals s)
    end.
End Kept.
