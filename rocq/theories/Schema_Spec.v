(** What a schema descriptor promises (satella/configuration/schema). *)
From Coq Require Import String.
From Verif Require Import Prelude Schema_Model.
Set Implicit Arguments.

(** Each in turn; the first exception ends it. *)
Fixpoint in_order {A B} (f : A -> res B) (l : list A) : res (list B) :=
  match l with
  | [] => Ok []
  | x :: t => match f x with
              | Err e => Err e
              | Ok y => match in_order f t with Err e => Err e | Ok ys => Ok (y :: ys) end
              end
  end.

Definition accepted {A} (r : res A) : Prop := exists w, r = Ok w.
Definition refused {A} (r : res A) : Prop := r = Err ConfigurationValidationError.

(** All of the checkers say yes. *)
Definition passes (cs : list checker) (v : cv) : Prop := forall c, In c cs -> c v = true.

(** During the validation of the value no checker, anywhere in the descriptor, says no. *)
Fixpoint no_checker_refuses (d : desc) (v : cv) : Prop :=
  match d with
  | DBasic pre post maker | DRegexp pre post maker _ _ =>
    passes pre v /\ (forall w, maker v = Ok w -> passes post w)
  | DList pre post td =>
    passes pre v /\ (forall l, to_list v = Ok (CList l) -> passes post (CList l) /\ Forall (no_checker_refuses td) l)
  | DCaster _ => True
  | DDict pre post keys _ =>
    forall kvs, v = CDict kvs ->
      passes pre v /\ passes post v /\
      fold_right and True (map (fun e => forall x, In (fst e, x) kvs -> no_checker_refuses (snd (snd e)) x) keys)
  | DUnion ds => fold_right and True (map (fun d => no_checker_refuses d v) ds)
  end.

(** No Union anywhere in the descriptor. *)
Fixpoint no_union (d : desc) : Prop :=
  match d with
  | DBasic _ _ _ | DRegexp _ _ _ _ _ | DCaster _ => True
  | DList _ _ td => no_union td
  | DDict _ _ keys _ => fold_right and True (map (fun e => no_union (snd (snd e))) keys)
  | DUnion _ => False
  end.

(** How deeply descriptors are nested. *)
Fixpoint depth (d : desc) : nat :=
  match d with
  | DBasic _ _ _ | DRegexp _ _ _ _ _ | DCaster _ => 1
  | DList _ _ td => S (depth td)
  | DDict _ _ keys _ => S (fold_right Nat.max 0 (map (fun e => depth (snd (snd e))) keys))
  | DUnion ds => S (fold_right Nat.max 0 (map depth ds))
  end.

(** A Dict descriptor accepts: [ask d x] is what a nested descriptor says of a value. *)
Definition dict_accepts (ask : desc -> cv -> res cv) (keys : list (string * (bool * cv * desc)))
    (mapper : string -> cv -> res cv) (kvs : list (string * cv)) : Prop :=
  (forall k optional default d, In (k, (optional, default, d)) keys ->
     match dget String.eqb kvs k with
     | Some x => accepted (ask d x)
     | None => optional = true
     end) /\
  (forall k x, In (k, x) kvs -> ~ In k (map fst keys) -> accepted (mapper k x)).

(** What is under a key of the outcome. *)
Definition dict_entry (ask : desc -> cv -> res cv) (keys : list (string * (bool * cv * desc)))
    (mapper : string -> cv -> res cv) (kvs : list (string * cv)) (k : string) (w : option cv) : Prop :=
  match dget String.eqb keys k, dget String.eqb kvs k with
  | Some (_, _, d), Some x => exists y, w = Some y /\ ask d x = Ok y
  | Some (_, default, _), None => w = Some default
  | None, Some x => exists y, w = Some y /\ mapper k x = Ok y
  | None, None => w = None
  end.

(** Functions given to the descriptors that complain with the exceptions that are meant for it:
    TypeError, ValueError and the heirs of ValueError. *)
Definition complains_well (f : cv -> res cv) : Prop :=
  forall v e, f v = Err e -> In e [TypeError; ValueError; ConfigurationError; ConfigurationValidationError].
Definition complains_with_ValueError (f : cv -> res cv) : Prop :=
  forall v e, f v = Err e -> In e [ValueError; ConfigurationError; ConfigurationValidationError].
Fixpoint well_behaved (d : desc) : Prop :=
  match d with
  | DBasic _ _ maker => complains_well maker
  | DRegexp _ _ maker _ is_str => complains_well maker /\ is_str = false
  | DList _ _ td => well_behaved td
  | DCaster f => complains_with_ValueError f
  | DDict _ _ keys mapper =>
    (forall k v e, mapper k v = Err e -> e = ConfigurationValidationError) /\
    fold_right and True (map (fun e => well_behaved (snd (snd e))) keys)
  | DUnion ds => fold_right and True (map well_behaved ds)
  end.
