(** Model of satella/configuration/sources (base.py, derivative.py, object_from.py)
    and of merge_dicts of satella/coding/algos.py.

    merge_dicts changes its first argument in place, and what it puts there are the
    very objects of the second one. So dictionaries and lists live in a memory, and a
    value is a scalar or the address of one. *)
From Verif Require Import Prelude.
Set Implicit Arguments.
Local Open Scope Z_scope.

Inductive val : Type := VLeaf (z : Z) | VRef (a : nat).
Inductive cell : Type := CDict (d : dict Z val) | CList (l : list val).
Definition mem := list cell.

(** A configuration written down: what a parser makes objects of. *)
Inductive tree : Type := TLeaf (z : Z) | TDict (d : list (Z * tree)) | TList (l : list tree).

(** Making new objects of a tree, the way json.loads and the like do. *)
Fixpoint alloc (m : mem) (t : tree) : mem * val :=
  match t with
  | TLeaf z => (m, VLeaf z)
  | TDict d =>
    let (m', d') := (fix items (m : mem) (d : list (Z * tree)) : mem * dict Z val :=
                       match d with
                       | [] => (m, [])
                       | (k, x) :: r => let (m1, v) := alloc m x in let (m2, r') := items m1 r in (m2, (k, v) :: r')
                       end) m d in
    (m' ++ [CDict d'], VRef (length m'))
  | TList l =>
    let (m', l') := (fix elems (m : mem) (l : list tree) : mem * list val :=
                       match l with
                       | [] => (m, [])
                       | x :: r => let (m1, v) := alloc m x in let (m2, r') := elems m1 r in (m2, v :: r')
                       end) m l in
    (m' ++ [CList l'], VRef (length m'))
  end.

Definition deref (m : mem) (v : val) : option (nat * cell) :=
  match v with VLeaf _ => None | VRef a => option_map (pair a) (nth_error m a) end.
Definition is_dict (m : mem) (v : val) : bool := match deref m v with Some (_, CDict _) => true | _ => false end.
Definition dict_get (m : mem) (a : nat) (k : Z) : option val :=
  match nth_error m a with Some (CDict d) => dget Z.eqb d k | _ => None end.
Definition dict_set (m : mem) (a : nat) (k : Z) (v : val) : mem :=
  match nth_error m a with Some (CDict d) => upd m a (CDict (dset Z.eqb d k v)) | _ => m end.

(** algos.py:15-19, the loop of merge_dicts over the keys of the second dictionary,
    which are taken at the start (Python raises when they change on the way). The
    KeyError that is caught can only come from v1[k]. *)
Fixpoint merge_keys (merge : mem -> val -> val -> res (mem * val)) (m : mem) (a b : nat) (ks : list Z) : res mem :=
  match ks with
  | [] => Ok m
  | k :: t =>
    match dict_get m a k, dict_get m b k with
    | Some x, Some y => res_bind (merge m x y) (fun p => let (m', r) := p in merge_keys merge (dict_set m' a k r) a b t)
    | None, Some y => merge_keys merge (dict_set m a k y) a b t
    | _, None => Err KeyError
    end
  end.
(** algos.py:6-26 merge_dicts *)
Fixpoint merge_dicts (fuel : nat) (m : mem) (v1 v2 : val) : res (mem * val) :=
  match fuel with
  | O => Err Diverges
  | S fuel' =>
    match deref m v1, deref m v2 with
    | Some (a, CDict _), Some (b, CDict d2) => res_bind (merge_keys (merge_dicts fuel') m a b (dkeys d2)) (fun m' => Ok (m', v1))
    | Some (a, CList l1), Some (b, CList l2) => Ok (upd m a (CList (l1 ++ l2)), v1)
    | _, _ => Ok (m, v2)
    end
  end.

(** Sources. [SLoad] is any source that makes a new object on each call or fails:
    BaseSource, FormatSource and its heirs, EnvironmentSource, FileSource. [C] is what
    a StaticSource holds. *)
Inductive source (C : Type) : Type :=
| SLoad (r : res tree)
| SStatic (config : C)                                                    (* sources/base.py:23-33 *)
| SAlternative (sources : list (source C))                                (* derivative.py:10-38 *)
| SOptional (s : source C)                                                (* derivative.py:41-56 *)
| SMerging (sources : list (source C)) (on_fail : Z) (fail_if_no_sources_are_correct : bool)  (* derivative.py:59-108 *)
| SBuildObjectFrom (key : Z) (child : source C).                          (* object_from.py:6-26 *)
Arguments SLoad {C}. Arguments SStatic {C}. Arguments SAlternative {C}. Arguments SOptional {C}.
Arguments SMerging {C}. Arguments SBuildObjectFrom {C}.

Section Provide.
  Variable fuel : nat.
  Variable run : mem -> source val -> mem * res val.
  (** derivative.py:26-38 AlternativeSource.provide *)
  Fixpoint alternative_loop (m : mem) (l : list (source val)) : mem * res val :=
    match l with
    | [] => (m, Err ConfigurationError)
    | s :: t =>
      match run m s with
      | (m', Ok v) => if is_dict m' v then (m', Ok v) else (m', Err AssertionError)
      | (m', Err ConfigurationError) => alternative_loop m' t
      | (m', Err e) => (m', Err e)
      end
    end.
  (** derivative.py:83-105 MergingSource.provide, from the loop on: RAISE is 0, SILENT is 1 *)
  Fixpoint merging_loop (m : mem) (cfg : val) (correct_sources : Z) (on_fail : Z) (l : list (source val))
    : mem * res (val * Z) :=
    match l with
    | [] => (m, Ok (cfg, correct_sources))
    | s :: t =>
      let (m1, r) := run m s in
      let merge m2 p correct :=
        if is_dict m2 p
        then match merge_dicts fuel m2 cfg p with
             | Ok (m3, cfg') => merging_loop m3 cfg' correct on_fail t
             | Err e => (m2, Err e)
             end
        else (m2, Err AssertionError) in
      match r with
      | Ok p => merge m1 p (correct_sources + 1)
      | Err ConfigurationError =>
        if on_fail =? 0 then (m1, Err ConfigurationError)
        else if on_fail =? 1 then let (m2, p) := alloc m1 (TDict []) in merge m2 p correct_sources
        else (m1, Err ConfigurationError)
      | Err e => (m1, Err e)
      end
    end.
End Provide.

Fixpoint provide (fuel : nat) (m : mem) (s : source val) : mem * res val :=
  match s with
  | SLoad (Ok t) => let (m', v) := alloc m t in (m', Ok v)
  | SLoad (Err e) => (m, Err e)
  | SStatic config => (m, Ok config)                                      (* sources/base.py:32-33 *)
  | SAlternative l => alternative_loop (provide fuel) m l
  | SOptional s' =>                                     (* derivative.py:52-53: AlternativeSource(s', BaseSource()) *)
    match provide fuel m s' with
    | (m', Ok v) => if is_dict m' v then (m', Ok v) else (m', Err AssertionError)
    | (m', Err ConfigurationError) => let (m2, v) := alloc m' (TDict []) in (m2, Ok v)
    | (m', Err e) => (m', Err e)
    end
  | SMerging l on_fail flag =>                                            (* derivative.py:83-105 *)
    let (m0, cfg) := alloc m (TDict []) in
    match merging_loop fuel (provide fuel) m0 cfg 0 on_fail l with
    | (m', Ok (cfg', correct_sources)) =>
      if (correct_sources =? 0) && negb (match l with [] => true | _ => false end) && flag
      then (m', Err ConfigurationError) else (m', Ok cfg')
    | (m', Err e) => (m', Err e)
    end
  | SBuildObjectFrom key child =>                                         (* object_from.py:17-23 *)
    match provide fuel m child with
    | (m', Ok v) => (m' ++ [CDict [(key, v)]], Ok (VRef (length m')))
    | (m', Err e) => (m', Err e)
    end
  end.

(** calling provide again and again *)
Fixpoint provide_run (fuel : nat) (m : mem) (calls : list (source val)) : list (res val) * mem :=
  match calls with
  | [] => ([], m)
  | s :: t => let (m', r) := provide fuel m s in let (rs, m2) := provide_run fuel m' t in (r :: rs, m2)
  end.
