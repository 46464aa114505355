(** dump_memory_on (satella/instrumentation/memory/dump_frames_on.py:7-42). *)
From Coq Require Import ZArith.
From Verif Require Import Prelude PySeq_Model.
Set Implicit Arguments.

(** an object the garbage collector knows: its type, what sys.getsizeof and repr() do with it *)
Record obj := { typ : nat; size : res Z; text : res nat }.
Inductive line := Object (text : nat) (typ : nat) (size : Z) | Rule | Heading | Total (typ : nat) (bytes : Z) (instances : nat).
Definition add_size (d : dict nat Z) (t : nat) (n : Z) : dict nat Z :=
  match dget Nat.eqb d t with Some m => dset Nat.eqb d t (m + n)%Z | None => dset Nat.eqb d t n end.
Definition add_one (d : dict nat nat) (t : nat) (known : bool) : dict nat nat :=
  if known then match dget Nat.eqb d t with Some m => dset Nat.eqb d t (m + 1) | None => d end else dset Nat.eqb d t 1.
(** memory/dump_frames_on.py:21-34: the lines written, the two dictionaries, or the exception *)
Fixpoint objects (l : list obj) (scores : dict nat Z) (instances : dict nat nat) : list line * res (dict nat Z * dict nat nat) :=
  match l with
  | [] => ([], Ok (scores, instances))
  | o :: t =>
    match (match size o with Ok n => Ok n | Err TypeError => Ok 0%Z | Err e => Err e end) with
    | Err e => ([], Err e)
    | Ok n =>
      let known := dmem Nat.eqb scores (typ o) in
      let scores' := add_size scores (typ o) n in
      let instances' := add_one instances (typ o) known in
      match text o with
      | Err e => ([], Err e)
      | Ok s => let (lines, r) := objects t scores' instances' in (Object s (typ o) n :: lines, r)
      end
    end
  end.
(** memory/dump_frames_on.py:36-42; instances[typ] is always there *)
Definition summary (scores : dict nat Z) (instances : dict nat nat) : list line :=
  map (fun x => Total (fst x) (snd x) (match dget Nat.eqb instances (fst x) with Some n => n | None => 0 end))
    (py_sorted (fun x y => Z.ltb (- snd x) (- snd y)) scores).
Definition dump_memory_on (l : list obj) : list line * option exn :=
  let (lines, r) := objects l [] [] in
  match r with
  | Ok (scores, instances) => (lines ++ [Rule; Heading; Rule] ++ summary scores instances, None)
  | Err e => (lines, Some e)
  end.
