(** The size of an object with its components (satella/instrumentation/memory/get_object_size.py:7-33).

    Objects are numbers (their id), described by a heap; they stay alive while they are measured, so no number is used
    twice. Python's limit on the depth of calls is not modelled: [fuel] is a bound on that depth, and [None] means
    that it was too small. *)
From Verif Require Import Prelude.
Set Implicit Arguments.
Open Scope Z_scope.

(** what the function can see of an object: sys.getsizeof; whether it is a dict, with its values and keys; its
    __dict__, if it has one; what iterating it gives, if it can be iterated; whether it is a str, bytes or bytearray *)
Record obj := { bytes : Z; is_dict : bool; vals : list nat; keys : list nat;
                attrs : option nat; items : option (list nat); is_text : bool }.
Definition heap := nat -> obj.

(** get_object_size.py:17-33: the size, and [seen] *)
Fixpoint sized (h : heap) (fuel : nat) (x : nat) (seen : list nat) : option (Z * list nat) :=
  match fuel with
  | O => None
  | S f =>
    if memb Nat.eqb x seen then Some (0, seen)                                        (* 21-22 *)
    else
      let sum l acc := fold_left (fun a y =>
        match a with
        | Some (t, s) => match sized h f y s with Some (t', s') => Some (t + t', s') | None => None end
        | None => None
        end) l acc in
      let start := Some (bytes (h x), x :: seen) in                                   (* 17, 25 *)
      if is_dict (h x) then sum (keys (h x)) (sum (vals (h x)) start)                 (* 26-28 *)
      else match attrs (h x) with
           | Some d => sum [d] start                                                  (* 29-30 *)
           | None => match items (h x) with
                     | Some l => if is_text (h x) then start else sum l start         (* 31-32 *)
                     | None => start
                     end
           end
  end.
(** get_object_size.py:7-16, called with the object only *)
Definition get_size (cpython : bool) (h : heap) (fuel : nat) (x : nat) : option (res Z) :=
  if cpython then option_map (fun r => Ok (fst r)) (sized h fuel x []) else Some (Err RuntimeError).
