From Verif Require Import Prelude Cass_Model.
Set Implicit Arguments.
(** the completions, in order *)
Definition completions (V : Type) (es : list (event V)) : list (res V) := flat_map (fun e => match e with Complete r => [r] | Turn => [] end) es.
Definition turns (V : Type) (es : list (event V)) : nat := length (filter (fun e => match e with Complete _ => false | Turn => true end) es).
(** "futures = []; for args in arguments: futures.append(cursor.execute_async(query, args))": the calls that are to be made *)
Definition to_execute (Q A : Type) (q : queries Q) (arguments : list (option A)) : list (Q * option A) :=
  match q with OneQuery x => map (fun a => (x, a)) arguments | Queries l => combine l arguments end.
