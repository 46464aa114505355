(** What is expected of a Subqueue that several threads use. *)
From Verif Require Import Prelude MetrThr_Model SubThr_Model.
Set Implicit Arguments.

Section SubThrSpec.
  Context {K V : Type}.
  Variable eqb : K -> K -> bool.
  (** what waits in the queue of this name after the calls that ended, in this order *)
  Definition pending (l : list (call K V * res (answer K V))) (k : K) : list V :=
    fold_left (fun q e => match e with
                          | (Put k' v, Ok _) => if eqb k' k then q ++ [v] else q
                          | (Get k' _, Ok _) => if eqb k' k then tl q else q
                          | (GetAny, Ok (Item k' _)) => if eqb k' k then tl q else q
                          | _ => q
                          end) l [].
  (** the messages put under this name, and those taken, in order *)
  Definition sent (l : list (call K V * res (answer K V))) (k : K) : list V :=
    flat_map (fun e => match e with (Put k' v, Ok _) => if eqb k' k then [v] else [] | _ => [] end) l.
  Definition received (l : list (call K V * res (answer K V))) (k : K) : list V :=
    flat_map (fun e => match e with
                       | (Get k' _, Ok (Val v)) => if eqb k' k then [v] else []
                       | (GetAny, Ok (Item k' v)) => if eqb k' k then [v] else []
                       | _ => []
                       end) l.
  Definition sum (l : list nat) : nat := fold_right Nat.add 0 l.
  (** how a call should end after those in [l] *)
  Definition fits (l : list (call K V * res (answer K V))) (d : call K V) (r : res (answer K V)) : Prop :=
    match d with
    | Put _ _ => r = Ok Nothing
    | Get k block => match pending l k with v :: _ => r = Ok (Val v) | [] => block = false /\ r = Err EmptyExn end
    | GetAny => (exists k v q, pending l k = v :: q /\ r = Ok (Item k v)) \/ (r = Err EmptyExn /\ forall k, pending l k = [])
    | Qsize => exists ks, NoDup ks /\ (forall k, pending l k <> [] -> In k ks) /\ r = Ok (Num (sum (map (fun k => length (pending l k)) ks)))
    end.
  (** what goes wrong: get_any() and qsize() raise RuntimeError; get_any() finds nothing although there is something; qsize() is wrong *)
  Definition slips (d : call K V) (r : res (answer K V)) : Prop :=
    match d with
    | GetAny => r = Err RuntimeError \/ r = Err EmptyExn
    | Qsize => r = Err RuntimeError \/ exists n, r = Ok (Num n)
    | _ => False
    end.
  (** the call takes something out *)
  Definition takes (d : call K V) : Prop := match d with Get _ _ | GetAny => True | _ => False end.
  (** the call is about a name *)
  Definition name_of (d : call K V) : option K := match d with Put k _ | Get k _ => Some k | _ => None end.
  Definition waits (d : call K V) : Prop := match d with Get _ true => True | _ => False end.
End SubThrSpec.
