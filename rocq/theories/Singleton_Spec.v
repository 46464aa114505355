(** What the singletons promise: a table from the first arguments to an instance. *)
From Verif Require Import Prelude Singleton_Model.
Set Implicit Arguments.

Section Singletons.
  Variables (A : Type) (key_eqb : list A -> list A -> bool) (num_args : nat).
  (** the instances known, how many have been made, the constructors run (instance, arguments) *)
  Record table : Type := mk_table { known : list (list A * nat); count : nat; ran : list (nat * call_args A) }.
  Definition empty : table := mk_table [] 0 [].
  (** the first call with these arguments makes an instance and runs its constructor, with the arguments of the call; the others give that
      instance and run nothing *)
  Definition spec_call (t : table) (a : call_args A) : table * res nat :=
    match dget key_eqb (known t) (firstn num_args (pos a)) with
    | Some i => (t, Ok i)
    | None => (mk_table (dset key_eqb (known t) (firstn num_args (pos a)) (count t)) (1 + count t) (ran t ++ [(count t, a)]), Ok (count t))
    end.
  Definition spec_step (t : table) (o : op A) : table * out A :=
    match o with
    | Call a _ => let (t', r) := spec_call t a in (t', OInst _ r)
    | Instances _ => (t, OKeys (if count t =? 0 then Err AttributeError else Ok (dkeys (known t))))
    | Delete args =>
      match dget key_eqb (known t) args with
      | Some _ => (mk_table (ddel key_eqb (known t) args) (count t) (ran t), OUnit _ (Ok tt))
      | None => (t, OUnit _ (Err (if count t =? 0 then AttributeError else KeyError)))
      end
    end.
  Fixpoint spec_run (t : table) (ops : list (op A)) : table * list (out A) :=
    match ops with [] => (t, []) | o :: r => let (t1, x) := spec_step t o in let (t2, xs) := spec_run t1 r in (t2, x :: xs) end.
  Definition succeeds (o : op A) : Prop := match o with Call _ (Some _) => False | _ => True end.
End Singletons.
