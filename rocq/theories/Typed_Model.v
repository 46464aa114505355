(** Model of satella/coding/structures/typednamedtuple.py. *)
From Verif Require Import Prelude.
Set Implicit Arguments.

Section Typed.
  Variables (N T V : Type).                 (* field names, types, values *)
  Variable neqb : N -> N -> bool.
  Variable isinst : V -> T -> res bool.     (* isinstance, which raises TypeError if it is not given a type *)
  Variable conv : T -> V -> res V.          (* type_(var) *)

  (** _adjust (typednamedtuple.py:9-13); [None] is for None and 'self' *)
  Definition adjust (var : V) (ty : option T) : res V :=
    match ty with
    | None => Ok var
    | Some t => res_bind (isinst var t) (fun b => if b then Ok var else conv t var)
    end.

  (** list(map(_adjust, zip(args, typeops[:len(args)]))) (typednamedtuple.py:49) *)
  Fixpoint positional (args : list V) (typeops : list (option T)) : res (list V) :=
    match args, typeops with
    | a :: args', t :: ts => res_bind (adjust a t) (fun v => res_map (cons v) (positional args' ts))
    | _, _ => Ok []
    end.
  (** typednamedtuple.py:51-55: a KeyError of the conversion is taken for a missing field *)
  Fixpoint keywords (fields : list (N * option T)) (kwargs : list (N * V)) : res (list V * list (N * V)) :=
    match fields with
    | [] => Ok ([], kwargs)
    | (n, t) :: rest =>
        match dget neqb kwargs n with
        | None => Err TypeError
        | Some a =>
            match adjust a t with
            | Err KeyError => Err TypeError
            | Err e => Err e
            | Ok v => res_map (fun p => (v :: fst p, snd p)) (keywords rest (ddel neqb kwargs n))
            end
        end
    end.

  (** whose instances: the namedtuple's, or those of the class that typednamedtuple returned *)
  Inductive klass : Type := Base | Returned.
  (** typednamedtuple.py:47-60; [mapping] gives each name the type it came with, as namedtuple refuses repeated names *)
  Definition new (fields : list (N * option T)) (args : list V) (kwargs : list (N * V)) : res (klass * list V) :=
    res_bind (positional args (map snd fields)) (fun nargs =>
    res_bind (keywords (skipn (length nargs) fields) kwargs) (fun p =>
    match snd p with [] => Ok (Base, nargs ++ fst p) | _ :: _ => Err TypeError end)).
End Typed.
