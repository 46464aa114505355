(** Model of satella/coding/structures/singleton.py: Singleton, SingletonWithRegardsTo, get_instances_for_singleton, delete_singleton_for.

    One decorated class, without subclasses. Positional arguments are a list of values of type [A], keyword arguments are not looked at
    ([kw] is only carried along to the constructor). Instances are numbered in the order they are made. A constructor may raise: each call
    carries what its run of __init__ would do. The steps are those other threads can come between. *)
From Verif Require Import Prelude.
Set Implicit Arguments.

Section Singletons.
  Variables (A : Type) (key_eqb : list A -> list A -> bool).
  Variable num_args : nat.

  Definition key := list A.
  Record call_args : Type := mk_args { pos : list A; kw : list A }.
  (** the dictionaries made for the class: __it__ is one of them, threads may hold another *)
  Record state : Type := mk_state { it : option nat; dicts : list (list (key * nat)); made : nat; inits : list (nat * call_args) }.
  Definition begin : state := mk_state None [] 0 [].
  Definition dict_of (s : state) (d : nat) : list (key * nat) := nth d (dicts s) [].

  (** where a thread is in singleton_new (singleton.py:73-87) *)
  Inductive place : Type :=
  | Entering (a : call_args)
  | NoDict (a : call_args)                          (* __it__ was missing: about to make it *)
  | HaveDict (a : call_args) (d : nat)              (* about to check whether the key is in the dictionary *)
  | Present (a : call_args) (d : nat)               (* it is: about to get it *)
  | Absent (a : call_args) (d : nat)                (* it is not: about to make the instance *)
  | Made (a : call_args) (i : nat)                  (* about to run the constructor *)
  | Finished (r : res nat).
  (** [init] is what __init__ does if this is the step that calls it: return, or raise *)
  Definition turn (s : state) (p : place) (init : option exn) : state * place :=
    match p with
    | Entering a => match it s with Some d => (s, HaveDict a d) | None => (s, NoDict a) end                                     (* :74-75 *)
    | NoDict a => let d := length (dicts s) in (mk_state (Some d) (dicts s ++ [[]]) (made s) (inits s), HaveDict a d)            (* :76-79 *)
    | HaveDict a d => if dmem key_eqb (dict_of s d) (firstn num_args (pos a)) then (s, Present a d) else (s, Absent a d)       (* :81-82 *)
    | Present a d =>                                                                                                           (* :83 *)
      match dget key_eqb (dict_of s d) (firstn num_args (pos a)) with Some i => (s, Finished (Ok i)) | None => (s, Finished (Err KeyError)) end
    | Absent a d =>                                                                                                            (* :85 *)
      (mk_state (it s) (upd (dicts s) d (dset key_eqb (dict_of s d) (firstn num_args (pos a)) (made s))) (1 + made s) (inits s), Made a (made s))
    | Made a i =>                                                                                                              (* :86-87 *)
      (mk_state (it s) (dicts s) (made s) (inits s ++ [(i, a)]), Finished match init with None => Ok i | Some e => Err e end)
    | Finished r => (s, Finished r)
    end.

  (** * One thread *)
  (** the whole of singleton_new, with nobody coming between *)
  Fixpoint finish (fuel : nat) (s : state) (p : place) (init : option exn) : state * res nat :=
    match fuel, p with
    | _, Finished r => (s, r)
    | O, _ => (s, Err Diverges)
    | S n, _ => let (s', p') := turn s p init in finish n s' p' init
    end.
  Inductive op : Type := Call (a : call_args) (init : option exn) | Instances | Delete (args : list A).
  Inductive out : Type := OInst (r : res nat) | OKeys (r : res (list key)) | OUnit (r : res unit).
  Definition step (s : state) (o : op) : state * out :=
    match o with
    | Call a init => let (s', r) := finish 5 s (Entering a) init in (s', OInst r)
    | Instances => match it s with None => (s, OKeys (Err AttributeError)) | Some d => (s, OKeys (Ok (dkeys (dict_of s d)))) end       (* :99-107 *)
    | Delete args =>                                                                                                            (* :110-117 *)
      match it s with
      | None => (s, OUnit (Err AttributeError))
      | Some d => if dmem key_eqb (dict_of s d) args then (mk_state (it s) (upd (dicts s) d (ddel key_eqb (dict_of s d) args)) (made s) (inits s), OUnit (Ok tt))
                  else (s, OUnit (Err KeyError))
      end
    end.
  Fixpoint run (s : state) (ops : list op) : state * list out :=
    match ops with [] => (s, []) | o :: t => let (s1, x) := step s o in let (s2, xs) := run s1 t in (s2, x :: xs) end.

  (** * Threads: each calls the class once *)
  (** Forget: the instance of this key is collected, if the dictionaries are weak (weak_refs=True) *)
  Inductive event : Type := Turn (t : nat) (init : option exn) | Forget (k : key).
  Definition tstep (c : state * list place) (e : event) : state * list place :=
    match e with
    | Turn t init =>
      match nth_error (snd c) t with None => c | Some p => let (s, p') := turn (fst c) p init in (s, upd (snd c) t p') end
    | Forget k => (mk_state (it (fst c)) (map (fun d => ddel key_eqb d k) (dicts (fst c))) (made (fst c)) (inits (fst c)), snd c)
    end.
  Definition exec (c : state * list place) (es : list event) : state * list place := fold_left tstep es c.
  Definition threads (calls : list call_args) : state * list place := (begin, map Entering calls).
End Singletons.

(** * Singleton (singleton.py:22-29): the same with one cell in place of the dictionary *)
Section Plain.
  Variable A : Type.
  Record pstate : Type := mk_pstate { cell : option nat; pmade : nat; pinits : list (nat * A) }.
  Inductive pplace : Type := PEntering (a : A) | PNew (a : A) | PInit (a : A) (i : nat) | PFinished (r : res nat).
  Definition pturn (s : pstate) (p : pplace) (init : option exn) : pstate * pplace :=
    match p with
    | PEntering a => match cell s with Some i => (s, PFinished (Ok i)) | None => (s, PNew a) end                                  (* :23-25 *)
    | PNew a => (mk_pstate (Some (pmade s)) (1 + pmade s) (pinits s), PInit a (pmade s))                                           (* :27 *)
    | PInit a i => (mk_pstate (cell s) (pmade s) (pinits s ++ [(i, a)]), PFinished match init with None => Ok i | Some e => Err e end)  (* :28-29 *)
    | PFinished r => (s, PFinished r)
    end.
  Fixpoint pfinish (fuel : nat) (s : pstate) (p : pplace) (init : option exn) : pstate * res nat :=
    match fuel, p with
    | _, PFinished r => (s, r)
    | O, _ => (s, Err Diverges)
    | S n, _ => let (s', p') := pturn s p init in pfinish n s' p' init
    end.
  Fixpoint prun (s : pstate) (calls : list (A * option exn)) : pstate * list (res nat) :=
    match calls with
    | [] => (s, [])
    | (a, init) :: t => let (s1, r) := pfinish 3 s (PEntering a) init in let (s2, rs) := prun s1 t in (s2, r :: rs)
    end.
  Definition pexec (c : pstate * list pplace) (es : list (nat * option exn)) : pstate * list pplace :=
    fold_left (fun c e => match nth_error (snd c) (fst e) with None => c | Some p => let (s, p') := pturn (fst c) p (snd e) in (s, upd (snd c) (fst e) p') end) es c.
End Plain.
