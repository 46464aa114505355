(** Model of satella/coding/environment.py: Context.

    Contexts are objects numbered in the order they are made; threads are numbers. Each operation is made by one thread and is one step:
    it looks at thread-local data and at dictionaries. parent, variables and bool are attributes of the object itself and are not
    assigned by the user here; the parent given to the constructor exists already. *)
From Coq Require Import String.
From Verif Require Import Prelude.
Set Implicit Arguments.

Section Contexts.
  Variable V : Type.

  (** coding/environment.py:21-25; None is THEY_HATIN *)
  Record card : Type := mk_card { parent : option nat; variables : dict string (option V) }.
  (** all the contexts made, and local.thread_context of each thread *)
  Record state : Type := mk_state { cards : list card; current : nat -> option nat }.
  Definition begin : state := mk_state [] (fun _ => None).

  (** the names Python finds without asking __getattr__ (coding/environment.py:14-110) *)
  Definition own_names : list string :=
    ["parent"; "variables"; "bool"; "push_up"; "does_exist"; "get"]%string.

  (** coding/environment.py:43-51 __getattr__; the parents were made earlier, so [fuel] is the number of the context *)
  Fixpoint lookup (cs : list card) (fuel : nat) (c : nat) (name : string) : res V :=
    match nth_error cs c with
    | None => Err ImpossibleExn
    | Some k =>
      match dget String.eqb (variables k) name with
      | Some (Some v) => Ok v
      | Some None => Err AttributeError
      | None =>
        match parent k with
        | None => Err AttributeError
        | Some p => match fuel with O => Err Diverges | S f => lookup cs f p name end
        end
      end
    end.
  (** coding/environment.py:76-87 *)
  Fixpoint does_exist (cs : list card) (fuel : nat) (c : nat) (name : string) : res bool :=
    match nth_error cs c with
    | None => Err ImpossibleExn
    | Some k =>
      match dget String.eqb (variables k) name with
      | Some None => Ok false
      | Some (Some _) => Ok true
      | None =>
        match parent k with
        | None => Ok false
        | Some p => match fuel with O => Err Diverges | S f => does_exist cs f p name end
        end
      end
    end.

  Inductive op : Type :=
  | New (parent : option nat) (variables : dict string V)      (* Context(parent=..., **variables) *)
  | Get (t : nat)                                               (* Context.get() *)
  | Enter (t c : nat) | Exit (t c : nat)                        (* with <context c>, its beginning and its end *)
  | GetAttr (c : nat) (name : string) | SetAttr (c : nat) (name : string) (v : V) | DelAttr (c : nat) (name : string)
  | Exists (c : nat) (name : string)
  | PushUp (c : nat) (name : string) (v : option V).
  Inductive out : Type := OContext (c : nat) | OVal (r : res V) | OBool (r : res bool) | ODone | OErr (e : exn) | OMember.

  Definition set_current (s : state) (t : nat) (c : option nat) : state :=
    mk_state (cards s) (fun u => if Nat.eqb u t then c else current s u).
  Definition set_vars (s : state) (c : nat) (k : card) (d : dict string (option V)) : state :=
    mk_state (upd (cards s) c (mk_card (parent k) d)) (current s).
  Definition add_card (s : state) (k : card) : state := mk_state (cards s ++ [k]) (current s).

  Definition step (s : state) (o : op) : state * out :=
    match o with
    | New p vars =>
      let k := mk_card p (fold_left (fun d e => dset String.eqb d (fst e) (Some (snd e))) vars []) in
      if match p with Some q => length (cards s) <=? q | None => false end then (s, OErr ImpossibleExn)
      else (add_card s k, OContext (length (cards s)))
    | Get t =>                                                                    (* coding/environment.py:99-110 *)
      match current s t with
      | Some c => (s, OContext c)
      | None => let c := length (cards s) in (set_current (add_card s (mk_card None [])) t (Some c), OContext c)
      end
    | Enter t _ =>                                                                (* coding/environment.py:53-62: self is not looked at *)
      let c := length (cards s) in
      (set_current (add_card s (mk_card (current s t) [])) t (Some c), OContext c)
    | Exit t c =>                                                                 (* coding/environment.py:89-97 *)
      match nth_error (cards s) c with
      | None => (s, OErr ImpossibleExn)
      | Some k => match parent k with
                  | None => (set_current s t None, ODone)
                  | Some p => (set_current s t (Some p), ODone)
                  end
      end
    | GetAttr c name =>
      if memb String.eqb name own_names then (s, OMember) else (s, OVal (lookup (cards s) c c name))
    | SetAttr c name v =>                                                         (* coding/environment.py:64-71 *)
      if memb String.eqb name ["parent"; "variables"; "bool"]%string then (s, OErr NotImplementedExn) else       (* not modelled *)
      match nth_error (cards s) c with
      | None => (s, OErr ImpossibleExn)
      | Some k => (set_vars s c k (dset String.eqb (variables k) name (Some v)), ODone)
      end
    | DelAttr c name =>                                                           (* coding/environment.py:73-74 *)
      match nth_error (cards s) c with
      | None => (s, OErr ImpossibleExn)
      | Some k => (set_vars s c k (dset String.eqb (variables k) name None), ODone)
      end
    | Exists c name => (s, OBool (does_exist (cards s) c c name))
    | PushUp c name v =>                                                          (* coding/environment.py:30-41 *)
      match nth_error (cards s) c with
      | None => (s, OErr ImpossibleExn)
      | Some k =>
        let set_up (s : state) (x : option V) :=
          match parent k with
          | None => (s, OErr AttributeError)                                      (* None has no variables *)
          | Some p => match nth_error (cards s) p with
                      | None => (s, OErr ImpossibleExn)
                      | Some kp => (set_vars s p kp (dset String.eqb (variables kp) name x), ODone)
                      end
          end in
        match v with
        | Some x => set_up s (Some x)
        | None => match dget String.eqb (variables k) name with
                  | None => (s, OErr KeyError)
                  | Some x => set_up (set_vars s c k (ddel String.eqb (variables k) name)) x
                  end
        end
      end
    end.
  Fixpoint run (s : state) (ops : list op) : state * list out :=
    match ops with [] => (s, []) | o :: t => let (s1, x) := step s o in let (s2, xs) := run s1 t in (s2, x :: xs) end.

  (** A program of a thread [t], with the operations of other threads in between. Fresh is [with Context():], OnCurrent is
      [with Context(parent=Context.get()):] and TheCurrent is [with Context.get():]; the end of the block is reached by an
      exception as well as without. *)
  Inductive manner : Type := Fresh | OnCurrent | TheCurrent.
  Inductive prog : Type := Do (o : op) | With (m : manner) (body : list prog).

  (** the object the with statement is given *)
  Definition manager (t : nat) (m : manner) (s : state) : state * nat :=
    match m with
    | Fresh => let (s1, _) := step s (New None []) in (s1, length (cards s))
    | OnCurrent =>
      let (s1, x) := step s (Get t) in
      let p := match x with OContext c => Some c | _ => None end in
      let (s2, _) := step s1 (New p []) in (s2, length (cards s1))
    | TheCurrent => let (s1, x) := step s (Get t) in (s1, match x with OContext c => c | _ => 0 end)
    end.
  Fixpoint perform (t : nat) (s : state) (p : prog) : state :=
    match p with
    | Do o => fst (step s o)
    | With m body =>
      let (s1, c) := manager t m s in
      let s2 := fst (step s1 (Enter t c)) in
      let s3 := fold_left (perform t) body s2 in
      fst (step s3 (Exit t c))
    end.
End Contexts.
