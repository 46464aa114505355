(* C71: decorators that work on the arguments of a call
   (satella/coding/decorators/arguments.py and preconditions.py). *)
From Coq Require Import List Bool Arith ZArith String.
From Verif Require Import Prelude Args_Model.
Import ListNotations.
Set Implicit Arguments.

(* Calling a Python function of signature s whose body, given its local
   variables, computes `body`. *)
Definition call (s : sig) (body : vars -> res val) (args : list val) (kw : vars) : res val :=
  match py_bind s args kw with Err e => Err e | Ok b => body b end.

(* call_with_arguments(fun, d), satella/coding/misc.py:344-384 *)
Definition call_dict (s : sig) (body : vars -> res val) (d : vars) : res val :=
  match call_with_arguments s d with
  | Err e => Err e
  | Ok (args, kw) => call s body args kw
  end.

Definition bind_res (A B : Type) (x : res A) (f : A -> res B) : res B :=
  match x with Ok a => f a | Err e => Err e end.

(* dict.update *)
Definition update (d e : vars) : vars := fold_left (fun k x => set k (fst x) (snd x)) e d.

(* the names of the keyword arguments as positional arguments: `*kwargs` *)
Definition names_as_args (kw : vars) : list val := map (fun e => Str (fst e)) kw.

Section Decorators.
  Variable s : sig.
  Variable body : vars -> res val.

  (* arguments.py:34-44, transform_result; an expression is a function of the
     variables it is evaluated in. Line 38 unpacks kwargs with a single star. *)
  Definition transform_result (expr : vars -> res val) (args : list val) (kw : vars) : res val :=
    bind_res (call s body args kw) (fun a =>
    bind_res (get_arguments s (args ++ names_as_args kw) []) (fun local =>
    expr (set local "x"%string a))).

  (* arguments.py:67-68 *)
  Fixpoint eval_all (es : list (string * (vars -> res val))) (old : vars) (new : vars) : res vars :=
    match es with
    | [] => Ok new
    | (n, e) :: es' => bind_res (e old) (fun v => eval_all es' old (set new n v))
    end.
  (* arguments.py:69-71 *)
  Definition keep_rest (old new : vars) : vars :=
    fold_left (fun d e => if has d (fst e) then d else set d (fst e) (snd e)) old new.
  (* arguments.py:62-76, transform_arguments; line 65 has the single star too. *)
  Definition transform_arguments (es : list (string * (vars -> res val)))
      (args : list val) (kw : vars) : res val :=
    bind_res (get_arguments s (args ++ names_as_args kw) []) (fun old =>
    bind_res (eval_all es old []) (fun new =>
    call_dict s body (keep_rest old new))).

  (* arguments.py:148-168, replace_argument_if. `predicate` is Some if a
     predicate was given (it is never called), `instance_of` the isinstance test,
     `structure` is build_structure(structure, v). *)
  Definition replace_argument_if (arg : string) (structure : val -> res val)
      (instance_of : val -> bool) (predicate : option (val -> bool))
      (args : list val) (kw : vars) : res val :=
    bind_res (get_arguments s args kw) (fun d =>
    match get d arg with
    | Some v =>
        if match predicate with Some _ => true | None => instance_of v end
        then bind_res (structure v) (fun w => call_dict s body (set d arg w))
        else call s body args kw
    | None => call s body args kw
    end).

  (* arguments.py:214-240, attach_arguments *)
  Definition attach_arguments (xargs : list val) (xkw : vars) (args : list val) (kw : vars) : res val :=
    call s body (args ++ xargs) (update kw xkw).

  (* Callable values; None: calling it is a TypeError. *)
  Variable callable : val -> option (val -> res val).

  (* arguments.py:336-345: does the function have any default? *)
  Definition has_defaults : bool :=
    existsb (fun p => match p_default p with Some _ => true | None => false end) s.

  (* arguments.py:353-360 *)
  Fixpoint apply_dict (ops : vars) (d : vars) : res vars :=
    match d with
    | [] => Ok []
    | (n, v) :: d' =>
        bind_res (match get ops n with
                  | Some o => match callable o with Some g => g v | None => Ok v end
                  | None => Ok v
                  end) (fun w =>
        bind_res (apply_dict ops d') (fun r => Ok ((n, w) :: r)))
    end.

  (* arguments.py:368-369: the pairs of zip_longest; ops that are None are _NOP.
     The assertion makes the list of operations the shorter one. *)
  Fixpoint apply_list (ops : list val) (args : list val) : res (list val) :=
    match args with
    | [] => Ok []
    | v :: args' =>
        bind_res (match ops with
                  | o :: _ => match callable o with Some g => g v | None => Err TypeError end
                  | [] => Ok v
                  end) (fun w =>
        bind_res (apply_list (tl ops) args') (fun r => Ok (w :: r)))
    end.
  (* arguments.py:370 *)
  Fixpoint apply_kw (kwops : vars) (kw : vars) : res vars :=
    match kw with
    | [] => Ok []
    | (n, v) :: kw' =>
        bind_res (match get kwops n with
                  | Some o => match callable o with Some g => g v | None => Err TypeError end
                  | None => Ok v
                  end) (fun w =>
        bind_res (apply_kw kwops kw') (fun r => Ok ((n, w) :: r)))
    end.

  (* arguments.py:280-375, for_argument. Simplified: the operations are given
     after lines 315-333, which turn None and 'self' into the identity and strings
     into functions, and `returns` is not applied (it sees the result only). *)
  Definition for_argument (ops : list val) (kwops : vars) (args : list val) (kw : vars) : res val :=
    if has_defaults then
      if has kwops "function"%string || has kwops "special_behaviour"%string then Err TypeError else
      bind_res (get_arguments_ true s ops kwops) (fun dict_ops =>
      bind_res (get_arguments s args kw) (fun d =>
      bind_res (apply_dict dict_ops d) (fun d' => call_dict s body d')))
    else
      if List.length ops <=? List.length args then
        bind_res (apply_list ops args) (fun args' =>
        bind_res (apply_kw kwops kw) (fun kw' => call s body args' kw'))
      else Err AssertionError.

  (* The outcome of a condition: True, False, another true or false value, or an
     exception. *)
  Inductive cond_result : Type :=
  | IsTrue | IsFalse | Truthy | Falsy | Raises (e : exn).

  (* PreconditionError, a subclass of ValueError, is told apart from the function's
     own results. *)
  Inductive outcome : Type :=
  | Called (r : res val)
  | PreconditionFailed
  | OtherError (e : exn).

  Definition cond := val -> cond_result.

  (* preconditions.py:75-79: None means go on *)
  Fixpoint check_kw (conds : dict string cond) (kw : vars) : option outcome :=
    match kw with
    | [] => None
    | (n, v) :: kw' =>
        match dget String.eqb conds n with
        | None => check_kw conds kw'
        | Some c => match c v with
                    | IsFalse | Falsy => Some PreconditionFailed
                    | Raises e => Some (OtherError e)
                    | IsTrue | Truthy => check_kw conds kw'
                    end
        end
    end.

  (* preconditions.py:81-85. *)
  Fixpoint check_args (conds : list cond) (args : list val) : option outcome :=
    match args with
    | [] => None
    | v :: args' =>
        match conds with
        | [] => None
        | c :: conds' =>
            match c v with
            | IsFalse => Some PreconditionFailed
            | Raises TypeError => Some PreconditionFailed
            | Raises e => Some (OtherError e)
            | IsTrue | Truthy | Falsy => check_args conds' args'
            end
        end
    end.

  (* preconditions.py:19-90, precondition; the conditions are given after lines
     48-66, which turn None into a condition that always holds. *)
  Definition precondition (conds : list cond) (kwconds : dict string cond)
      (args : list val) (kw : vars) : outcome :=
    if List.length conds <=? List.length args then
      match check_kw kwconds kw with
      | Some o => o
      | None => match check_args conds args with
                | Some o => o
                | None => Called (call s body args kw)
                end
      end
    else OtherError AssertionError.

  (* preconditions.py:104-114, postcondition *)
  Definition postcondition (c : cond) (args : list val) (kw : vars) : outcome :=
    match call s body args kw with
    | Err e => Called (Err e)
    | Ok v => match c v with
              | IsFalse => PreconditionFailed
              | Raises e => OtherError e
              | IsTrue | Truthy | Falsy => Called (Ok v)
              end
    end.
End Decorators.
