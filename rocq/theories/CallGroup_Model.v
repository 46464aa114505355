(** Model of CancellableCallback, CallableGroup and CallNoOftenThan (satella/coding/concurrent/callablegroup.py).

    A CancellableCallback is a number, given out in the order of creation; [funs] says which function each wraps.
    A function that is called may cancel callbacks and add functions to the group before it returns or raises.
    A function calling the group it is called from is not modelled. *)
From Verif Require Import Prelude.
Set Implicit Arguments.

Section Group.
  Variables R A : Type.

  Inductive effect : Type := ECancel (c : nat) | EAdd (fn : nat) (one_shot : bool).
  (** what calling the function of each callback does, this time *)
  Definition world := nat -> list effect * res R.
  (** what a callback contributes to the results: None of a cancelled one, a value, a swallowed exception *)
  Inductive result : Type := QNone | QValue (r : R) | QExn (e : exn).

  Record group : Type := mk_group { callables : list (nat * bool); cancelled : list nat; funs : list nat }.
  Definition new_group : group := mk_group [] [] [].
  Definition is_cancelled (g : group) (c : nat) : bool := memb Nat.eqb c (cancelled g).
  Definition set_callables (g : group) (l : list (nat * bool)) : group := mk_group l (cancelled g) (funs g).

  (** callablegroup.py:48-52 *)
  Definition cancel (g : group) (c : nat) : group := mk_group (callables g) (c :: cancelled g) (funs g).
  (** callablegroup.py:151-154 add of a CancellableCallback *)
  Definition add_callback (g : group) (c : nat) (one_shot : bool) : group :=
    if dmem Nat.eqb (callables g) c then g else set_callables g (callables g ++ [(c, one_shot)]).
  (** callablegroup.py:149-154 add of a function: it is wrapped in a new CancellableCallback *)
  Definition add (g : group) (fn : nat) (one_shot : bool) : group * nat :=
    let c := length (funs g) in
    (add_callback (mk_group (callables g) (cancelled g) (funs g ++ [fn])) c one_shot, c).
  (** callablegroup.py:108-118 *)
  Definition has_cancelled_callbacks (g : group) : bool := existsb (fun c => negb (is_cancelled g (fst c))) (callables g).
  (** callablegroup.py:120-127; DictDeleter as proved in C18 *)
  Definition remove_cancelled (g : group) : group :=
    set_callables g (filter (fun c => negb (is_cancelled g (fst c))) (callables g)).

  Definition apply_effect (g : group) (e : effect) : group :=
    match e with
    | ECancel c => cancel g c
    | EAdd fn one_shot => fst (add g fn one_shot)
    end.
  Definition fun_of (g : group) (c : nat) : nat := nth c (funs g) 0.
  Definition readd (g : group) (c : nat) (one_shot : bool) : group := if one_shot then g else add_callback g c one_shot.

  (** callablegroup.py:176-188, with CancellableCallback.__call__ (callablegroup.py:44-46). [calls]: the functions called,
      with the arguments *)
  Fixpoint call_loop (swallow : bool) (args : A) (w : world) (todo : list (nat * bool)) (g : group)
      (results : list result) (calls : list (nat * A)) : group * res (list result) * list (nat * A) :=
    match todo with
    | [] => (g, Ok results, calls)
    | (c, one_shot) :: t =>
      if is_cancelled g c
      then call_loop swallow args w t (readd g c one_shot) (results ++ [QNone]) calls
      else let (effects, r) := w c in
           let g' := fold_left apply_effect effects g in
           let calls' := calls ++ [(fun_of g c, args)] in
           match r with
           | Ok x => call_loop swallow args w t (readd g' c one_shot) (results ++ [QValue x]) calls'
           | Err e => if swallow
                      then call_loop swallow args w t (readd g' c one_shot) (results ++ [QExn e]) calls'
                      else (g', Err e, calls')
           end
    end.
  (** callablegroup.py:156-191 *)
  Definition call (gather swallow : bool) (args : A) (w : world) (g : group)
    : group * res (option (list result)) * list (nat * A) :=
    let g1 := if has_cancelled_callbacks g then remove_cancelled g else g in
    match call_loop swallow args w (callables g1) (set_callables g1 []) [] [] with
    | (g', Ok results, calls) => (g', Ok (if gather then Some results else None), calls)
    | (g', Err e, calls) => (g', Err e, calls)
    end.

  Inductive group_op : Type :=
  | GAdd (fn : nat) (one_shot : bool) | GAddCallback (c : nat) (one_shot : bool) | GCancel (c : nat)
  | GCall (args : A) (w : world) | GHasCancelled | GRemoveCancelled.
  Inductive group_out : Type :=
  | OCallback (c : nat) | ODone | OCalled (r : res (option (list result))) (calls : list (nat * A)) | OFlag (b : bool).

  Definition group_step (gather swallow : bool) (g : group) (o : group_op) : group * group_out :=
    match o with
    | GAdd fn one_shot => let (g', c) := add g fn one_shot in (g', OCallback c)
    | GAddCallback c one_shot => (add_callback g c one_shot, OCallback c)
    | GCancel c => (cancel g c, ODone)
    | GCall args w => match call gather swallow args w g with (g', r, calls) => (g', OCalled r calls) end
    | GHasCancelled => (g, OFlag (has_cancelled_callbacks g))
    | GRemoveCancelled => (remove_cancelled g, ODone)
    end.
  Fixpoint group_run (gather swallow : bool) (g : group) (ops : list group_op) : list group_out * group :=
    match ops with
    | [] => ([], g)
    | o :: t => let (g', out) := group_step gather swallow g o in let (outs, g'') := group_run gather swallow g' t in (out :: outs, g'')
    end.
End Group.
Arguments GAdd {R A} fn one_shot.
Arguments GAddCallback {R A} c one_shot.
Arguments GCancel {R A} c.
Arguments GCall {R A} args w.
Arguments GHasCancelled {R A}.
Arguments GRemoveCancelled {R A}.
Arguments OCallback {R A} c.
Arguments ODone {R A}.
Arguments OCalled {R A} r calls.
Arguments OFlag {R A} b.
Arguments QNone {R}.
Arguments QValue {R} r.
Arguments QExn {R} e.

(** callablegroup.py:207-215 CallNoOftenThan: the clock before a call and after it. *)
Record no_often : Type := mk_no_often { interval : Z; last_called : Z }.
Definition new_no_often (interval : Z) : no_often := mk_no_often interval 0.
Definition no_often_call (n : no_often) (before after : Z) : no_often * bool :=
  if (interval n <=? before - last_called n)%Z then (mk_no_often (interval n) after, true) else (n, false).
Fixpoint no_often_run (n : no_often) (calls : list (Z * Z)) : list bool :=
  match calls with
  | [] => []
  | (before, after) :: t => let (n', called) := no_often_call n before after in called :: no_often_run n' t
  end.
