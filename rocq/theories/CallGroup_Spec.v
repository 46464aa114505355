(** What CallableGroup and CallNoOftenThan promise. *)
From Verif Require Import Prelude CallGroup_Model.
Set Implicit Arguments.

Section Spec.
  Variables R A : Type.

  (** Registered callbacks in the order of registration, each with its function and whether it is one-shot;
      callbacks that were cancelled; how many callbacks there are. *)
  Record registry : Type := mk_registry { registered : list (nat * (nat * bool)); gone : nat -> bool; functions : list nat }.
  Definition live (s : registry) : list (nat * (nat * bool)) := filter (fun e => negb (gone s (fst e))) (registered s).

  Definition cancels (w : world R) (c : nat) : list nat :=
    flat_map (fun e => match e with ECancel c => [c] | EAdd _ _ => [] end) (fst (w c)).
  (** The turns of a call: each live callback once, in order; one cancelled by an earlier one is passed over
      and contributes None. *)
  Fixpoint turns (w : world R) (gone : nat -> bool) (todo : list (nat * (nat * bool))) : list (nat * option (res R)) :=
    match todo with
    | [] => []
    | (c, (fn, _)) :: t =>
      if gone c then (fn, None) :: turns w gone t
      else (fn, Some (snd (w c))) :: turns w (fun x => memb Nat.eqb x (cancels w c) || gone x) t
    end.
  Fixpoint gone_after (w : world R) (gone : nat -> bool) (todo : list (nat * (nat * bool))) : nat -> bool :=
    match todo with
    | [] => gone
    | (c, _) :: t => if gone c then gone_after w gone t else gone_after w (fun x => memb Nat.eqb x (cancels w c) || gone x) t
    end.
  Definition functions_called (args : A) (ts : list (nat * option (res R))) : list (nat * A) :=
    flat_map (fun t => match snd t with Some _ => [(fst t, args)] | None => [] end) ts.
  Definition results (ts : list (nat * option (res R))) : list (result R) :=
    map (fun t => match snd t with Some (Ok r) => QValue r | Some (Err e) => QExn e | None => QNone end) ts.

  (** What a call gives as documented: every live callback is called, those that are not one-shot stay. *)
  Definition spec_step (gather : bool) (s : registry) (o : group_op R A) : registry * group_out R A :=
    match o with
    | GAdd fn one_shot => let c := length (functions s) in
                          (mk_registry (registered s ++ [(c, (fn, one_shot))]) (gone s) (functions s ++ [fn]), OCallback c)
    | GAddCallback c one_shot =>
      (if dmem Nat.eqb (registered s) c then s
       else mk_registry (registered s ++ [(c, (nth c (functions s) 0, one_shot))]) (gone s) (functions s), OCallback c)
    | GCancel c => (mk_registry (registered s) (fun x => Nat.eqb c x || gone s x) (functions s), ODone)
    | GCall args w =>
      let ts := turns w (gone s) (live s) in
      (mk_registry (filter (fun e => negb (snd (snd e))) (live s)) (gone_after w (gone s) (live s)) (functions s),
       OCalled (Ok (if gather then Some (results ts) else None)) (functions_called args ts))
    | GHasCancelled => (s, OFlag (existsb (fun e => gone s (fst e)) (registered s)))
    | GRemoveCancelled => (mk_registry (live s) (gone s) (functions s), ODone)
    end.
  Fixpoint spec_run (gather : bool) (s : registry) (ops : list (group_op R A)) : list (group_out R A) :=
    match ops with [] => [] | o :: t => let (s', out) := spec_step gather s o in out :: spec_run gather s' t end.
  Definition new_registry : registry := mk_registry [] (fun _ => false) [].

  (** Situations in which the code does as documented: a callback given out by add() is used; a group that is called has
      a live callback or none at all; no function adds to the group that calls it; exceptions are swallowed
      or there are none; has_cancelled_callbacks is not asked. *)
  Definition proper_op (swallow : bool) (s : registry) (o : group_op R A) : Prop :=
    match o with
    | GAdd _ _ | GCancel _ | GRemoveCancelled => True
    | GAddCallback c _ => c < length (functions s)
    | GCall _ w =>
      (live s <> [] \/ registered s = []) /\
      (forall c e, In e (fst (w c)) -> exists c', e = ECancel c') /\
      (swallow = true \/ forall c, exists r, snd (w c) = Ok r)
    | GHasCancelled => False
    end.
  Fixpoint proper (gather swallow : bool) (s : registry) (ops : list (group_op R A)) : Prop :=
    match ops with
    | [] => True
    | o :: t => proper_op swallow s o /\ proper gather swallow (fst (spec_step gather s o)) t
    end.
End Spec.
Arguments new_registry : clear implicits.

(** CallNoOftenThan: the times at which a function was called (and returned) *)
Fixpoint times_called (calls : list (Z * Z)) (called : list bool) : list (Z * Z) :=
  match calls, called with
  | c :: t, true :: r => c :: times_called t r
  | _ :: t, false :: r => times_called t r
  | _, _ => []
  end.
(** Between one call's return and the next call at least the interval passes. *)
Fixpoint apart (interval : Z) (l : list (Z * Z)) : Prop :=
  match l with
  | c1 :: ((c2 :: _) as t) => (snd c1 + interval <= fst c2)%Z /\ apart interval t
  | _ => True
  end.
