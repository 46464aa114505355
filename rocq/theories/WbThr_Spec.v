(** What is expected of an ExclusiveWritebackCache that several threads use. *)
From Verif Require Import Prelude MetrThr_Model MetrThr_Spec WbThr_Model.
Set Implicit Arguments.

Section WbThrSpec.
  Context {K V : Type}.
  Variable eqb : K -> K -> bool.
  Variable deletable : bool.
  Definition key (c : call K V) : option K := match c with Get k | Put k _ | Del k => Some k | Work => None end.
  (** the ended calls about [k] *)
  Definition history (k : K) (log : list (call K V * res (option V))) : list (call K V * res (option V)) :=
    filter (fun e => match key (fst e) with Some k' => eqb k' k | None => false end) log.
  (** what a key of a dictionary holds after a call *)
  Definition after_call (held : option V) (c : call K V) : option V :=
    match c with Put _ v => Some v | Del _ => if deletable then None else held | Get _ | Work => held end.
  Definition value_after (held : option V) (h : list (call K V * res (option V))) : option V :=
    fold_left (fun x e => after_call x (fst e)) h held.
  Definition found (held : option V) : res (option V) := match held with Some v => Ok (Some v) | None => Err KeyError end.
  Definition answer (held : option V) (c : call K V) : res (option V) :=
    match c with
    | Get _ => found held
    | Put _ _ => Ok None
    | Del _ => if deletable then Ok None else Err TypeError
    | Work => Ok None
    end.
  (** every call ended as it does with a dictionary the key of which held [held] *)
  Fixpoint as_dict (held : option V) (h : list (call K V * res (option V))) : Prop :=
    match h with
    | [] => True
    | (c, r) :: t => r = answer held c /\ as_dict (after_call held c) t
    end.
  (** no two threads use the same key *)
  Definition apart (programs : nat -> list (call K V)) : Prop :=
    forall t u c d, In c (programs t) -> In d (programs u) -> key c <> None -> key c = key d -> t = u.
  (** whenever a thread begins a call about [k], no other thread is inside one *)
  Fixpoint in_turn (store_key_errors : bool) (k : K) (c : config (cache_state K V) (call K V) (code K V) (option V)) (schedule : list nat) : Prop :=
    match schedule with
    | [] => True
    | t :: r =>
      (forall d q, current c t = None -> todo c t = d :: q -> key d = Some k -> forall u e a, current c u = Some (e, a) -> key e <> Some k) /\
      in_turn store_key_errors k (turn (first (V := V)) (exec eqb store_key_errors deletable) c t) r
    end.
  (** nobody is inside a call and the executor has nothing to do *)
  Definition at_rest (c : config (cache_state K V) (call K V) (code K V) (option V)) : Prop := idle c /\ jobs (shared c) = [].
  Definition only_works (l : list (call K V)) : Prop := forall c, In c l -> c = Work.
End WbThrSpec.
