(** What is expected of an LRUCacheDict that several threads use. The cache the calls of which do not overlap is that of CacheDict_Model. *)
From Verif Require Import Prelude CacheDict_Model MetrThr_Model MetrThr_Spec LruThr_Model.
Set Implicit Arguments.

Section LruThrSpec.
  Context {K V : Type}.
  Variable eqb : K -> K -> bool.
  Variable max_size : nat.
  Variable getter : K -> option V.
  (** a LRUCacheDict of that size, with the time standing still *)
  Definition still : cfg V := {| c_stale := 0; c_exp := 0; c_fail := None; c_default := None; c_max := Some max_size |}.
  Definition asked (k : K) : res V := match getter k with Some v => Ok v | None => Err KeyError end.
  Definition as_op (d : call K V) : cd_op K V :=
    match d with
    | Get k => CGet k {| r_mono := 0; r_now := 0; r_getter := asked k; r_done := 0 |}
    | Set_ k v => CSet k v 0
    | Feed k v => CFeed k v None 0
    | Del k => CDel k
    | Invalidate k => CInvalidate k
    end.
  Definition as_result (o : cd_out K V) : res (option V) :=
    match o with
    | COGot g => match g_res g with Ok v => Ok (Some v) | Err e => Err e end
    | CORaise e => Err e
    | _ => Ok None
    end.
  Definition as_cache (s : lru_state K V) : cst K V :=
    {| cd_data := data s; cd_ts := map (fun k => (k, 0%Z)) (stamps s); cd_missed := []; cd_lru := lru s; cd_pending := [] |}.
  (** what the calls give one after the other *)
  Definition one_by_one (l : list (call K V)) : list (res (option V)) * cst K V :=
    let (outs, s) := cd_run eqb still cd_init (map as_op l) in (map as_result outs, s).
  (** a value was put under the key *)
  Definition written (programs : nat -> list (call K V)) (k : K) (v : V) : Prop := exists t, In (Set_ k v) (programs t) \/ In (Feed k v) (programs t).
  Definition key (d : call K V) : K := match d with Get k | Set_ k _ | Feed k _ | Del k | Invalidate k => k end.
  (** nothing is deleted: reads of keys value_getter knows, and writes *)
  Definition keeps (d : call K V) : Prop := match d with Get k => getter k <> None | Set_ _ _ | Feed _ _ => True | Del _ | Invalidate _ => False end.
End LruThrSpec.
