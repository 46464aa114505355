(** C123: what a cache used by many threads is to do. *)
From Verif Require Import Prelude CacheDict_Model CacheThr_Model.
Set Implicit Arguments.

Section S.
  Variables K V : Type.
  (** in this execution [k] is never removed, by users *)
  Definition never_removed (k : K) (l : list (event K V)) : Prop :=
    forall t, ~ In (Call t (ODel k)) l /\ ~ In (Call t (OInvalidate k)) l.
  (** and the getter never says that there is none *)
  Definition never_missing (k : K) (w : world K V) : Prop := ~ In (k, Err KeyError) (asked w).
  (** a call that got [k] or stored it is over *)
  Definition stored_once (k : K) (w : world K V) : Prop :=
    exists t o r, In (t, o, r) (log w) /\ ((o = OGet k /\ exists v, r = RValue v) \/ (exists v, o = OSet k v /\ r = RDone)).
  (** a read that gives a value, or what else the getter raised *)
  Definition good_read (k : K) (w : world K V) (r : result V) : Prop :=
    (exists v, r = RValue v) \/ (exists e, r = RRaise e /\ e <> KeyError /\ In (k, Err e) (asked w)).
  (** what the caller sees of a method that gives a value or raises *)
  Definition seen (r : res V) : result V := match r with Ok v => RValue v | Err e => RRaise e end.
  (** From [w] the thread [t], and no other, runs [o] to its end: the cache is then [s] and the call gave [r]. The getter, if asked, answers [g];
      the clocks say [mono] and [now]. *)
  Definition alone_gives (eqb : K -> K -> bool) (c : cfg V) (w : world K V) (t : nat) (first : event K V) (g : res V) (mono now : Z)
      (s : cst K V) (o : op K V) (r : result V) : Prop :=
    exists n, let w' := exec eqb c w (first :: repeat (Turn t g mono now) n) in
      cache w' = s /\ log w' = log w ++ [(t, o, r)] /\ forall u, threads w' u = threads w u.
End S.
