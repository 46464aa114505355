(** C87: counting what the users of a cache can see. *)
From Verif Require Import Prelude CacheDict_Model Writeback_Model.
Set Implicit Arguments.

Section Spec.
  Context {K V : Type}.
  Definition count {X} (f : X -> bool) (l : list X) : nat := length (filter f l).
  (** reads of the cache *)
  Definition is_get (o : cd_op K V) : bool := match o with CGet _ _ => true | _ => false end.
  (** a read that was answered without waiting for value_getter, and one that was not *)
  Definition at_once (out : cd_out K V) : bool := match out with COGot g => negb (g_called g) | _ => false end.
  Definition after_getter (out : cd_out K V) : bool := match out with COGot g => g_called g | _ => false end.
  (** a background refresh that took place *)
  Definition refreshed (e : cd_op K V * cd_out K V) : bool :=
    match e with (CComplete _ _ _, CORaise IndexError) => false | (CComplete _ _ _, _) => true | _ => false end.
  (** time_getter is time.monotonic, and does not advance during a call *)
  Definition same_clock (o : cd_op K V) : Prop := match o with CGet _ r => r_mono r = r_now r | _ => True end.

  Variable eqb : K -> K -> bool.
  (** the keys that were in the cache and are no more *)
  Definition gone (before after : list K) : list K := filter (fun k => negb (memb eqb k after)) before.

  Definition is_wget (o : wb_op K V) : bool := match o with WGet _ _ => true | _ => false end.
End Spec.

(** Operations that may put a value into the cache: setting, feeding, reading and refreshing with a getter that returns. *)
Definition storing {K V : Type} (o : cd_op K V) : Prop :=
  match o with
  | CSet _ _ _ | CFeed _ _ _ _ => True
  | CGet _ r => exists v, r_getter r = Ok v
  | CComplete _ g _ => exists v, g = Ok v
  | _ => False
  end.
