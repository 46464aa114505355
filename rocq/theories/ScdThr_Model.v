(** SelfCleaningDefaultDict (satella/coding/structures/dictionaries/expiring.py:60-136) used by several threads, one of which may be the
    cleanup thread. The threads are those of MetrThr_Model. __getitem__, __setitem__ and cleanup hold the monitor of the dictionary, __delitem__
    does not, nor does the end of __len__. Values do not change while they are in the dictionary; [zero] is the default value, and every value
    that default_factory() makes. list(self.data.keys()), reading, storing and deleting an item are one step each; letting go of the monitor is
    part of the last step under it. Iteration is not modelled (C93). Numbers are lines of expiring.py. *)
From Verif Require Import Prelude MetrThr_Model.
Set Implicit Arguments.

Section ScdThr.
  Context {K V : Type}.
  Variable eqb : K -> K -> bool.
  Variable veqb : V -> V -> bool.            (* == of values *)
  Variable zero : V.                         (* 93-94 *)
  Variable background : bool.                (* background_maintenance, 96 *)

  (** 91-92: data and whether the monitor is held *)
  Record scd_state : Type := { data : dict K V; locked : bool }.
  Definition empty_scd : scd_state := {| data := []; locked := false |}.
  Definition set_data (s : scd_state) d : scd_state := {| data := d; locked := locked s |}.
  Definition set_lock (s : scd_state) b : scd_state := {| data := data s; locked := b |}.

  (** d[k], d[k] = v, del d[k], d.cleanup(), len(d) *)
  Inductive call : Type := Get (k : K) | Set_ (k : K) (v : V) | Del (k : K) | Cleanup | Len.
  Inductive answer : Type := Nothing | Val (v : V) | Num (n : nat).
  (** who cleans: cleanup() or len() *)
  Inductive cleaner : Type := ForCleanup | ForLen.
  Inductive code : Type :=
  | GLock (k : K) | GRead (k : K) | GDrop (k : K) (v : V) | GMake (k : K)
  | SLock (k : K) (v : V) | SIn (k : K) (v : V) | SDrop (k : K) (v : V) | SPut (k : K) (v : V)
  | DIn (k : K) | DDrop (k : K)
  | CLock (w : cleaner) | CKeys (w : cleaner) | CLoop (w : cleaner) (l : list K) | CDrop (w : cleaner) (k : K) (l : list K)
  | LLen.
  Definition first (d : call) : code :=
    match d with
    | Get k => GLock k              (* 108-109 *)
    | Set_ k v => SLock k v         (* 121-122 *)
    | Del k => DIn k                (* 104 *)
    | Cleanup => CLock ForCleanup   (* 131-133 *)
    | Len => CLock ForLen           (* 85-86 *)
    end.
  (** the cleanup ends *)
  Definition cleaned (w : cleaner) : next code answer := match w with ForCleanup => Returned Nothing | ForLen => Next LLen end.
  Definition exec (a : code) (s : scd_state) : scd_state * next code answer :=
    match a with
    | GLock k => if locked s then (s, Next (GLock k)) else (set_lock s true, Next (GRead k))                          (* 108 *)
    | GRead k =>                                                                                                      (* 111-114 *)
      match dget eqb (data s) k with
      | Some v => if veqb v zero then (s, Next (GDrop k v)) else (set_lock s false, Returned (Val v))
      | None => (s, Next (GMake k))
      end
    | GDrop k v =>                                                                                                    (* 113-115 *)
      if dmem eqb (data s) k then (set_lock (set_data s (ddel eqb (data s) k)) false, Returned (Val v)) else (s, Next (GMake k))
    | GMake k =>                                                                                                      (* 115-119 *)
      (set_lock (if background then s else set_data s (dset eqb (data s) k zero)) false, Returned (Val zero))
    | SLock k v => if locked s then (s, Next (SLock k v)) else (set_lock s true, Next (SIn k v))                      (* 121 *)
    | SIn k v =>                                                                                                      (* 123-125, 128 *)
      if veqb v zero then (if dmem eqb (data s) k then (s, Next (SDrop k v)) else (set_lock s false, Returned Nothing)) else (s, Next (SPut k v))
    | SDrop k v =>                                                                                                    (* 126 *)
      if dmem eqb (data s) k then (set_lock (set_data s (ddel eqb (data s) k)) false, Returned Nothing) else (set_lock s false, Raised KeyError)
    | SPut k v => (set_lock (set_data s (dset eqb (data s) k v)) false, Returned Nothing)                             (* 128-129 *)
    | DIn k => (s, if dmem eqb (data s) k then Next (DDrop k) else Returned Nothing)                                  (* 105 *)
    | DDrop k => if dmem eqb (data s) k then (set_data s (ddel eqb (data s) k), Returned Nothing) else (s, Raised KeyError)   (* 106 *)
    | CLock w => if locked s then (s, Next (CLock w)) else (set_lock s true, Next (CKeys w))                          (* 131 *)
    | CKeys w => (s, Next (CLoop w (dkeys (data s))))                                                                 (* 134 *)
    | CLoop w [] => (set_lock s false, cleaned w)
    | CLoop w (k :: l) =>                                                                                             (* 132, 135 *)
      match dget eqb (data s) k with
      | Some v => (s, Next (if veqb v zero then CDrop w k l else CLoop w l))
      | None => (set_lock s false, cleaned w)
      end
    | CDrop w k l =>                                                                                                  (* 132, 136 *)
      if dmem eqb (data s) k then (set_data s (ddel eqb (data s) k), Next (CLoop w l)) else (set_lock s false, cleaned w)
    | LLen => (s, Returned (Num (length (data s))))                                                                   (* 87 *)
    end.
  Definition scd_start (programs : nat -> list call) : config scd_state call code answer := start code answer empty_scd programs.
  Definition scd_run : config scd_state call code answer -> list nat -> config scd_state call code answer := run first exec.
End ScdThr.
Arguments call : clear implicits.
Arguments code : clear implicits.
Arguments answer : clear implicits.
Arguments scd_state : clear implicits.
Arguments Get {K V} k.
Arguments Del {K V} k.
Arguments Cleanup {K V}.
Arguments Len {K V}.
Arguments Nothing {V}.
Arguments Num {V} n.
Arguments GLock {K V} k.
Arguments GRead {K V} k.
Arguments GMake {K V} k.
Arguments DIn {K V} k.
Arguments DDrop {K V} k.
Arguments CLock {K V} w.
Arguments CKeys {K V} w.
Arguments CLoop {K V} w l.
Arguments CDrop {K V} w k l.
Arguments LLen {K V}.
