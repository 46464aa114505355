(** ExpiringEntryDict (satella/coding/structures/dictionaries/expiring.py) used by several threads, one of which may be the cleanup thread.
    The threads are those of MetrThr_Model. __setitem__, __delitem__ and cleanup hold the monitor of the dictionary, the others do not.
    time_getter() reads a clock that [Tick] moves. The heap of TimeBasedSetHeap (satella/coding/structures/heaps/time.py) is touched under
    the monitor only and always agrees with item_to_timestamp (C04), so that one dictionary [times] stands for both; its changes are the
    steps, since reads look into it without the monitor. Of several keys with the smallest time the first is popped, where the heap takes
    the smallest. Letting go of the monitor is part of the last step under it. Numbers without a file are lines of expiring.py. *)
From Verif Require Import Prelude MetrThr_Model.
Local Open Scope Z_scope.
Set Implicit Arguments.

Section ExpThr.
  Context {K V : Type}.
  Variable eqb : K -> K -> bool.
  Variable timeout : Z.

  (** 166-170: data, item_to_timestamp (time.py:187), the clock and whether the monitor is held *)
  Record exp_state : Type := { data : dict K V; times : dict K Z; clock : Z; locked : bool }.
  Definition empty_dict : exp_state := {| data := []; times := []; clock := 0; locked := false |}.
  Definition set_data (s : exp_state) d : exp_state := {| data := d; times := times s; clock := clock s; locked := locked s |}.
  Definition set_times (s : exp_state) d : exp_state := {| data := data s; times := d; clock := clock s; locked := locked s |}.
  Definition set_lock (s : exp_state) b : exp_state := {| data := data s; times := times s; clock := clock s; locked := b |}.

  (** d[k], d[k] = v, del d[k], k in d, d.cleanup(), len(d), and time that goes by *)
  Inductive call : Type := Get (k : K) | Set_ (k : K) (v : V) | Del (k : K) | In_ (k : K) | Cleanup | Len | Tick (n : nat).
  Inductive answer : Type := Nothing | Val (v : V) | Bool (b : bool) | Num (n : nat).
  (** who deletes: del, or `in` of an expired key *)
  Inductive deleter : Type := UserDel | InDel.
  (** who cleans: cleanup() or len() *)
  Inductive cleaner : Type := ForCleanup | ForLen.
  Inductive code : Type :=
  | GTime (k : K) | GNow (k : K) (ts : Z) | GDrop (k : K) | GRead (k : K)
  | SLock (k : K) (v : V) | SNow (k : K) (v : V) | SPop (k : K) (v : V) (ts : Z) | SPush (k : K) (v : V) (ts : Z) | SData (k : K) (v : V)
  | DLock (k : K) (w : deleter) | DPop (k : K) (w : deleter) | DData (k : K) (w : deleter)
  | ITime (k : K) | INow (k : K) (ts : Z)
  | CLock (w : cleaner) | CNow (w : cleaner) | CLoop (w : cleaner) (now : Z) | CDel (w : cleaner) (now : Z) (k : K)
  | LLen | TTick (n : nat).
  Definition first (d : call) : code :=
    match d with
    | Get k => GTime k              (* 216 *)
    | Set_ k v => SLock k v         (* 209-210 *)
    | Del k => DLock k UserDel      (* 223-224 *)
    | In_ k => ITime k              (* 181 *)
    | Cleanup => CLock ForCleanup   (* 203-204 *)
    | Len => CLock ForLen           (* 159 *)
    | Tick n => TTick n
    end.
  (** the entry popped first *)
  Fixpoint oldest (l : dict K Z) : option (K * Z) :=
    match l with
    | [] => None
    | (k, ts) :: r => match oldest r with Some (k', ts') => if ts' <? ts then Some (k', ts') else Some (k, ts) | None => Some (k, ts) end
    end.
  Definition exec (a : code) (s : exp_state) : exp_state * next code answer :=
    match a with
    | GTime k => (s, match dget eqb (times s) k with Some ts => Next (GNow k ts) | None => Raised KeyError end)        (* 214-216, time.py:172 *)
    | GNow k ts => (s, Next (if ts <? clock s then GDrop k else GRead k))                                              (* 217 *)
    | GDrop k => (set_data s (ddel eqb (data s) k), Raised KeyError)                                                   (* 218-219 *)
    | GRead k => (s, match dget eqb (data s) k with Some v => Returned (Val v) | None => Raised KeyError end)          (* 221 *)
    | SLock k v => if locked s then (s, Next (SLock k v)) else (set_lock s true, Next (SNow k v))                      (* 209 *)
    | SNow k v =>                                                                                                      (* 211, time.py:221 *)
      (s, Next (if dmem eqb (times s) k then SPop k v (clock s + timeout) else SPush k v (clock s + timeout)))
    | SPop k v ts => (set_times s (ddel eqb (times s) k), Next (SPush k v ts))                                         (* time.py:212-216, 222 *)
    | SPush k v ts => (set_times s (dset eqb (times s) k ts), Next (SData k v))                                        (* time.py:224-225 *)
    | SData k v => (set_lock (set_data s (dset eqb (data s) k v)) false, Returned Nothing)                             (* 212 *)
    | DLock k w => if locked s then (s, Next (DLock k w)) else (set_lock s true, Next (DPop k w))                      (* 223 *)
    | DPop k w =>                                                                                                      (* 225, time.py:212-218 *)
      if dmem eqb (times s) k then (set_times s (ddel eqb (times s) k), Next (DData k w)) else (set_lock s false, Raised ValueError)
    | DData k w =>                                                                                                     (* 226, 187 *)
      if dmem eqb (data s) k then (set_lock (set_data s (ddel eqb (data s) k)) false, Returned (match w with UserDel => Nothing | InDel => Bool false end))
      else (set_lock s false, Raised KeyError)
    | ITime k => (s, match dget eqb (times s) k with Some ts => Next (INow k ts) | None => Returned (Bool false) end)  (* 180-183 *)
    | INow k ts => (s, if ts <? clock s then Next (DLock k InDel) else Returned (Bool true))                           (* 185-189 *)
    | CLock w => if locked s then (s, Next (CLock w)) else (set_lock s true, Next (CNow w))                            (* 203 *)
    | CNow w => (s, Next (CLoop w (clock s)))                                                                          (* 206 *)
    | CLoop w now =>                                                                                                   (* 206, time.py:227-230, 262-265 *)
      match oldest (times s) with
      | Some (k, ts) =>
        if ts <? now then (set_times s (ddel eqb (times s) k), Next (CDel w now k))
        else (set_lock s false, match w with ForCleanup => Returned Nothing | ForLen => Next LLen end)
      | None => (set_lock s false, match w with ForCleanup => Returned Nothing | ForLen => Next LLen end)
      end
    | CDel w now k =>                                                                                                  (* 207 *)
      if dmem eqb (data s) k then (set_data s (ddel eqb (data s) k), Next (CLoop w now)) else (set_lock s false, Raised KeyError)
    | LLen => (s, Returned (Num (length (data s))))                                                                    (* 160 *)
    | TTick n => ({| data := data s; times := times s; clock := clock s + Z.of_nat n; locked := locked s |}, Returned Nothing)
    end.
  Definition exp_start (programs : nat -> list call) : config exp_state call code answer := start code answer empty_dict programs.
  Definition exp_run : config exp_state call code answer -> list nat -> config exp_state call code answer := run first exec.
End ExpThr.
Arguments call : clear implicits.
Arguments code : clear implicits.
Arguments answer : clear implicits.
Arguments exp_state : clear implicits.
Arguments Get {K V} k.
Arguments Del {K V} k.
Arguments In_ {K V} k.
Arguments Cleanup {K V}.
Arguments Len {K V}.
Arguments Tick {K V} n.
Arguments Nothing {V}.
Arguments Bool {V} b.
Arguments Num {V} n.
Arguments GTime {K V} k.
Arguments GNow {K V} k ts.
Arguments GDrop {K V} k.
Arguments GRead {K V} k.
Arguments DLock {K V} k w.
Arguments DPop {K V} k w.
Arguments DData {K V} k w.
Arguments ITime {K V} k.
Arguments INow {K V} k ts.
Arguments CLock {K V} w.
Arguments CNow {K V} w.
Arguments CLoop {K V} w now.
Arguments CDel {K V} w now k.
Arguments LLen {K V}.
Arguments TTick {K V} n.
