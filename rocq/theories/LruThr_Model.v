(** LRUCacheDict (satella/coding/structures/dictionaries/cache_dict.py, over satella/coding/structures/lru.py) used by several threads.
    There is no lock. The threads are those of MetrThr_Model: a call consists of steps, and between two of them any other thread may run;
    an operation of a dict, an OrderedDict or a set is one step. Failures are not remembered (cache_failures_interval is None), there
    is no default_value_factory, and nothing gets old: what becomes of stale values is in CacheThr_Model. [getter] is value_getter, None
    for a KeyError; waiting for it is one step. Numbers without a file are lines of cache_dict.py. *)
From Verif Require Import Prelude MetrThr_Model.
Set Implicit Arguments.

Section LruThr.
  Context {K V : Type}.
  Variable eqb : K -> K -> bool.
  Variable max_size : nat.
  Variable getter : K -> option V.

  (** cache_dict.py:130-139, 259-263. [stamps]: the keys of timestamp_data; [lru]: the keys of the OrderedDict, the first to be evicted first *)
  Record lru_state : Type := { data : dict K V; stamps : list K; lru : list K }.
  Definition empty_cache : lru_state := {| data := []; stamps := []; lru := [] |}.
  Definition set_data (s : lru_state) d : lru_state := {| data := d; stamps := stamps s; lru := lru s |}.
  Definition set_stamps (s : lru_state) l : lru_state := {| data := data s; stamps := l; lru := lru s |}.
  Definition set_lru (s : lru_state) l : lru_state := {| data := data s; stamps := stamps s; lru := l |}.
  (** a key set to something: where it is, or at the end *)
  Definition added (k : K) (l : list K) : list K := if memb eqb k l then l else l ++ [k].

  (** d[k], d[k] = v, d.feed(k, v), del d[k], d.invalidate(k) *)
  Inductive call : Type := Get (k : K) | Set_ (k : K) (v : V) | Feed (k : K) (v : V) | Del (k : K) | Invalidate (k : K).
  (** what a value is stored for: __setitem__, get_value_block, feed *)
  Inductive purpose : Type := User | Fetched | Fed.
  (** why a key is deleted: del, invalidate(), get_value_block, evict() while storing *)
  Inductive reason : Type := UserDel | UserInvalidate | Failed | Evicted (k : K) (v : V) (p : purpose).
  (** what follows lru.mark_as_used *)
  Inductive use : Type := UseGet | UseSet (v : V) (p : purpose).
  Inductive code : Type :=
  | CMark (k : K) (u : use) | CMove (k : K) (u : use) | CAdd (k : K) (u : use)
  | GIn (k : K) | GStamp (k : K) | GRead (k : K) | GAsk (k : K)
  | FIn (k : K) (v : V)
  | SRoom (k : K) (v : V) (p : purpose) | EPop (k : K) (v : V) (p : purpose)
  | SData (k : K) (v : V) (p : purpose) | SStamp (k : K) (v : V) (p : purpose) | SLru (k : K) (v : V) (p : purpose)
  | D1 (k : K) (r : reason) | D2 (k : K) (r : reason) | D3 (k : K) (r : reason) | D4 (k : K) (r : reason).
  Definition first (c : call) : code :=
    match c with
    | Get k => CMark k UseGet                     (* 293 *)
    | Set_ k v => SRoom k v User                  (* 318 *)
    | Feed k v => FIn k v                         (* 309 *)
    | Del k => D1 k UserDel                       (* 302 *)
    | Invalidate k => D1 k UserInvalidate         (* 289 *)
    end.
  Definition used (k : K) (u : use) : code := match u with UseGet => GIn k | UseSet v p => SData k v p end.
  (** the KeyError of a del statement: del passes it on, CacheDict.invalidate (191) silences it *)
  Definition not_there (k : K) (r : reason) : next code (option V) := match r with UserDel => Raised KeyError | _ => Next (D4 k r) end.
  Definition deleted (k : K) (r : reason) : next code (option V) := match r with UserDel => Returned None | _ => Next (D4 k r) end.

  Definition exec (a : code) (s : lru_state) : lru_state * next code (option V) :=
    match a with
    | CMark k u => (s, Next (if memb eqb k (lru s) then CMove k u else CAdd k u))                                            (* lru.py:28 *)
    | CMove k u =>                                                                                                           (* lru.py:31 *)
      if memb eqb k (lru s) then (set_lru s (remove_first eqb k (lru s) ++ [k]), Next (used k u)) else (s, Raised KeyError)
    | CAdd k u => (set_lru s (added k (lru s)), Next (used k u))                                                             (* lru.py:29 *)
    | GIn k => (s, Next (if dmem eqb (data s) k then GStamp k else GAsk k))                                                  (* 216-217 *)
    | GStamp k => (s, if memb eqb k (stamps s) then Next (GRead k) else Raised KeyError)                                     (* 219 *)
    | GRead k => (s, match dget eqb (data s) k with Some v => Returned (Some v) | None => Raised KeyError end)               (* 234 *)
    | GAsk k => (s, match getter k with Some v => Next (SRoom k v Fetched) | None => Next (D1 k Failed) end)                 (* 148-157, 297 *)
    | FIn k v => (s, Next (if dmem eqb (data s) k then SData k v Fed else SRoom k v Fed))                                    (* 309-310 *)
    | SRoom k v p =>                                                                                                         (* 269 *)
      (s, Next (if max_size <=? length (data s) then EPop k v p else match p with Fed => SData k v p | _ => CMark k (UseSet v p) end))
    | EPop k v p =>                                                                                                          (* 272-275, lru.py:37 *)
      match lru s with
      | [] => (s, Next (SRoom k v p))
      | k' :: l => (set_lru s l, Next (D1 k' (Evicted k v p)))
      end
    | SData k v p => (set_data s (dset eqb (data s) k v), Next (SStamp k v p))                                               (* 246, 94 *)
    | SStamp k v p =>                                                                                                        (* 247-249, 95 *)
      (set_stamps s (added k (stamps s)), match p with User => Returned None | _ => Next (SLru k v p) end)
    | SLru k v p => (set_lru s (added k (lru s)), Returned (match p with Fetched => Some v | _ => None end))                 (* 298-299, 312 *)
    | D1 k r => if dmem eqb (data s) k then (set_data s (ddel eqb (data s) k), Next (D2 k r)) else (s, not_there k r)        (* 237 *)
    | D2 k r => if memb eqb k (stamps s) then (set_stamps s (remove_first eqb k (stamps s)), Next (D3 k r)) else (s, not_there k r)   (* 238-240 *)
    | D3 k r => if memb eqb k (lru s) then (set_lru s (remove_first eqb k (lru s)), deleted k r) else (s, not_there k r)     (* 303 *)
    | D4 k r =>                                                                                                              (* 290, silenced by 277 *)
      (set_lru s (remove_first eqb k (lru s)),
       match r with Failed => Raised KeyError | Evicted k' v p => Next (SRoom k' v p) | _ => Returned None end)
    end.
  Definition lru_start (programs : nat -> list call) : config lru_state call code (option V) := start code (option V) empty_cache programs.
  Definition lru_run : config lru_state call code (option V) -> list nat -> config lru_state call code (option V) := run first exec.
End LruThr.
Arguments call : clear implicits.
Arguments code : clear implicits.
Arguments lru_state : clear implicits.
Arguments Get {K V} k.
Arguments Del {K V} k.
Arguments Invalidate {K V} k.
