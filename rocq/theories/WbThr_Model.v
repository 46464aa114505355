(** ExclusiveWritebackCache (satella/coding/structures/dictionaries/writeback_cache.py) used by several threads, over a storage that
    is a dictionary. The threads are those of MetrThr_Model: a call consists of steps, and between two of them any other thread may
    run. [self.operations += 1] is a step that reads and a step that writes; the operations of dict and set are one step. Taking the
    lock and the first thing done under it are one step, which does nothing while another thread holds the lock; so are the last thing
    done under it and its release.

    The executor does the jobs one at a time in the order of submission (what happens otherwise is in Writeback_Model). A worker of it
    is a thread that calls [Work] again and again. read_method raises nothing but KeyError; what write_method and delete_method raise
    stays in a future nobody looks at. *)
From Verif Require Import Prelude MetrThr_Model.
Set Implicit Arguments.

Section WbThr.
  Context {K V : Type}.
  Variable eqb : K -> K -> bool.
  Variable store_key_errors : bool.
  Variable deletable : bool.                                    (* delete_method is not None *)

  Inductive job : Type := JWrite (k : K) (v : V) | JDelete (k : K) | JRead (k : K) (ticket : nat).
  (** writeback_cache.py:39-51. [store] is the storage, [jobs] the queue of the executor, [answers] what the read jobs returned, None
      for a KeyError; [locked]: somebody holds cache_lock. A set is a list of its elements. *)
  Record cache_state : Type := {
    store : dict K V; jobs : list job; answers : list (option (option V));
    in_cache : list K; cache : dict K V; operations : nat; locked : bool }.
  Definition opened (s : dict K V) : cache_state :=
    {| store := s; jobs := []; answers := []; in_cache := []; cache := []; operations := 0; locked := false |}.

  Definition set_store (s : cache_state) st js an : cache_state :=
    {| store := st; jobs := js; answers := an; in_cache := in_cache s; cache := cache s; operations := operations s; locked := locked s |}.
  Definition set_cache (s : cache_state) ic ca lo : cache_state :=
    {| store := store s; jobs := jobs s; answers := answers s; in_cache := ic; cache := ca; operations := operations s; locked := lo |}.
  Definition set_operations (s : cache_state) n lo : cache_state :=
    {| store := store s; jobs := jobs s; answers := answers s; in_cache := in_cache s; cache := cache s; operations := n; locked := lo |}.

  (** cache[k], cache[k] = v, del cache[k], and a worker of the executor taking its next job *)
  Inductive call : Type := Get (k : K) | Put (k : K) (v : V) | Del (k : K) | Work.
  (** what follows _operate() *)
  Inductive follow : Type := ThenGet (k : K) | Done.
  Inductive code : Type :=
  | ORead (w : follow) | OWrite (w : follow) (n : nat) | OTest (w : follow) | OSnap (w : follow) | OSet (w : follow) (ks : list K) | OZero (w : follow)
  | GTest (k : K) | GSubmit (k : K) | GWait (k : K) (ticket : nat) | GAdd (k : K) (v : V) | GStore (k : K) (v : V) | GMiss (k : K)
  | GLook (k : K) | GGive (k : K)
  | PStore (k : K) (v : V) | PAdd (k : K) (v : V) | PSubmit (k : K) (v : V)
  | DType (k : K) | DAdd (k : K) | DDrop (k : K) | DSubmit (k : K)
  | WTake.
  Definition first (c : call) : code :=
    match c with Get k => ORead (ThenGet k) | Put k v => PStore k v | Del k => DType k | Work => WTake end.
  Definition follows (w : follow) : next code (option V) :=
    match w with ThenGet k => Next (GTest k) | Done => Returned None end.

  Definition exec (a : code) (s : cache_state) : cache_state * next code (option V) :=
    match a with
    | ORead w => (s, Next (OWrite w (operations s)))                                                  (* 81 *)
    | OWrite w n => (set_operations s (S n) (locked s), Next (OTest w))
    | OTest w => (s, if Nat.ltb 100 (operations s) then Next (OSnap w) else follows w)                (* 82 *)
    | OSnap w =>                                                                                      (* 83-84 *)
      if locked s then (s, Next (OSnap w)) else (set_operations s (operations s) true, Next (OSet w (dkeys (cache s))))
    | OSet w ks => (set_cache s ks (cache s) true, Next (OZero w))                                    (* 84 *)
    | OZero w => (set_operations s 0 false, follows w)                                                (* 85 *)
    | GTest k => (s, if memb eqb k (in_cache s) then Next (GLook k) else Next (GSubmit k))            (* 89 *)
    | GSubmit k => (set_store s (store s) (jobs s ++ [JRead k (length (answers s))]) (answers s ++ [None]), Next (GWait k (length (answers s))))  (* 91 *)
    | GWait k i =>                                                                                    (* 91, 96 *)
      (s, match nth_error (answers s) i with
          | Some (Some (Some v)) => Next (GAdd k v)
          | Some (Some None) => Next (GMiss k)
          | _ => Next (GWait k i)
          end)
    | GAdd k v => if locked s then (s, Next (GAdd k v)) else (set_cache s (k :: in_cache s) (cache s) true, Next (GStore k v))                 (* 92-93 *)
    | GStore k v => (set_cache s (in_cache s) (dset eqb (cache s) k v) false, Returned (Some v))      (* 94-95 *)
    | GMiss k =>                                                                                      (* 97-100 *)
      if store_key_errors then
        if locked s then (s, Next (GMiss k)) else (set_cache s (k :: in_cache s) (cache s) false, Raised KeyError)
      else (s, Raised KeyError)
    | GLook k => (s, if negb (dmem eqb (cache s) k) && store_key_errors then Raised KeyError else Next (GGive k))   (* 102-103 *)
    | GGive k => (s, match dget eqb (cache s) k with Some v => Returned (Some v) | None => Raised KeyError end)    (* 105 *)
    | PStore k v => if locked s then (s, Next (PStore k v)) else (set_cache s (in_cache s) (dset eqb (cache s) k v) true, Next (PAdd k v))     (* 119-120 *)
    | PAdd k v => (set_cache s (k :: in_cache s) (cache s) false, Next (PSubmit k v))                 (* 121 *)
    | PSubmit k v => (set_store s (store s) (jobs s ++ [JWrite k v]) (answers s), Next (ORead Done))  (* 122-123 *)
    | DType k => (s, if deletable then Next (DAdd k) else Raised TypeError)                           (* 108-109 *)
    | DAdd k =>                                                                                       (* 110-112 *)
      if store_key_errors then
        if locked s then (s, Next (DAdd k)) else (set_cache s (k :: in_cache s) (cache s) false, Next (DDrop k))
      else (s, Next (DDrop k))
    | DDrop k => (set_cache s (in_cache s) (ddel eqb (cache s) k) (locked s), Next (DSubmit k))       (* 113-114 *)
    | DSubmit k => (set_store s (store s) (jobs s ++ [JDelete k]) (answers s), Next (ORead Done))     (* 115-116 *)
    | WTake =>
      match jobs s with
      | [] => (s, Returned None)
      | JWrite k v :: r => (set_store s (dset eqb (store s) k v) r (answers s), Returned None)
      | JDelete k :: r => (set_store s (ddel eqb (store s) k) r (answers s), Returned None)
      | JRead k i :: r => (set_store s (store s) r (upd (answers s) i (Some (dget eqb (store s) k))), Returned None)
      end
    end.
  Definition wb_start (s : dict K V) (programs : nat -> list call) : config cache_state call code (option V) :=
    start code (option V) (opened s) programs.
  Definition wb_run : config cache_state call code (option V) -> list nat -> config cache_state call code (option V) := run first exec.
End WbThr.
Arguments call : clear implicits.
Arguments code : clear implicits.
Arguments cache_state : clear implicits.
