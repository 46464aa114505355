(** /repo/satella/coding/structures/dictionaries/writeback_cache.py:
    ExclusiveWritebackCache over a storage that is a finite map.  Calls of the
    user are atomic; the jobs submitted to the executor run atomically at later
    moments, in an order given by the schedule. *)
From Verif Require Import Prelude.

Set Implicit Arguments.

Section Writeback.
  Context {K V : Type}.
  Variable eqb : K -> K -> bool.
  Variable store_key_errors : bool.
  Variable deletable : bool.                    (* delete_method is not None *)

  (** a job: write_method(k, v) or delete_method(k); an exception of the latter
      stays in a future nobody looks at *)
  Inductive job := JWrite (k : K) (v : V) | JDelete (k : K).
  Definition run_job (store : dict K V) (j : job) : dict K V :=
    match j with
    | JWrite k v => dset eqb store k v
    | JDelete k => ddel eqb store k
    end.

  (** 39-51; [wb_store] is the storage, [wb_jobs] the jobs not yet run, oldest first *)
  Record wb := {
    wb_store : dict K V; wb_jobs : list job;
    wb_in : list K; wb_cache : dict K V; wb_ops : nat
  }.
  Definition wb_init (store : dict K V) : wb :=
    {| wb_store := store; wb_jobs := []; wb_in := []; wb_cache := []; wb_ops := 0 |}.

  (** 80-85 _operate *)
  Definition wb_operate (s : wb) : wb :=
    let n := S (wb_ops s) in
    if Nat.ltb 100 n
    then {| wb_store := wb_store s; wb_jobs := wb_jobs s; wb_in := dkeys (wb_cache s); wb_cache := wb_cache s; wb_ops := 0 |}
    else {| wb_store := wb_store s; wb_jobs := wb_jobs s; wb_in := wb_in s; wb_cache := wb_cache s; wb_ops := n |}.

  (** one worker finishes the i-th of the pending jobs *)
  Definition wb_run_nth (s : wb) (i : nat) : wb :=
    match nth_error (wb_jobs s) i with
    | None => s
    | Some j => {| wb_store := run_job (wb_store s) j; wb_jobs := del_nth i (wb_jobs s);
                   wb_in := wb_in s; wb_cache := wb_cache s; wb_ops := wb_ops s |}
    end.
  Definition wb_run_all (s : wb) : wb :=
    {| wb_store := fold_left run_job (wb_jobs s) (wb_store s); wb_jobs := [];
       wb_in := wb_in s; wb_cache := wb_cache s; wb_ops := wb_ops s |}.
  (** jobs finishing before a read job runs: None is all of them (one worker,
      or an executor that keeps the order), otherwise the listed ones *)
  Definition wb_before (s : wb) (sched : option (list nat)) : wb :=
    match sched with None => wb_run_all s | Some l => fold_left wb_run_nth l s end.

  Definition add_in (l : list K) (k : K) : list K := if memb eqb k l then l else l ++ [k].

  (** 87-105 __getitem__ *)
  Definition wb_getitem (s0 : wb) (k : K) (sched : option (list nat)) : wb * res V :=
    let s := wb_operate s0 in
    if negb (memb eqb k (wb_in s)) then
      let s1 := wb_before s sched in
      match dget eqb (wb_store s1) k with                 (* read_method *)
      | Some v => ({| wb_store := wb_store s1; wb_jobs := wb_jobs s1; wb_in := add_in (wb_in s1) k;
                      wb_cache := dset eqb (wb_cache s1) k v; wb_ops := wb_ops s1 |}, Ok v)
      | None => (if store_key_errors
                 then {| wb_store := wb_store s1; wb_jobs := wb_jobs s1; wb_in := add_in (wb_in s1) k;
                         wb_cache := wb_cache s1; wb_ops := wb_ops s1 |}
                 else s1, Err KeyError)
      end
    else (s, match dget eqb (wb_cache s) k with Some v => Ok v | None => Err KeyError end).

  (** 107-116 __delitem__ *)
  Definition wb_delitem (s : wb) (k : K) : wb * option exn :=
    if deletable then
      (wb_operate
        {| wb_store := wb_store s; wb_jobs := wb_jobs s ++ [JDelete k];
           wb_in := if store_key_errors then add_in (wb_in s) k else wb_in s;
           wb_cache := ddel eqb (wb_cache s) k; wb_ops := wb_ops s |}, None)
    else (s, Some TypeError).

  (** 118-123 __setitem__ *)
  Definition wb_setitem (s : wb) (k : K) (v : V) : wb :=
    wb_operate
      {| wb_store := wb_store s; wb_jobs := wb_jobs s ++ [JWrite k v]; wb_in := add_in (wb_in s) k;
         wb_cache := dset eqb (wb_cache s) k v; wb_ops := wb_ops s |}.

  (** [WRun i]: a worker finishes a job. [WSync]: sync() (65-78), and then the
      storage is inspected. *)
  Inductive wb_op :=
  | WGet (k : K) (sched : option (list nat))
  | WSet (k : K) (v : V)
  | WDel (k : K)
  | WRun (i : nat)
  | WSync.
  Inductive wb_out :=
  | WONone
  | WOVal (v : V)
  | WOStore (d : dict K V)
  | WORaise (e : exn).

  Definition wb_step (s : wb) (o : wb_op) : wb * wb_out :=
    match o with
    | WGet k sched => match wb_getitem s k sched with
                      | (s', Ok v) => (s', WOVal v)
                      | (s', Err e) => (s', WORaise e)
                      end
    | WSet k v => (wb_setitem s k v, WONone)
    | WDel k => match wb_delitem s k with
                | (s', None) => (s', WONone)
                | (s', Some e) => (s', WORaise e)
                end
    | WRun i => (wb_run_nth s i, WONone)
    | WSync => let s' := wb_run_all s in (s', WOStore (wb_store s'))
    end.

  Fixpoint wb_run (s : wb) (ops : list wb_op) : list wb_out * wb :=
    match ops with
    | [] => ([], s)
    | o :: t => let (s1, out) := wb_step s o in
                let (outs, s') := wb_run s1 t in (out :: outs, s')
    end.
End Writeback.
Arguments wb : clear implicits.
Arguments wb_op : clear implicits.
Arguments wb_out : clear implicits.
