(** /repo/satella/coding/structures/syncable_droppable.py: SyncableDroppable.
    Keys are integers. The database behind DBStorage (13-79) is a list of entries
    in key order: put() inserts, iterate(k) reads the entries from k on,
    iterate(None) all of them, delete() removes. An iterator reads the database
    as it is when the iteration starts. The values passed to the on_change_*
    callbacks are what a later instance is constructed with. *)
From Verif Require Import Prelude.
Set Implicit Arguments.
Open Scope Z_scope.

Section Syncable.
  Context {V : Type}.
  Definition entry := (Z * V)%type.

  (** the database *)
  Fixpoint db_put (db : list entry) (k : Z) (v : V) : list entry :=
    match db with
    | [] => [(k, v)]
    | (k', v') :: t => if k <? k' then (k, v) :: db
                       else if k =? k' then (k, v) :: t
                       else (k', v') :: db_put t k v
    end.
  Definition db_iterate (db : list entry) (from : option Z) : list entry :=
    match from with None => db | Some k => filter (fun e => k <=? fst e) db end.
  Definition db_delete (db : list entry) (k : Z) : list entry := filter (fun e => negb (fst e =? k)) db.

  (** 111-150; the spans are parameters *)
  Record sd := {
    sd_start : option Z; sd_stop : option Z; sd_synced : option Z;
    sd_mem : list entry; sd_db : list entry
  }.
  Variables span_mem span_db : Z.
  Definition sd_init (db : list entry) (start stop synced : option Z) : sd :=
    {| sd_start := start; sd_stop := stop; sd_synced := synced; sd_mem := []; sd_db := db |}.

  Definition set_start s x := {| sd_start := x; sd_stop := sd_stop s; sd_synced := sd_synced s; sd_mem := sd_mem s; sd_db := sd_db s |}.
  Definition set_stop s x := {| sd_start := sd_start s; sd_stop := x; sd_synced := sd_synced s; sd_mem := sd_mem s; sd_db := sd_db s |}.
  Definition set_synced s x := {| sd_start := sd_start s; sd_stop := sd_stop s; sd_synced := x; sd_mem := sd_mem s; sd_db := sd_db s |}.
  Definition set_mem s x := {| sd_start := sd_start s; sd_stop := sd_stop s; sd_synced := sd_synced s; sd_mem := x; sd_db := sd_db s |}.
  Definition set_db s x := {| sd_start := sd_start s; sd_stop := sd_stop s; sd_synced := sd_synced s; sd_mem := sd_mem s; sd_db := x |}.

  Definition db_put_all (db : list entry) (l : list entry) : list entry :=
    fold_left (fun db e => db_put db (fst e) (snd e)) l db.

  (** 397-402 first_key_in_memory *)
  Definition first_key (s : sd) : option Z := match sd_mem s with [] => None | e :: _ => Some (fst e) end.

  (** 152-159 sync_to_db *)
  Definition sd_sync_to_db (s : sd) : sd := set_mem (set_db s (db_put_all (sd_db s) (sd_mem s))) [].

  (** 254-273 cleanup_keep_in_memory. [None] for stop_entry while there is data
      would be a TypeError; it does not happen. *)
  Fixpoint split_at (cutoff : Z) (before l : list entry) : option (list entry * list entry) :=
    match l with
    | [] => None
    | (ts, v) :: t => if cutoff <? ts then Some (before, (ts, v) :: t) else split_at cutoff (before ++ [(ts, v)]) t
    end.
  Definition sd_cleanup_mem (s : sd) : sd :=
    match first_key s with
    | None => s
    | Some _ =>
      match sd_stop s with
      | None => s
      | Some stop =>
        match split_at (stop - span_mem) [] (sd_mem s) with
        | Some (out, keep) => set_mem (set_db s (db_put_all (sd_db s) out)) keep
        | None => sd_sync_to_db s
        end
      end
    end.

  (** 172-201 _cleanup_the_db; the boolean is the answer *)
  Fixpoint cleanup_db_loop (cutoff : Z) (l : list entry) (s : sd) : sd * bool :=
    match l with
    | [] => match sd_mem s with
            | e :: _ => (set_start s (Some (fst e)), true)
            | [] => (set_stop (set_start s None) None, true)
            end
    | (k, _) :: t => if k <? cutoff then cleanup_db_loop cutoff t (set_db s (db_delete (sd_db s) k))
                     else (set_start s (Some k), false)
    end.
  Definition cleanup_the_db (s : sd) : sd * bool :=
    match sd_start s, sd_stop s with
    | Some start, Some stop => cleanup_db_loop (stop - span_db) (db_iterate (sd_db s) (Some start)) s
    | _, _ => (s, false)
    end.
  Definition oeqb (a b : option Z) : bool :=
    match a, b with Some x, Some y => x =? y | None, None => true | _, _ => false end.
  (** 275-293 cleanup_keep_in_db. The recursive call in line 293 comes after
      start_entry was set to the first key in memory, so one unfolding decides
      it; [fuel] is the number of calls and running out of it is visible. *)
  Fixpoint sd_cleanup_db (fuel : nat) (s : sd) : option sd :=
    match fuel with
    | O => None
    | S fuel =>
      match sd_start s, sd_mem s, sd_stop s with
      | Some _, _ :: _, Some stop =>
        if oeqb (sd_start s) (first_key s) then
          let mem := filter (fun e => stop - span_db <=? fst e) (sd_mem s) in
          match mem with
          | e :: _ => Some (set_start (set_mem s mem) (Some (fst e)))
          | [] => Some (set_stop (set_start (set_mem s mem) None) None)
          end
        else match cleanup_the_db s with
             | (s', false) => Some s'
             | (s', true) => sd_cleanup_db fuel s'
             end
      | _, _, _ => Some s
      end
    end.

  (** 295-312 on_new_data *)
  Definition sd_new (s : sd) (k : Z) (v : V) : sd * option exn :=
    let add := fun _ : unit =>
      let s1 := set_stop (set_mem s (sd_mem s ++ [(k, v)])) (Some k) in
      (match sd_start s1 with None => set_start s1 (Some k) | Some _ => s1 end, None) in
    match sd_stop s with
    | Some stop => if k <=? stop then (s, Some ValueError) else add tt
    | None => add tt
    end.

  (** 203-234 get_archive, consumed to the end *)
  Fixpoint between (start stop : Z) (l : list entry) : list entry * bool :=    (* true: a key past stop was met *)
    match l with
    | [] => ([], false)
    | (k, v) :: t => if k <? start then between start stop t
                     else if stop <? k then ([], true)
                     else let (r, b) := between start stop t in ((k, v) :: r, b)
    end.
  Definition sd_archive (s : sd) (start stop : Z) : list entry :=
    match first_key s with
    | None => []
    | Some f =>
      if f <=? start then fst (between start stop (sd_mem s))
      else match between start stop (db_iterate (sd_db s) (Some start)) with
           | (r, true) => r
           | (r, false) => r ++ fst (between f stop (sd_mem s))
           end
    end.

  (** 236-252 get_latest_value *)
  Definition sd_latest (s : sd) : res entry :=
    match sd_stop s with
    | None => Err ValueError
    | Some stop =>
      match sd_mem s with
      | e :: t => Ok (last t e)
      | [] => match db_iterate (sd_db s) (Some stop) with e :: _ => Ok e | [] => Err StopIteration end
      end
    end.

  (** 314-318 _assert_correctness: [not self.start_entry] also holds of the key 0 *)
  Definition sd_assert (s : sd) : option exn :=
    match sd_start s with
    | None => Some ValueError
    | Some x => if x =? 0 then Some ValueError
                else match rev (sd_mem s) with
                     | [] => Some IndexError
                     | e :: _ => if oeqb (sd_synced s) (Some (fst e)) then Some ValueError else None
                     end
    end.
  (** The number of entries asked for; None is math.inf. *)
  Definition less (n : nat) (mx : option nat) : bool := match mx with None => true | Some m => Nat.ltb n m end.
  Definition first_n {A} (mx : option nat) (l : list A) : list A := match mx with None => l | Some m => firstn m l end.
  (** 320-333 _on_sync_request_synced_up_none *)
  Definition sync_all (s : sd) (mx : option nat) : list entry :=
    let data := db_iterate (sd_db s) None in
    if less (length data) mx
    then data ++ first_n (option_map (fun m => m - length data)%nat mx) (sd_mem s)
    else data.
  (** 335-346 __append_item: [None] is Python's None, returned when the loop ends
      because enough entries were read. The index left by the loop over the
      memory is that of the first entry past synced_up_to. *)
  Fixpoint append_index (n : nat) (mx : option nat) (synced : option Z) (i : nat) (l : list entry) : nat :=
    match l with
    | [] => i - 1                                        (* the loop variable keeps its last value *)
    | e :: t => if negb (less n mx) then i
                else match synced with
                     | Some k => if k <? fst e then i else append_index n mx synced (S i) t
                     | None => append_index n mx synced (S i) t
                     end
    end.
  Fixpoint append_item (mx : option nat) (data l : list entry) (synced : option Z) (mem : list entry) : option (list entry) :=
    if less (length data) mx then
      match l with
      | e :: t => append_item mx (data ++ [e]) t synced mem
      | [] => Some (data ++ firstn (append_index (length data) mx synced 0 mem) mem)
      end
    else None.
  (** 348-368 _on_sync_request_synced_up_is_not_none; the memory is not empty here. bisect_right on the keys of the
      memory, which are sorted: the number of keys <= synced_up_to *)
  Definition sync_rest (s : sd) (mx : option nat) (synced : Z) : option (list entry) :=
    match first_key s with
    | None => None
    | Some f =>
      if f <=? synced then
        let index := length (filter (fun e => fst e <=? synced) (sd_mem s)) in
        Some (first_n mx (skipn index (sd_mem s)))
      else append_item mx [] (db_iterate (sd_db s) (sd_start s)) (Some synced) (sd_mem s)
    end.
  (** 370-387 on_sync_request *)
  Definition sd_sync_request (s : sd) (mx : option nat) : res (option (list entry)) :=
    match sd_assert s with
    | Some e => Err e
    | None => match sd_synced s with
              | None => Ok (Some (sync_all s mx))
              | Some k => Ok (sync_rest s mx k)
              end
    end.

  (** Calls. [SRestart]: the process ends and a new instance is made from the
      database and the values last reported by the callbacks. *)
  Inductive sd_op :=
  | SNew (k : Z) (v : V) | SSyncToDb | SCleanupMem | SCleanupDb | SCleanup
  | SArchive (start stop : Z) | SLatest | SSyncRequest (mx : option nat) | SSyncedUpTo (k : Z)
  | SStart | SStop | SFirstInMemory | SRestart.
  Inductive sd_out :=
  | SONone | SOKey (k : option Z) | SOEntries (l : list entry) | SOEntry (e : entry) | SONoIterator | SORaise (e : exn).

  Definition sd_step (s : sd) (o : sd_op) : sd * sd_out :=
    match o with
    | SNew k v => let (s', e) := sd_new s k v in (s', match e with None => SONone | Some e => SORaise e end)
    | SSyncToDb => (sd_sync_to_db s, SONone)
    | SCleanupMem => (sd_cleanup_mem s, SONone)
    | SCleanupDb => match sd_cleanup_db 2 s with Some s' => (s', SONone) | None => (s, SORaise Diverges) end
    | SCleanup => (s, SONone)                                          (* 161-170 *)
    | SArchive a b => (s, SOEntries (sd_archive s a b))
    | SLatest => (s, match sd_latest s with Ok e => SOEntry e | Err e => SORaise e end)
    | SSyncRequest mx => (s, match sd_sync_request s mx with
                             | Ok (Some l) => SOEntries l
                             | Ok None => SONoIterator
                             | Err e => SORaise e
                             end)
    | SSyncedUpTo k => (set_synced s (Some k), SONone)                 (* 389-395 *)
    | SStart => (s, SOKey (sd_start s))
    | SStop => (s, SOKey (sd_stop s))
    | SFirstInMemory => (s, SOKey (first_key s))
    | SRestart => (sd_init (sd_db s) (sd_start s) (sd_stop s) (sd_synced s), SONone)
    end.
  Fixpoint sd_run (s : sd) (ops : list sd_op) : list sd_out * sd :=
    match ops with
    | [] => ([], s)
    | o :: t => let (s1, out) := sd_step s o in
                let (outs, s') := sd_run s1 t in (out :: outs, s')
    end.
End Syncable.
Arguments entry : clear implicits.
Arguments sd : clear implicits.
Arguments sd_op : clear implicits.
Arguments sd_out : clear implicits.
