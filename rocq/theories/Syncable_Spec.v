(** Specification of SyncableDroppable: a time series, part of it durable. *)
From Verif Require Import Prelude Syncable_Model.
Set Implicit Arguments.
Open Scope Z_scope.

Section SyncableSpec.
  Context {V : Type}.
  Variables span_mem span_db : Z.

  (** keys strictly increasing *)
  Fixpoint increasing (l : list (Z * V)) : Prop :=
    match l with
    | [] => True
    | e :: t => (forall e', In e' t -> fst e < fst e') /\ increasing t
    end.

  (** what is in the database, what only in memory, the highest key ever
      accepted, the synchronization mark, and whether a restart lost entries *)
  Record series := { durable : list (Z * V); volatile : list (Z * V);
                     highest : option Z; mark : option Z; lost : bool }.
  Definition kept (s : series) : list (Z * V) := durable s ++ volatile s.
  Definition last_of {A} (l : list A) : option A := nth_error l (length l - 1).
  Definition first_of {A} (l : list A) : option A := nth_error l 0.
  Definition key_of (e : option (Z * V)) : option Z := option_map fst e.

  (** the series found in the database by a new instance *)
  Definition series0 (db : list (Z * V)) (synced : option Z) : series :=
    {| durable := db; volatile := []; highest := key_of (last_of db); mark := synced; lost := false |}.

  Definition accepts (s : series) (k : Z) : bool :=
    match highest s with None => true | Some h => h <? k end.
  (** entries not yet synchronized *)
  Definition pending (s : series) : list (Z * V) :=
    match mark s with None => kept s | Some m => filter (fun e => m <? fst e) (kept s) end.

  Definition answer (s : series) (o : sd_op V) : sd_out V :=
    match o with
    | SNew k _ => if accepts s k then SONone else SORaise ValueError
    | SArchive a b => SOEntries (filter (fun e => (a <=? fst e) && (fst e <=? b)) (kept s))
    | SLatest => match last_of (kept s) with Some e => SOEntry e | None => SORaise ValueError end
    | SSyncRequest mx => match pending s with
                         | [] => SORaise ValueError
                         | l => SOEntries (match mx with None => l | Some n => firstn n l end)
                         end
    | SStart => SOKey (key_of (first_of (kept s)))
    | SStop => SOKey (highest s)
    | SFirstInMemory => SOKey (key_of (first_of (volatile s)))
    | _ => SONone
    end.

  Definition after (s : series) (o : sd_op V) : series :=
    match o with
    | SNew k v => if accepts s k
                  then {| durable := durable s; volatile := volatile s ++ [(k, v)]; highest := Some k; mark := mark s; lost := lost s |}
                  else s
    | SSyncToDb => {| durable := kept s; volatile := []; highest := highest s; mark := mark s; lost := lost s |}
    (* the entries older than the span in memory become durable *)
    | SCleanupMem =>
      match highest s with
      | None => s
      | Some h => {| durable := durable s ++ filter (fun e => fst e <=? h - span_mem) (volatile s);
                     volatile := filter (fun e => h - span_mem <? fst e) (volatile s);
                     highest := highest s; mark := mark s; lost := lost s |}
      end
    (* the entries older than the span in the database are dropped, if anything is in memory *)
    | SCleanupDb =>
      match highest s, volatile s with
      | Some h, _ :: _ => {| durable := filter (fun e => h - span_db <=? fst e) (durable s);
                             volatile := filter (fun e => h - span_db <=? fst e) (volatile s);
                             highest := highest s; mark := mark s; lost := lost s |}
      | _, _ => s
      end
    | SSyncedUpTo k => {| durable := durable s; volatile := volatile s; highest := highest s; mark := Some k; lost := lost s |}
    | SRestart => {| durable := durable s; volatile := []; highest := highest s; mark := mark s;
                     lost := lost s || negb (match volatile s with [] => true | _ => false end) |}
    | _ => s
    end.

  (** Where the class answers otherwise: reading the archive while nothing is in
      memory; the bookkeeping after a restart that lost entries; and
      synchronization requests when nothing is in memory, when the series starts
      at key 0, when the database alone holds more than asked for, or when the
      mark is before the first entry in memory or after the last. *)
  Definition as_documented (s : series) (o : sd_op V) : Prop :=
    match o with
    | SArchive _ _ => volatile s <> [] \/ durable s = []
    | SLatest | SStart => lost s = false
    | SSyncRequest mx =>
      lost s = false /\
      (kept s = [] \/
       (volatile s <> [] /\ key_of (first_of (kept s)) <> Some 0 /\
        match mark s with
        | None => match mx with None => True | Some n => (length (durable s) <= n)%nat end
        | Some m => exists f l, key_of (first_of (volatile s)) = Some f /\ highest s = Some l /\ f <= m <= l
        end))
    | _ => True
    end.

  (** Every call takes effect as specified. It is answered as specified too,
      without exception ([strict]) or where the class does as documented. *)
  Fixpoint sd_session (strict : bool) (s : series) (ops : list (sd_op V)) (outs : list (sd_out V)) : Prop :=
    match ops, outs with
    | [], [] => True
    | o :: ops', out :: outs' =>
      (strict = true \/ as_documented s o -> out = answer s o) /\ sd_session strict (after s o) ops' outs'
    | _, _ => False
    end.

  (** What the class answers, situation by situation, unless a restart lost
      entries. [within n mx]: n entries are fewer than asked for. *)
  Definition within (n : nat) (mx : option nat) : bool := match mx with None => true | Some m => Nat.ltb n m end.
  Definition at_most (mx : option nat) (l : list (Z * V)) : list (Z * V) := match mx with None => l | Some m => firstn m l end.
  Definition really (s : series) (o : sd_op V) : sd_out V :=
    match o, volatile s with
    (* with nothing in memory the archive is empty *)
    | SArchive _ _, [] => SOEntries []
    | SSyncRequest mx, inmem =>
      match kept s, inmem with
      | [], _ => SORaise ValueError
      | e :: _, [] => SORaise (if fst e =? 0 then ValueError else IndexError)
      | e :: _, f :: _ =>
        if fst e =? 0 then SORaise ValueError
        else match mark s, highest s with
             (* never synchronized: the database, whatever its length, and as much of the memory as is still asked for *)
             | None, _ => SOEntries (durable s ++ match mx with None => inmem | Some m => firstn (m - length (durable s)) inmem end)
             | Some m, Some h =>
               if m =? h then SORaise ValueError
               (* synchronized up to an entry in memory *)
               else if fst f <=? m then SOEntries (at_most mx (filter (fun x => m <? fst x) inmem))
               (* otherwise the database again, and nothing of the memory; or None *)
               else if within (length (durable s)) mx then SOEntries (durable s) else SONoIterator
             | Some _, None => SORaise ValueError
             end
      end
    | _, _ => answer s o
    end.
  Fixpoint sd_really (s : series) (ops : list (sd_op V)) (outs : list (sd_out V)) : Prop :=
    match ops, outs with
    | [], [] => True
    | o :: ops', out :: outs' => (lost s = false -> out = really s o) /\ sd_really (after s o) ops' outs'
    | _, _ => False
    end.

  (** the entries accepted in a session: those of the on_new_data calls that did not raise *)
  Fixpoint accepted (ops : list (sd_op V)) (outs : list (sd_out V)) : list (Z * V) :=
    match ops, outs with
    | SNew k v :: ops', SONone :: outs' => (k, v) :: accepted ops' outs'
    | _ :: ops', _ :: outs' => accepted ops' outs'
    | _, _ => []
    end.

  (** sessions in which the process only ends when nothing was received since
      the last sync_to_db *)
  Definition clean_after (clean : bool) (o : sd_op V) : bool :=
    match o with SNew _ _ => false | SSyncToDb => true | _ => clean end.
  Fixpoint orderly (clean : bool) (ops : list (sd_op V)) : bool :=
    match ops with
    | [] => true
    | o :: t => (match o with SRestart => clean | _ => true end) && orderly (clean_after clean o) t
    end.
End SyncableSpec.
Arguments series : clear implicits.
