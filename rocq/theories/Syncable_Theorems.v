(** C15: theorems about SyncableDroppable. *)
From Verif Require Import Prelude Syncable_Model Syncable_Spec Syncable_Proofs.
Open Scope Z_scope.

(** a new instance over a database with the given entries *)
Local Notation opened db synced := (sd_init db (key_of (first_of db)) (key_of (last_of db)) synced).

(** C15: nothing is lost. After any calls and restarts, no restart coming
    between an arrival and the next sync_to_db, database and memory together
    hold entries with strictly increasing keys, all of them received, and among
    them every entry received that is not older than the retention span. *)
Theorem C15_nothing_is_lost :
  forall (V : Type) (span_mem span_db : Z), 0 < span_mem -> span_mem < span_db ->
  forall (db : list (Z * V)) (synced : option Z) (ops : list (sd_op V)), increasing db -> orderly true ops = true ->
    let (outs, s) := sd_run span_mem span_db (opened db synced) ops in
    increasing (sd_db s ++ sd_mem s) /\
    (forall e, In e (sd_db s ++ sd_mem s) -> In e db \/ In e (accepted ops outs)) /\
    (forall e, In e db \/ In e (accepted ops outs) ->
       (forall h, sd_stop s = Some h -> h - span_db <= fst e) -> In e (sd_db s ++ sd_mem s)).
Proof. exact @sd_nothing_lost. Qed.
Print Assumptions C15_nothing_is_lost.

(** C15, full statement (false, see below): every call takes effect and is
    answered as specified. *)
Definition C15_full_statement : Prop :=
  forall (V : Type) (span_mem span_db : Z), 0 < span_mem -> span_mem < span_db ->
  forall (db : list (Z * V)) (synced : option Z) (ops : list (sd_op V)), increasing db ->
    sd_session span_mem span_db true (series0 db synced) ops (fst (sd_run span_mem span_db (opened db synced) ops)).

(** C15, proved part: every call takes effect as specified (which keys are
    accepted, what is in the database and what in memory after each cleanup),
    and is answered as specified outside the situations listed in
    [as_documented]. *)
Theorem C15_series_partial :
  forall (V : Type) (span_mem span_db : Z), 0 < span_mem -> span_mem < span_db ->
  forall (db : list (Z * V)) (synced : option Z) (ops : list (sd_op V)), increasing db ->
    sd_session span_mem span_db false (series0 db synced) ops (fst (sd_run span_mem span_db (opened db synced) ops)).
Proof. exact @sd_session_ok. Qed.
Print Assumptions C15_series_partial.

Local Definition ex_db : list (Z * Z) := [(1, 10); (3, 30)].
Local Definition ex_ops : list (sd_op Z) :=
  [SNew 5 50; SNew 4 40; SNew 9 90; SArchive 2 8; SCleanupMem; SFirstInMemory; SNew 12 120; SArchive 4 12;
   SSyncRequest (Some 4%nat); SSyncRequest None; SSyncedUpTo 9; SSyncRequest None; SCleanupDb; SStart; SStop; SLatest; SSyncToDb;
   SRestart; SNew 12 0; SNew 13 130; SArchive 0 20].
Example C15_example :
  increasing ex_db /\ orderly true ex_ops = true /\
  fst (sd_run 4 8 (opened ex_db None) ex_ops) =
  [SONone; SORaise ValueError; SONone; SOEntries [(3, 30); (5, 50)]; SONone; SOKey (Some 9); SONone;
   SOEntries [(5, 50); (9, 90); (12, 120)]; SOEntries [(1, 10); (3, 30); (5, 50); (9, 90)];
   SOEntries [(1, 10); (3, 30); (5, 50); (9, 90); (12, 120)]; SONone; SOEntries [(12, 120)]; SONone;
   SOKey (Some 5); SOKey (Some 12); SOEntry (12, 120); SONone; SONone; SORaise ValueError; SONone;
   SOEntries [(5, 50); (9, 90); (12, 120); (13, 130)]].
Proof. split; [simpl; repeat split; intros e [<-|[]] || intros e []; simpl; lia|split; vm_compute; reflexivity]. Qed.

(** C15, what is answered instead: the answer to every call in every situation, unless a restart lost entries. *)
Theorem C15_really :
  forall (V : Type) (span_mem span_db : Z), 0 < span_mem -> span_mem < span_db ->
  forall (db : list (Z * V)) (synced : option Z) (ops : list (sd_op V)), increasing db ->
    sd_really span_mem span_db (series0 db synced) ops (fst (sd_run span_mem span_db (opened db synced) ops)).
Proof. exact @sd_really_ok. Qed.
Print Assumptions C15_really.
Example C15_really_case :
  fst (sd_run 4 8 (opened ex_db (Some 1)) [SSyncRequest None; SNew 5 50; SSyncRequest None; SSyncRequest (Some 2%nat); SSyncedUpTo 5; SSyncRequest None;
        SNew 6 60; SSyncRequest (Some 0%nat); SSyncRequest None]) =
  [SORaise IndexError; SONone; SOEntries ex_db; SONoIterator; SONone; SORaise ValueError; SONone; SOEntries []; SOEntries [(6, 60)]].
Proof. reflexivity. Qed.

(** With nothing in memory the archive reads as empty, although the database has it. *)
Theorem C15_archive_refuted :
  fst (sd_run 4 8 (opened ex_db None) [SArchive 0 10; SNew 5 50; SSyncToDb; SArchive 0 10])
  = [SOEntries []; SONone; SONone; SOEntries []].
Proof. vm_compute. reflexivity. Qed.
Print Assumptions C15_archive_refuted.

(** A synchronization request with nothing in memory raises IndexError. *)
Theorem C15_sync_request_raises_refuted :
  fst (sd_run 4 8 (opened ex_db None) [SSyncRequest None]) = [SORaise IndexError].
Proof. vm_compute. reflexivity. Qed.
Print Assumptions C15_sync_request_raises_refuted.

(** More entries are returned than asked for, when the database holds them. *)
Theorem C15_too_many_entries_refuted :
  fst (sd_run 4 8 (opened ex_db None) [SNew 5 50; SSyncRequest (Some 1%nat)])
  = [SONone; SOEntries ex_db].
Proof. vm_compute. reflexivity. Qed.
Print Assumptions C15_too_many_entries_refuted.

(** When unsynchronized entries are in the database, the request returns all of
    the database, the synchronized entries included, and none of the memory; or
    no iterator at all. *)
Theorem C15_wrong_entries_refuted :
  fst (sd_run 4 8 (opened ex_db (Some 1)) [SNew 5 50; SSyncRequest None; SSyncRequest (Some 2%nat)])
  = [SONone; SOEntries ex_db; SONoIterator].
Proof. vm_compute. reflexivity. Qed.
Print Assumptions C15_wrong_entries_refuted.

(** A series starting at key 0 is never synchronized. *)
Theorem C15_key_zero_refuted :
  fst (sd_run 4 8 (opened ([] : list (Z * Z)) None) [SNew 0 10; SNew 1 20; SSyncRequest None]) = [SONone; SONone; SORaise ValueError].
Proof. vm_compute. reflexivity. Qed.
Print Assumptions C15_key_zero_refuted.

Theorem C15_full_statement_refuted : ~ C15_full_statement.
Proof.
  intros H. specialize (H Z 4 8 ltac:(lia) ltac:(lia) ex_db None [SSyncRequest None]).
  rewrite C15_sync_request_raises_refuted in H. simpl in H.
  destruct H as [H _]; [repeat split; intros e [<-|[]] || intros e []; simpl; lia|].
  specialize (H (or_introl eq_refl)). discriminate.
Qed.
Print Assumptions C15_full_statement_refuted.
