(** Theorems about DeferredValue (C48) and Closeable (C46), for any number of threads and every interleaving unless said otherwise. *)
From Verif Require Import Prelude Deferred_Model Deferred_Spec Deferred_Proofs.

(** ** C48 *)
(** A value() that returns, returns a value somebody gave to set_value(). *)
Theorem C48_only_values_given : forall V (programs : list (list (dop V))) es t th,
  nth_error (dthreads (dexec (dstart programs) es)) t = Some th ->
  ~ In Blank (results th) /\ forall v, In (Value v) (results th) -> In v (given programs).
Proof. exact @only_given. Qed.
Print Assumptions C48_only_values_given.

(** Once a set_value() has returned nobody waits for ever: there is a way to complete every call. *)
Theorem C48_set_wakes_everybody : forall V (programs : list (list (dop V))) es v,
  In (WasSet v) (all_results (dexec (dstart programs) es)) -> exists more, Forall (@over V) (dthreads (dexec (dstart programs) (es ++ more))).
Proof. exact @set_frees. Qed.
Print Assumptions C48_set_wakes_everybody.

(** The full statement: at most one set_value() succeeds, and everybody gets the same value. *)
Definition C48_full_statement : Prop := forall V (programs : list (list (dop V))) es, set_once (dexec (dstart programs) es).
(** True if set_value() is called once in all... *)
Theorem C48_one_setter_partial : forall V (programs : list (list (dop V))) es, one_setter programs -> set_once (dexec (dstart programs) es).
Proof. exact @once_one_setter. Qed.
Print Assumptions C48_one_setter_partial.
(** ... and if nobody moves between the check and the write of a set_value(). *)
Theorem C48_undisturbed_partial : forall V (programs : list (list (dop V))) es, undisturbed (dstart programs) es -> set_once (dexec (dstart programs) es).
Proof. exact @once_undisturbed. Qed.
Print Assumptions C48_undisturbed_partial.

(** Otherwise two calls can both find nothing, both succeed, and a reader in between gets another value than a later one. *)
Definition both_set : list devent := [Turn 0; Turn 1; Turn 0; Turn 2; Turn 2; Turn 1; Turn 2; Turn 2; Turn 0; Turn 1].
Theorem C48_set_twice_refuted :
  map (@results Z) (dthreads (dexec (dstart [[SetValue 1%Z]; [SetValue 2%Z]; [GetValue false; GetValue false]]) both_set)) =
  [[WasSet 1%Z]; [WasSet 2%Z]; [Value 1%Z; Value 2%Z]].
Proof. reflexivity. Qed.
Print Assumptions C48_set_twice_refuted.
Theorem C48_full_statement_refuted : ~ C48_full_statement.
Proof. intros H. destruct (H Z [[SetValue 1%Z]; [SetValue 2%Z]; [GetValue false; GetValue false]] both_set) as [K _]. vm_compute in K. lia. Qed.
Print Assumptions C48_full_statement_refuted.

(** ** C46 *)
(** In one thread exactly the first call of close() is told to clean up, if the object was initialised, and none if it was not;
    .closed is what it should be. *)
Theorem C46_one_thread : forall (initialised : bool) ops, exists turns c,
  cexec (cstart initialised [ops]) turns = c /\
  cthreads c = [mk_cthread [] COutside (expected (if initialised then Open else Uninitialised) ops)].
Proof.
  intros i ops. destruct (one_thread ops (if i then Some false else None) 0 []) as (f & n & H). exists (repeat 0 (steps_of ops)). eexists. split; [reflexivity|].
  unfold cstart. simpl. rewrite H. simpl. destruct i; reflexivity.
Qed.
Print Assumptions C46_one_thread.

(** The cleanup runs each time a call is told so; *)
Theorem C46_cleanups : forall initialised programs turns,
  cleanups (cexec (cstart initialised programs) turns) = told (all_cresults (cexec (cstart initialised programs) turns)).
Proof. exact cleanups_told. Qed.
Print Assumptions C46_cleanups.
(** never for an object which was not initialised; *)
Theorem C46_not_initialised : forall programs turns, cleanups (cexec (cstart false programs) turns) = 0.
Proof. exact uninitialised_never. Qed.
Print Assumptions C46_not_initialised.
(** and has run by the time any call has returned. *)
Theorem C46_at_least_once : forall programs turns t th r,
  nth_error (cthreads (cexec (cstart true programs) turns)) t = Some th -> In (Closed r) (cresults th) ->
  1 <= cleanups (cexec (cstart true programs) turns).
Proof. exact at_least_once. Qed.
Print Assumptions C46_at_least_once.

(** The full statement: it runs at most once. *)
Definition C46_full_statement : Prop := forall initialised programs turns, cleanups (cexec (cstart initialised programs) turns) <= 1.
(** True if calls of close() do not overlap. *)
Theorem C46_at_most_once_partial : forall initialised programs turns, cundisturbed (cstart initialised programs) turns ->
  cleanups (cexec (cstart initialised programs) turns) <= 1.
Proof. exact at_most_once. Qed.
Print Assumptions C46_at_most_once_partial.
(** Two threads that call close() at once can both be told to clean up. *)
Theorem C46_twice_refuted : cresults_of (cexec (cstart true [[CloseIt]; [CloseIt]]) [0; 1; 0; 1]) = [[Closed (Some true)]; [Closed (Some true)]].
Proof. reflexivity. Qed.
Print Assumptions C46_twice_refuted.
Theorem C46_full_statement_refuted : ~ C46_full_statement.
Proof. intros H. specialize (H true [[CloseIt]; [CloseIt]] [0; 1; 0; 1]). vm_compute in H. lia. Qed.
Print Assumptions C46_full_statement_refuted.
(** The documentation of close() promises a RuntimeError if the constructor was not invoked. It returns None (and warns). *)
Theorem C46_no_runtime_error_refuted : cresults_of (cexec (cstart false [[CloseIt; CloseIt]]) [0; 0; 0; 0]) = [[Closed None; Closed (Some false)]].
Proof. reflexivity. Qed.
Print Assumptions C46_no_runtime_error_refuted.

(** ** examples *)
Ltac each_thread := intros t th v E Ea; repeat (destruct t as [|t]; [simpl in E; injection E as <-; simpl in Ea; try discriminate; reflexivity|simpl in E; try discriminate]); destruct t; discriminate.
(** two setters one after the other, a reader that waits and one that gives up *)
Definition orderly : list devent := [Turn 2; Turn 3; Expire 3; Turn 0; Turn 0; Turn 1; Turn 0; Turn 2; Turn 2].
Definition orderly_programs : list (list (dop Z)) := [[SetValue 1%Z]; [SetValue 2%Z]; [GetValue false]; [GetValue true]].
Example C48_example : undisturbed (dstart orderly_programs) orderly /\
  map (@results Z) (dthreads (dexec (dstart orderly_programs) orderly)) = [[WasSet 1%Z]; [AlreadySet]; [Value 1%Z]; [WouldWait]].
Proof. split; [|reflexivity]. repeat (split; [each_thread|]). exact I. Qed.
Example C48_example_one_setter : one_setter [[GetValue false]; [SetValue 3%Z; GetValue true]] /\
  map (@results Z) (dthreads (dexec (dstart [[GetValue false]; [SetValue 3%Z; GetValue true]]) [Turn 0; Turn 1; Turn 0; Turn 1; Turn 1; Turn 0; Turn 1; Turn 1; Turn 0])) =
  [[Value 3%Z]; [WasSet 3%Z; Value 3%Z]].
Proof. split; [vm_compute; lia|reflexivity]. Qed.
Example C46_example : cundisturbed (cstart true [[CloseIt; IsClosed]; [IsClosed; CloseIt]]) [1; 0; 0; 1; 1; 0] /\
  cresults_of (cexec (cstart true [[CloseIt; IsClosed]; [IsClosed; CloseIt]]) [1; 0; 0; 1; 1; 0]) =
  [[Closed (Some true); Was true]; [Was false; Closed (Some false)]].
Proof. split; [|reflexivity]. repeat (split; [each_thread|]). exact I. Qed.
