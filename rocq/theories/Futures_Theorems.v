(** C31: futures and collections of futures. *)
From Verif Require Import Prelude Futures_Model Futures_Spec Futures_Proofs.

(** A future: in every history of adding callbacks, setting, cancelling and asking in which the code does as documented
    (see [proper_op]), every answer and every call of a callback, in order, is as [spec_step] says. *)
Theorem C31_future_partial : forall V (none : V) ops, proper false (new_promise V false) ops ->
  fst (future_run none (new_future none) ops) = spec_run (new_promise V false) ops.
Proof. exact (fun V none ops => run_ok V none false ops _ _ (new_rel V none)). Qed.
Print Assumptions C31_future_partial.
(** The same of a WrappingFuture around a pending or running future, completed through the latter. *)
Theorem C31_wrapping_partial : forall V (none : V) running ops, proper true (new_promise V running) ops ->
  fst (future_run none (wrapping_future none running) ops) = spec_run (new_promise V running) ops.
Proof. exact (fun V none running ops => run_ok V none true ops _ _ (wrapping_rel V none running)). Qed.
Print Assumptions C31_wrapping_partial.
(** A future is completed at most once: after set_result() or set_exception() that did not raise, whatever the callbacks do
    and whatever is called later, the result stays and setting it raises. *)
Theorem C31_completed_once : forall V (none : V) (f : future V) r w f' ev,
  source f = None -> complete none f r w = (f', Ok tt, ev) ->
  (forall ops, result (snd (future_run none f' ops)) = result f') /\
  forall ops r' w', complete none (snd (future_run none f' ops)) r' w' = (f', Err InvalidStateExn, []).
Proof. exact set_once. Qed.
Print Assumptions C31_completed_once.

(** FutureCollection.result: the results of all in order, when all have one *)
Theorem C31_collection_result : forall V (fs : list (future V)) vs,
  coll_result fs = Ok vs <-> Forall2 (fun f v => result f = Ok v) fs vs.
Proof. exact coll_result_ok. Qed.
Print Assumptions C31_collection_result.
(** otherwise what the first without one raises, a timeout being WouldWaitMore *)
Theorem C31_collection_result_raises : forall V (fs : list (future V)) pre f post e, fs = pre ++ f :: post ->
  (forall g, In g pre -> exists v, result g = Ok v) -> result f = Err e ->
  coll_result fs = Err (match e with TimeoutExn => WouldWaitMore | e => e end).
Proof. exact coll_result_err. Qed.
Print Assumptions C31_collection_result_raises.
(** FutureCollection.exception: None if there is none, else the first *)
Theorem C31_collection_exception_none : forall V (fs : list (future V)),
  coll_exception fs = Ok None <-> Forall (fun f => exception f = Ok None) fs.
Proof. exact coll_exception_none. Qed.
Print Assumptions C31_collection_exception_none.
Theorem C31_collection_exception_first : forall V (fs : list (future V)) pre f post e, fs = pre ++ f :: post ->
  (forall g, In g pre -> exception g = Ok None) -> exception f = Ok (Some e) -> coll_exception fs = Ok (Some e).
Proof. exact coll_exception_first. Qed.
Print Assumptions C31_collection_exception_first.
(** set_result and set_exception reach every member, if all are open *)
Theorem C31_collection_set_partial : forall V (none : V) r (fs : list (future V)),
  Forall (fun f => source f = None /\ exception_ f = None /\ (own f = PENDING \/ own f = RUNNING)) fs ->
  exists fs', coll_set none r fs = (fs', Ok tt) /\ length fs' = length fs /\ Forall (fun f => result f = r) fs'.
Proof. exact coll_set_ok. Qed.
Print Assumptions C31_collection_set_partial.
(** cancel() reaches every member if all can be cancelled; else those after the first that cannot be are left alone *)
Theorem C31_collection_cancel_partial : forall V (fs : list (future V)),
  Forall (fun f => snd (fst (cancel f)) = true) fs ->
  coll_cancel true fs = (map (fun f => fst (fst (cancel f))) fs, true).
Proof. exact coll_cancel_all. Qed.
Print Assumptions C31_collection_cancel_partial.
Theorem C31_collection_cancel_stops : forall V (p : list (future V)) f q,
  Forall (fun f => snd (fst (cancel f)) = true) p -> snd (fst (cancel f)) = false ->
  coll_cancel true (p ++ f :: q) = (map (fun f => fst (fst (cancel f))) (p ++ [f]) ++ q, false).
Proof. exact coll_cancel_stops. Qed.
Print Assumptions C31_collection_cancel_stops.
(** set_running_or_notify_cancel() reaches every member if none can run; else those after the first that can are left alone *)
Theorem C31_collection_running_partial : forall V (fs : list (future V)),
  Forall (fun f => snd (set_running_or_notify_cancel f) = Ok false) fs ->
  coll_set_running false fs = (map (fun f => fst (set_running_or_notify_cancel f)) fs, Ok false).
Proof. exact coll_running_none. Qed.
Print Assumptions C31_collection_running_partial.
Theorem C31_collection_running_stops : forall V (p : list (future V)) f q,
  Forall (fun f => snd (set_running_or_notify_cancel f) = Ok false) p -> snd (set_running_or_notify_cancel f) = Ok true ->
  coll_set_running false (p ++ f :: q) = (map (fun f => fst (set_running_or_notify_cancel f)) (p ++ [f]) ++ q, Ok true).
Proof. exact coll_running_stops. Qed.
Print Assumptions C31_collection_running_stops.

(** A history that meets the hypotheses: the example of the documentation, with more callbacks. *)
Open Scope Z_scope.
Definition nothing : nat -> script Z := fun _ => [].
Definition ex_w (c : nat) : script Z :=
  match c with
  | 1%nat => [(false, AResult); (false, ASetResult 4)]
  | 2%nat => [(false, AResult); (false, ARaise); (false, ASetResult 9)]
  | _ => [(false, ASetException ValueError); (false, AResult)]
  end.
Definition ex_ops : list (future_op Z) :=
  [FSetRunning; FAddPre 1 []; FAddPre 2 []; FAddPre 3 []; FAddDone DPlain 7; FAddDone DSuccess 8; FAddDone DFailure 9; FResult; FCancel;
   FSet (Ok 2) ex_w; FResult; FSet (Ok 5) ex_w; FCancel; FAddPre 4 [(false, AResult); (false, ASetResult 1); (false, AResult)];
   FAddDone DChain 5; FException].
Example C31_future_hypotheses_met : proper false (new_promise Z false) ex_ops.
Proof. cbn. repeat split; eauto. Qed.
Example C31_future_example : fst (future_run 0 (new_future 0) ex_ops) =
  [(ABool (Ok true), []); (ADone, []); (ADone, []); (ADone, []); (ADone, []); (ADone, []); (ADone, []); (AValue (Err TimeoutExn), []); (ABool (Ok false), []);
   (AUnit (Ok tt), [EPre 1; ESaw false (Ok 2); EPre 2; ESaw false (Ok 4); EPre 3; ESaw false (Err ValueError);
                    EDone 7 (Err ValueError); EWith 9 (Err ValueError)]);
   (AValue (Err ValueError), []); (AUnit (Err InvalidStateExn), []); (ABool (Ok false), []);
   (ADone, [EPre 4; ESaw false (Err ValueError)]); (ADone, [EWith 5 (Err ValueError)]); (AExn (Ok (Some ValueError)), [])].
Proof. vm_compute. reflexivity. Qed.
Definition ex_wrapped : list (future_op Z) :=
  [FAddPre 1 []; FAddDone DPlain 7; FSetRunning; FSourceCancel; FSourceSet (Ok 2) ex_w; FResult; FSourceSet (Ok 3) ex_w; FCancel].
Example C31_wrapping_hypotheses_met : proper true (new_promise Z false) ex_wrapped.
Proof. cbn. repeat split; eauto. Qed.
Example C31_wrapping_example : fst (future_run 0 (wrapping_future 0 false) ex_wrapped) =
  [(ADone, []); (ADone, []); (ABool (Ok true), []); (ABool (Ok false), []); (AUnit (Ok tt), [EPre 1; ESaw false (Ok 2); EDone 7 (Ok 4)]); (AValue (Ok 4), []);
   (AUnit (Err InvalidStateExn), []); (ABool (Ok false), [])].
Proof. vm_compute. reflexivity. Qed.
Definition ok_future (v : Z) : future Z := fst (fst (complete 0 (new_future 0) (Ok v) nothing)).
Example C31_collection_example : coll_result [ok_future 1; ok_future 2; ok_future 3] = Ok [1; 2; 3] /\
  coll_result [ok_future 1; new_future 0; ok_future 3] = Err WouldWaitMore.
Proof. vm_compute. split; reflexivity. Qed.

(** The full property: as documented also if callbacks replace an exception with a result, cancel, or other threads
    look meanwhile. *)
Definition C31_full_statement : Prop := forall ops : list (future_op Z),
  fst (future_run 0 (new_future 0) ops) = spec_run (new_promise Z false) ops.
(** A pre-done callback can not replace an exception with a result. *)
Theorem C31_recover_refuted :
  fst (future_run 0 (new_future 0) [FAddPre 1 []; FSet (Err ValueError) (fun _ => [(false, ASetResult 4)]); FResult]) =
    [(ADone, []); (AUnit (Ok tt), [EPre 1]); (AValue (Err ValueError), [])] /\
  spec_run (new_promise Z false) [FAddPre 1 []; FSet (Err ValueError) (fun _ => [(false, ASetResult 4)]); FResult] =
    [(ADone, []); (AUnit (Ok tt), [EPre 1]); (AValue (Ok 4), [])].
Proof. vm_compute. split; reflexivity. Qed.
Print Assumptions C31_recover_refuted.
Theorem C31_full_statement_refuted : ~ C31_full_statement.
Proof.
  intro H. specialize (H [FAddPre 1 []; FSet (Err ValueError) (fun _ => [(false, ASetResult 4)]); FResult]). vm_compute in H. discriminate.
Qed.
Print Assumptions C31_full_statement_refuted.
(** Another thread that calls result() while the callbacks run gets the result they are still to change. *)
Theorem C31_seen_too_early_refuted :
  fst (future_run 0 (new_future 0) [FAddPre 1 []; FSet (Ok 2) (fun _ => [(true, AResult); (false, ASetResult 4)]); FResult]) =
    [(ADone, []); (AUnit (Ok tt), [EPre 1; ESaw true (Ok 2)]); (AValue (Ok 4), [])].
Proof. vm_compute. reflexivity. Qed.
Print Assumptions C31_seen_too_early_refuted.
(** and one that calls set_result() then is not refused: both have completed the future *)
Theorem C31_set_twice_refuted :
  fst (future_run 0 (new_future 0) [FAddPre 1 []; FSet (Ok 2) (fun _ => [(true, ASetResult 5)]); FResult]) =
    [(ADone, []); (AUnit (Ok tt), [EPre 1]); (AValue (Ok 5), [])].
Proof. vm_compute. reflexivity. Qed.
Print Assumptions C31_set_twice_refuted.
(** cancel() from a pre-done callback: done callbacks are called twice, once as cancelled and once as completed. *)
Theorem C31_cancel_inside_refuted :
  fst (future_run 0 (new_future 0) [FAddPre 1 []; FAddDone DPlain 7; FSet (Ok 2) (fun _ => [(false, ACancel)]); FResult]) =
    [(ADone, []); (ADone, []); (AUnit (Ok tt), [EPre 1; EDone 7 (Err CancelledExn); EDone 7 (Ok 2)]); (AValue (Ok 2), [])].
Proof. vm_compute. reflexivity. Qed.
Print Assumptions C31_cancel_inside_refuted.
(** "just before the future completes or is cancelled": cancelling calls no pre-done callback *)
Theorem C31_cancel_calls_no_pre_refuted :
  fst (future_run 0 (new_future 0) [FAddPre 1 []; FCancel]) = [(ADone, []); (ABool (Ok true), [])].
Proof. vm_compute. reflexivity. Qed.
Print Assumptions C31_cancel_calls_no_pre_refuted.
(** "only if this future succeeds": on_success is called for a cancelled future too, with None *)
Theorem C31_success_of_cancelled_refuted :
  fst (future_run 0 (new_future 0) [FAddDone DSuccess 1; FCancel]) = [(ADone, []); (ABool (Ok true), [EWith 1 (Ok 0)])].
Proof. vm_compute. reflexivity. Qed.
Print Assumptions C31_success_of_cancelled_refuted.
(** When the wrapped future is cancelled, the done callbacks of the WrappingFuture are never called. *)
Theorem C31_wrapped_cancelled_refuted :
  fst (future_run 0 (wrapping_future 0 false) [FAddDone DPlain 1; FSourceCancel; FResult]) =
    [(ADone, []); (ABool (Ok true), []); (AValue (Err CancelledExn), [])].
Proof. vm_compute. reflexivity. Qed.
Print Assumptions C31_wrapped_cancelled_refuted.
(** When it is cancelled itself, a done callback that asks for the result waits for what can not come. *)
Theorem C31_wrapping_cancel_refuted :
  fst (future_run 0 (wrapping_future 0 false) [FAddDone DPlain 1; FCancel]) = [(ADone, []); (ABool (Ok true), [EDone 1 (Err TimeoutExn)])].
Proof. vm_compute. reflexivity. Qed.
Print Assumptions C31_wrapping_cancel_refuted.
(** A collection's cancel() and set_running_or_notify_cancel() do not reach every member. *)
Theorem C31_collection_cancel_refuted :
  let running := fst (set_running_or_notify_cancel (new_future 0)) in
  coll_cancel true [running; new_future 0] = ([running; new_future 0], false).
Proof. vm_compute. reflexivity. Qed.
Print Assumptions C31_collection_cancel_refuted.
Theorem C31_collection_running_refuted :
  let running := fst (set_running_or_notify_cancel (new_future 0)) in
  coll_set_running false [new_future 0; new_future 0] = ([running; new_future 0], Ok true).
Proof. vm_compute. reflexivity. Qed.
Print Assumptions C31_collection_running_refuted.
