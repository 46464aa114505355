(** C129: an ExpiringEntryDict used by several threads, one of which may be the cleanup thread. *)
From Verif Require Import Prelude PreludeFacts MoreFacts MetrThr_Model MetrThr_Spec ExpThr_Model ExpThr_Spec ExpThr_Proofs.
Local Open Scope Z_scope.

(** Only d[k] and del d[k] raise, and as long as nothing gets old every call ends as if the calls were made in the order in which they end. *)
Definition C129_full_statement : Prop :=
  forall (K V : Type) (eqb : K -> K -> bool) (timeout : Z) programs schedule, eqb_ok eqb ->
  let c := exp_run eqb timeout (@exp_start K V programs) schedule in
  (forall d e, In (d, Err e) (log c) -> exists k, d = Get k \/ d = Del k) /\
  (forall t d r, let c' := exp_run eqb timeout c [t] in log c' = log c ++ [(d, r)] -> clock (shared c') <= timeout -> fits eqb (log c) (fun _ => False) d r).

(** As long as nothing gets old: every call ends as if the calls were made in the order in which they end, except that a key may seem missing
    while somebody writes or deletes it, and that an answer True of `in` may be late. *)
Theorem C129_partial : forall (K V : Type) (eqb : K -> K -> bool) (timeout : Z) programs schedule t d r, eqb_ok eqb ->
  let c := exp_run eqb timeout (@exp_start K V programs) schedule in
  let c' := exp_run eqb timeout c [t] in
  log c' = log c ++ [(d, r)] -> clock (shared c') <= timeout -> fits eqb (log c) (being_changed c) d r.
Proof.
  intros K V eqb timeout programs schedule t d r ok c c' L C. assert (E : c' = exp_run eqb timeout (exp_start programs) (schedule ++ [t])).
  { unfold c', c, exp_run, run. rewrite fold_left_app. auto. }
  assert (C0 : clock (shared c) <= timeout) by (pose proof (step_clock eqb timeout c t); unfold c', exp_run, run in C; simpl in C; lia).
  apply (fits_step ok (timeout := timeout) (c := c) t); auto; [|apply lasting_run; auto]. change (lasting eqb timeout c'). rewrite E in *. apply lasting_run; auto.
Qed.
Print Assumptions C129_partial.
Definition two_threads : nat -> list (call nat nat) := fun t => match t with 0%nat => [Set_ 1 5; Set_ 2 6; Del 1; Get 1; Len] | 1%nat => [Get 2; In_ 1; Cleanup; Get 2; Tick 3] | _ => [] end%nat.
Example C129_case : exists schedule, let c := exp_run Nat.eqb 10 (exp_start two_threads) schedule in clock (shared c) <= 10 /\
  log c = [(Set_ 1 5, Ok Nothing); (Get 2, Err KeyError); (Set_ 2 6, Ok Nothing); (In_ 1, Ok (Bool true)); (Del 1, Ok Nothing); (Cleanup, Ok Nothing); (Get 2, Ok (Val 6)); (Tick 3, Ok Nothing);
           (Get 1, Err KeyError); (Len, Ok (Num 1))]%nat.
Proof.
  exists [0;0;0;0;0; 1;1; 0;0;0;0;0; 1;1; 0;0; 1; 0;0; 1;1;1;1; 1;1;1;1; 1;1; 0;0; 0;0;0;0;0;0]%nat. vm_compute. split; [discriminate|reflexivity].
Qed.

(** Whatever gets old: what is read was written under that key. *)
Theorem C129_made_of : forall (K V : Type) (eqb : K -> K -> bool) (timeout : Z) programs schedule k v, eqb_ok eqb ->
  In (Get k, Ok (Val v)) (log (exp_run eqb timeout (@exp_start K V programs) schedule)) -> exists t, In (Set_ k v) (programs t).
Proof. intros K V eqb timeout programs schedule k v ok I. exact (t_log (traced_run ok timeout programs schedule) _ _ I). Qed.
Print Assumptions C129_made_of.

(** A value that can be read stays so until its time, whatever is done with other keys and whoever cleans up. *)
Theorem C129_keeps : forall (K V : Type) (eqb : K -> K -> bool) (timeout : Z) programs schedule t d a k v, eqb_ok eqb ->
  let c := exp_run eqb timeout (@exp_start K V programs) schedule in
  current c t = Some (d, a) -> elsewhere d k -> readable eqb (shared c) k v -> readable eqb (shared (exp_run eqb timeout c [t])) k v.
Proof. intros K V eqb timeout programs schedule t d a k v ok c C E R. change (readable eqb (shared (turn (@first K V) (@exec K V eqb timeout) c t)) k v). eapply step_keeps; eauto. apply sound_run; auto. Qed.
Print Assumptions C129_keeps.
Theorem C129_readable : forall (K V : Type) (eqb : K -> K -> bool) (timeout : Z) (c : config (exp_state K V) (call K V) (code K V) (answer V)) t k v l, eqb_ok eqb ->
  current c t = None -> todo c t = Get k :: l -> readable eqb (shared c) k v -> log (exp_run eqb timeout c [t; t; t; t]) = log c ++ [(Get k, Ok (Val v))].
Proof. intros. eapply read_alone; eauto. Qed.
Print Assumptions C129_readable.
Definition a_cleanup : nat -> list (call nat nat) := fun t => match t with 0%nat => [Set_ 1 5; Tick 8; Set_ 2 6; Tick 8] | 1%nat => [Cleanup; Get 2] | _ => [] end%nat.
Example C129_keeps_case : let c := exp_run Nat.eqb 10 (exp_start a_cleanup) [0;0;0;0;0; 0;0; 0;0;0;0;0; 0;0; 1;1;1]%nat in
  current c 1 = Some (Cleanup, CLoop ForCleanup 16) /\ readable Nat.eqb (shared c) 2%nat 6%nat /\
  (let c' := exp_run Nat.eqb 10 c [1;1;1]%nat in current c' 1 = None /\ readable Nat.eqb (shared c') 2%nat 6%nat /\ dget Nat.eqb (data (shared c')) 1%nat = None).
Proof. vm_compute. repeat split; try (eexists; split; [reflexivity|discriminate]). Qed.

(** If nobody reads with d[k], cleanup(), len() and the writes never raise: all that can be raised is a ValueError of del, or of `in` *)
Theorem C129_cleanup_partial : forall (K V : Type) (eqb : K -> K -> bool) (timeout : Z) programs schedule, eqb_ok eqb ->
  (forall t k, ~ In (Get k) (programs t)) ->
  forall d e, In (d, Err e) (log (exp_run eqb timeout (@exp_start K V programs) schedule)) -> e = ValueError /\ exists k, d = Del k \/ d = In_ k.
Proof.
  intros K V eqb timeout programs schedule ok N d e I. apply (y_log (tidy_run ok timeout programs schedule (fun t d => match d with Get k => fun J => N t k J | _ => fun _ => Logic.I end))). auto.
Qed.
Print Assumptions C129_cleanup_partial.
(** When cleanup() ends without raising, every entry that is left was not old when cleanup() was called, whatever the others did meanwhile. *)
Theorem C129_cleaned : forall (K V : Type) (eqb : K -> K -> bool) (timeout : Z) programs before after t l, eqb_ok eqb ->
  let c0 := exp_run eqb timeout (@exp_start K V programs) before in
  let c := exp_run eqb timeout c0 after in
  let c' := exp_run eqb timeout c [t] in
  current c0 t = None -> todo c0 t = Cleanup :: l -> todo c t = l -> log c' = log c ++ [(Cleanup, Ok Nothing)] ->
  forall k v, dget eqb (data (shared c')) k = Some v -> exists ts, dget eqb (times (shared c')) k = Some ts /\ clock (shared c0) <= ts.
Proof.
  intros K V eqb timeout programs before after t l ok. cbv zeta. intros C T T' L.
  assert (E : exp_run eqb timeout (exp_run eqb timeout (exp_start programs) before) after = exp_run eqb timeout (exp_start programs) (before ++ after)) by (unfold exp_run, run; rewrite fold_left_app; auto).
  eapply cleaned; eauto; rewrite E; [apply sound_run; auto|apply within_run; auto|].
  replace (exp_run eqb timeout (exp_run eqb timeout (exp_start programs) (before ++ after)) [t]) with (exp_run eqb timeout (exp_start programs) ((before ++ after) ++ [t])) by (unfold exp_run, run; rewrite !fold_left_app; auto).
  apply within_run; auto.
Qed.
Print Assumptions C129_cleaned.
Definition old_and_new : nat -> list (call nat nat) := fun t => match t with 0%nat => [Set_ 1 5; Tick 8; Set_ 2 6; Tick 8; Set_ 3 7] | 1%nat => [Cleanup] | _ => [] end%nat.
Example C129_cleaned_case : let c0 := exp_run Nat.eqb 10 (exp_start old_and_new) [0;0;0;0;0; 0;0; 0;0;0;0;0; 0;0]%nat in let c := exp_run Nat.eqb 10 c0 [1;1;0;1;1;0;1]%nat in let c' := exp_run Nat.eqb 10 c [1]%nat in
  current c0 1%nat = None /\ todo c0 1%nat = [Cleanup] /\ todo c 1%nat = [] /\ log c' = log c ++ [(Cleanup, Ok Nothing)] /\ dkeys (data (shared c0)) = [1; 2]%nat /\ dkeys (data (shared c')) = [2]%nat.
Proof. vm_compute. repeat split. Qed.
(** A key whose time is over is not read, and is not in the dictionary; a key that can be read is in it; a key without a time is not. *)
Theorem C129_old : forall (K V : Type) (eqb : K -> K -> bool) (timeout : Z) (c : config (exp_state K V) (call K V) (code K V) (answer V)) t k l, eqb_ok eqb ->
  current c t = None -> todo c t = Get k :: l -> old eqb (shared c) k -> log (exp_run eqb timeout c [t; t; t; t]) = log c ++ [(Get k, Err KeyError)].
Proof. intros. eapply old_alone; eauto. Qed.
Print Assumptions C129_old.
Theorem C129_in : forall (K V : Type) (eqb : K -> K -> bool) (timeout : Z) (c : config (exp_state K V) (call K V) (code K V) (answer V)) t k l, eqb_ok eqb ->
  current c t = None -> todo c t = In_ k :: l ->
  (forall v, readable eqb (shared c) k v -> log (exp_run eqb timeout c [t; t; t]) = log c ++ [(In_ k, Ok (Bool true))]) /\
  (dget eqb (times (shared c)) k = None -> log (exp_run eqb timeout c [t; t]) = log c ++ [(In_ k, Ok (Bool false))]) /\
  (forall v, locked (shared c) = false -> old eqb (shared c) k -> dget eqb (data (shared c)) k = Some v -> log (exp_run eqb timeout c [t; t; t; t; t; t]) = log c ++ [(In_ k, Ok (Bool false))]).
Proof. intros K V eqb timeout c t k l ok C T. repeat split; intros; [eapply in_alone|eapply out_alone|eapply drop_alone]; eauto. Qed.
Print Assumptions C129_in.
Example C129_old_case : let c := exp_run Nat.eqb 10 (exp_start (fun t => match t with 0%nat => [Set_ 1 5; Tick 8; Set_ 2 6; Tick 8] | 1%nat => [Get 1; In_ 2] | 2%nat => [In_ 1; In_ 3] | _ => [] end%nat)) [0;0;0;0;0; 0;0; 0;0;0;0;0; 0;0]%nat in
  todo c 1%nat = [Get 1; In_ 2]%nat /\ old Nat.eqb (shared c) 1%nat /\ readable Nat.eqb (shared c) 2%nat 6%nat /\ dget Nat.eqb (times (shared c)) 3%nat = None /\ locked (shared c) = false.
Proof. vm_compute. repeat split; try (eexists; split; [reflexivity|]; first [reflexivity|discriminate]). Qed.
(** len() that is not disturbed counts the keys that can be read, unless it raises KeyError (C129_lost_refuted shows how that comes about). *)
Theorem C129_len : forall (K V : Type) (eqb : K -> K -> bool) (timeout : Z) programs before t l m r, eqb_ok eqb ->
  let c0 := exp_run eqb timeout (@exp_start K V programs) before in
  let c := exp_run eqb timeout c0 (repeat t m) in
  locked (shared c0) = false -> current c0 t = None -> todo c0 t = Len :: l -> log c = log c0 -> log (exp_run eqb timeout c [t]) = log c0 ++ [(Len, r)] ->
  r = Err KeyError \/ exists keys, NoDup keys /\ (forall k, In k keys <-> exists v, readable eqb (shared c0) k v) /\ r = Ok (Num (length keys)).
Proof. intros K V eqb timeout programs before t l m r ok. apply (len_alone ok). Qed.
Print Assumptions C129_len.
Definition then_len : nat -> list (call nat nat) := fun t => match t with 0%nat => [Set_ 1 5; Tick 8; Set_ 2 6; Tick 8; Set_ 3 7] | 1%nat => [Len] | _ => [] end%nat.
Example C129_len_case : let c0 := exp_run Nat.eqb 10 (exp_start then_len) [0;0;0;0;0; 0;0; 0;0;0;0;0; 0;0; 0;0;0;0;0]%nat in let c := exp_run Nat.eqb 10 c0 (repeat 1 6)%nat in
  locked (shared c0) = false /\ current c0 1%nat = None /\ todo c0 1%nat = [Len] /\ log c = log c0 /\ log (exp_run Nat.eqb 10 c [1]%nat) = log c0 ++ [(Len, Ok (Num 2))] /\ dkeys (data (shared c0)) = [1; 2; 3]%nat.
Proof. vm_compute. repeat split. Qed.
(** A key written undisturbed has the value, and its time is over when more than the timeout has passed, not before. *)
Theorem C129_set : forall (K V : Type) (eqb : K -> K -> bool) (timeout : Z) (c : config (exp_state K V) (call K V) (code K V) (answer V)) t k v l, eqb_ok eqb ->
  current c t = None -> todo c t = Set_ k v :: l -> locked (shared c) = false ->
  exists m, let c' := exp_run eqb timeout c (repeat t m) in
  log c' = log c ++ [(Set_ k v, Ok Nothing)] /\ dget eqb (data (shared c')) k = Some v /\ dget eqb (times (shared c')) k = Some (clock (shared c) + timeout) /\ clock (shared c') = clock (shared c).
Proof. intros. eapply set_alone; eauto. Qed.
Print Assumptions C129_set.
Example C129_set_case : let c := exp_run Nat.eqb 10 (exp_start then_len) [0;0;0;0;0; 0;0]%nat in
  current c 0%nat = None /\ todo c 0%nat = [Set_ 2 6; Tick 8; Set_ 3 7]%nat /\ locked (shared c) = false /\ clock (shared c) = 8.
Proof. vm_compute. auto. Qed.
(** The monitor is let go whatever is raised: wherever the threads are, all of them can go on to their ends. *)
Theorem C129_no_deadlock : forall (K V : Type) (eqb : K -> K -> bool) (timeout : Z) n programs schedule, eqb_ok eqb -> threads_below n programs ->
  exists schedule', finished (exp_run eqb timeout (exp_run eqb timeout (@exp_start K V programs) schedule) schedule').
Proof. intros. eapply can_finish; eauto. Qed.
Print Assumptions C129_no_deadlock.

(** ** What goes wrong *)
Definition races (l : list (call nat nat)) : nat -> list (call nat nat) := fun t => match t with 0%nat => [Set_ 1 5; Set_ 1 6; Get 1; Tick 11; Cleanup] | 1%nat => l | 2%nat => [Tick 11] | _ => [] end%nat.
(** a key that is written again is missing in between *)
Theorem C129_overwritten_refuted : exists schedule, let c := exp_run Nat.eqb 10 (exp_start (races [Get 1%nat])) schedule in
  log c = [(Set_ 1 5, Ok Nothing); (Get 1, Err KeyError)]%nat /\ clock (shared c) = 0.
Proof. exists [0;0;0;0;0; 0;0;0;0; 1;1]%nat. vm_compute. split; reflexivity. Qed.
Print Assumptions C129_overwritten_refuted.
(** the read of an old value throws away what was written since, and the cleanup afterwards raises KeyError, which ends the cleanup thread *)
Theorem C129_lost_refuted : exists schedule, log (exp_run Nat.eqb 10 (exp_start (races [Get 1%nat])) schedule) =
  [(Set_ 1 5, Ok Nothing); (Tick 11, Ok Nothing); (Set_ 1 6, Ok Nothing); (Get 1, Err KeyError); (Get 1, Err KeyError); (Tick 11, Ok Nothing); (Cleanup, Err KeyError)]%nat.
Proof. exists [0;0;0;0;0; 2;2; 1;1;1; 0;0;0;0;0;0; 1; 0;0;0;0; 0;0; 0;0;0;0;0]%nat. vm_compute. reflexivity. Qed.
Print Assumptions C129_lost_refuted.
(** a value that got old is read while the key is written *)
Theorem C129_stale_refuted : exists schedule, log (exp_run Nat.eqb 10 (exp_start (races [Get 1%nat])) schedule) =
  [(Set_ 1 5, Ok Nothing); (Tick 11, Ok Nothing); (Get 1, Ok (Val 5))]%nat.
Proof. exists [0;0;0;0;0; 2;2; 0;0;0;0;0; 1;1;1;1]%nat. vm_compute. reflexivity. Qed.
Print Assumptions C129_stale_refuted.
(** two threads ask for an old key: one of them gets ValueError *)
Definition two_ask : nat -> list (call nat nat) := fun t => match t with 0%nat => [Set_ 1 5; Tick 11; In_ 1] | 1%nat => [In_ 1] | _ => [] end%nat.
Theorem C129_in_raises_refuted : exists schedule, log (exp_run Nat.eqb 10 (exp_start two_ask) schedule) =
  [(Set_ 1 5, Ok Nothing); (Tick 11, Ok Nothing); (In_ 1, Ok (Bool false)); (In_ 1, Err ValueError)]%nat.
Proof. exists [0;0;0;0;0; 0;0; 0;0;0; 1;1;1;1;1;1; 0;0]%nat. vm_compute. reflexivity. Qed.
Print Assumptions C129_in_raises_refuted.
Theorem C129_full_statement_refuted : ~ C129_full_statement.
Proof.
  intros H. destruct C129_in_raises_refuted as (schedule & E). destruct (H nat nat Nat.eqb 10 two_ask schedule nateqb_ok) as (A & _).
  destruct (A (In_ 1%nat) ValueError) as (k & [X|X]); try discriminate. rewrite E. simpl. auto.
Qed.
Print Assumptions C129_full_statement_refuted.
