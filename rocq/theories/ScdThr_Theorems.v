(** C131: a SelfCleaningDefaultDict used by several threads, one of which may be the cleanup thread. *)
From Verif Require Import Prelude PreludeFacts MoreFacts MetrThr_Model MetrThr_Spec ScdThr_Model ScdThr_Spec ScdThr_Proofs.

(** Every call ends as if the calls were made one at a time, in the order in which they end: a read gives the value stored last or the default,
    len() counts the keys whose value is not the default, and nothing raises; cleanup() leaves no default value. *)
Definition C131_full_statement : Prop :=
  forall (K V : Type) (eqb : K -> K -> bool) (veqb : V -> V -> bool) (zero : V) (background : bool) programs schedule t d r, eqb_ok eqb -> veqb zero zero = true ->
  let c := scd_run eqb veqb zero background (@scd_start K V programs) schedule in
  let c' := scd_run eqb veqb zero background c [t] in
  log c' = log c ++ [(d, r)] -> fits eqb veqb zero (log c) d r /\ (d = Cleanup -> forall k v, dget eqb (data (shared c')) k = Some v -> veqb v zero = false).

(** So it is, whatever the threads do, except for the three ways to slip that [slips] names. *)
Theorem C131_partial : forall (K V : Type) (eqb : K -> K -> bool) (veqb : V -> V -> bool) (zero : V) (background : bool) programs schedule t d r, eqb_ok eqb -> veqb zero zero = true ->
  let c := scd_run eqb veqb zero background (@scd_start K V programs) schedule in
  log (scd_run eqb veqb zero background c [t]) = log c ++ [(d, r)] -> fits eqb veqb zero (log c) d r \/ slips eqb veqb zero background (log c) d r.
Proof. intros K V eqb veqb zero background programs schedule t d r ok Z c L. eapply (fits_step ok); eauto. apply sound_run; auto. Qed.
Print Assumptions C131_partial.
Definition two_threads : nat -> list (call nat nat) := fun t => match t with 0 => [Set_ 1 5; Set_ 2 6; Del 1; Get 1; Len] | 1 => [Get 2; Set_ 2 0; Cleanup; Get 2; Del 7] | _ => [] end.
Example C131_case : exists schedule, log (scd_run Nat.eqb Nat.eqb 0 true (scd_start two_threads) schedule) =
  [(Set_ 1 5, Ok Nothing); (Set_ 2 6, Ok Nothing); (Get 2, Ok (Val 6)); (Del 1, Ok Nothing); (Set_ 2 0, Ok Nothing); (Get 1, Ok (Val 0)); (Cleanup, Ok Nothing); (Get 2, Ok (Val 0)); (Del 7, Ok Nothing); (Len, Ok (Num 0))].
Proof. exists ([0;0;0;0; 0;1;0;0;1;0;1;1; 0;0;1;0; 1;1;1; 0;1;0;1;0;1;0;1] ++ [1;1;1;1; 1;1;1;1;1; 0;0;0;0;0;0;0;0]). vm_compute. reflexivity. Qed.

(** With background maintenance the default is never stored. *)
Theorem C131_no_default : forall (K V : Type) (eqb : K -> K -> bool) (veqb : V -> V -> bool) (zero : V) programs schedule k v, eqb_ok eqb ->
  dget eqb (data (shared (scd_run eqb veqb zero true (@scd_start K V programs) schedule))) k = Some v -> veqb v zero = false.
Proof. intros K V eqb veqb zero programs schedule k v ok G. apply (s_zero (sound_run ok veqb zero true programs schedule) eq_refl k). auto. Qed.
Print Assumptions C131_no_default.
(** What is stored is the value of the key; a key that is not stored has the default value. *)
Theorem C131_stored : forall (K V : Type) (eqb : K -> K -> bool) (veqb : V -> V -> bool) (zero : V) background programs schedule k, eqb_ok eqb ->
  let c := scd_run eqb veqb zero background (@scd_start K V programs) schedule in
  match dget eqb (data (shared c)) k with Some v => v = value eqb veqb zero (log c) k | None => value eqb veqb zero (log c) k = zero end.
Proof. intros K V eqb veqb zero background programs schedule k ok c. apply (s_value (sound_run ok veqb zero background programs schedule)). Qed.
Print Assumptions C131_stored.
Example C131_stored_case : let c := scd_run Nat.eqb Nat.eqb 0 true (scd_start two_threads) [0;0;0;0;0;0;0;0] in
  dget Nat.eqb (data (shared c)) 2 = Some 6 /\ dget Nat.eqb (data (shared c)) 3 = None /\ log c = [(Set_ 1 5, Ok Nothing); (Set_ 2 6, Ok Nothing)].
Proof. vm_compute. auto. Qed.

(** If nobody deletes, nothing raises, and a cleanup() leaves no key with the default value. *)
Theorem C131_no_del : forall (K V : Type) (eqb : K -> K -> bool) (veqb : V -> V -> bool) (zero : V) background programs schedule, eqb_ok eqb ->
  (forall t k, ~ In (Del k) (programs t)) ->
  let c := scd_run eqb veqb zero background (@scd_start K V programs) schedule in
  (forall d e, ~ In (d, Err e) (log c)) /\
  (forall t r, let c' := scd_run eqb veqb zero background c [t] in log c' = log c ++ [(Cleanup, r)] -> forall k v, dget eqb (data (shared c')) k = Some v -> veqb v zero = false).
Proof.
  intros K V eqb veqb zero background programs schedule ok N c. pose proof (calm_run ok veqb zero background programs schedule N) as H. split; [apply (c_log H)|].
  intros t r c' L. eapply (cleaned_step ok); eauto.
Qed.
Print Assumptions C131_no_del.
Definition nobody_deletes : nat -> list (call nat nat) := fun t => match t with 0 => [Get 1; Get 2; Set_ 3 7; Cleanup] | 1 => [Set_ 2 0; Get 3] | _ => [] end.
Example C131_no_del_case : let c := scd_run Nat.eqb Nat.eqb 0 false (scd_start nobody_deletes) [0;0;0;0; 0;0;0;0; 0;0;0;0; 1;1;1;1; 0;0;0;0;0;0] in
  let c' := scd_run Nat.eqb Nat.eqb 0 false c [0] in
  log c' = log c ++ [(Cleanup, Ok Nothing)] /\ log c = [(Get 1, Ok (Val 0)); (Get 2, Ok (Val 0)); (Set_ 3 7, Ok Nothing); (Set_ 2 0, Ok Nothing)] /\ data (shared c') = [(3, 7)].
Proof. vm_compute. auto. Qed.

(** With background maintenance, calls about a key that only one thread uses do not raise, whatever the others do with other keys and whoever cleans up. *)
Theorem C131_own : forall (K V : Type) (eqb : K -> K -> bool) (veqb : V -> V -> bool) (zero : V) programs schedule t k, eqb_ok eqb ->
  (forall u d, u <> t -> In d (programs u) -> ~ about d k) ->
  forall d e, In (d, Err e) (log (scd_run eqb veqb zero true (@scd_start K V programs) schedule)) -> ~ about d k.
Proof. intros K V eqb veqb zero programs schedule t k ok N d e I. pose proof (@own_run K V eqb ok veqb zero true programs schedule t k eq_refl N) as H. apply (o_log H) in I. auto. Qed.
Print Assumptions C131_own.
Definition two_delete : nat -> list (call nat nat) := fun t => match t with 0 => [Set_ 1 5; Del 1; Set_ 1 0] | 1 => [Del 1; Len] | 2 => [Set_ 2 3; Del 2] | _ => [] end.
Example C131_own_case : (forall u d, u <> 2 -> In d (two_delete u) -> ~ about d 2) /\
  exists schedule, log (scd_run Nat.eqb Nat.eqb 0 true (scd_start two_delete) schedule) = [(Set_ 1 5, Ok Nothing); (Set_ 2 3, Ok Nothing); (Del 1, Ok Nothing); (Del 1, Err KeyError); (Del 2, Ok Nothing)].
Proof.
  split.
  - intros [|[|[|u]]] d N I; simpl in I; [| |contradiction|contradiction]; repeat (destruct I as [<-|I]; [simpl; auto; discriminate|]); contradiction.
  - exists [0;0;0;0; 2;2;2;2; 0;0; 1;1; 0; 1; 2;2;2]. vm_compute. reflexivity.
Qed.

(** Calls made one at a time all end as they should, and what they leave stored is what the specification says. *)
Theorem C131_one_at_a_time : forall (K V : Type) (eqb : K -> K -> bool) (veqb : V -> V -> bool) (zero : V) background programs schedule, eqb_ok eqb -> veqb zero zero = true ->
  one_at_a_time (@first K V) (exec eqb veqb zero background) (scd_start programs) schedule ->
  let c := scd_run eqb veqb zero background (@scd_start K V programs) schedule in
  (forall l1 d r l2, log c = l1 ++ (d, r) :: l2 -> fits eqb veqb zero l1 d r) /\ (idle c -> forall k, dget eqb (data (shared c)) k = stored eqb veqb zero background (ended c) k).
Proof. intros. apply alone_run; auto. Qed.
Print Assumptions C131_one_at_a_time.
Definition in_turn : nat -> list (call nat nat) := fun t => match t with 0 => [Get 1; Get 2; Get 1; Len] | 1 => [Set_ 3 4; Get 5] | _ => [] end.
Example C131_one_at_a_time_case : let schedule := [0;0;0;0; 1;1;1;1; 0;0;0;0; 0;0;0;0; 0;0;0;0;0;0;0;0; 1;1;1;1] in
  one_at_a_time (@first nat nat) (exec Nat.eqb Nat.eqb 0 false) (scd_start in_turn) schedule /\
  let c := scd_run Nat.eqb Nat.eqb 0 false (scd_start in_turn) schedule in
  log c = [(Get 1, Ok (Val 0)); (Set_ 3 4, Ok Nothing); (Get 2, Ok (Val 0)); (Get 1, Ok (Val 0)); (Len, Ok (Num 1)); (Get 5, Ok (Val 0))] /\ data (shared c) = [(3, 4); (5, 0)].
Proof.
  split; [|vm_compute; auto]. do 28 (split; [right; intros [|[|u]] N; first [exfalso; apply N; reflexivity|vm_compute; reflexivity]|]). exact I.
Qed.
(** The monitor is let go whatever is raised: wherever the threads are, all of them can go on to their ends. *)
Theorem C131_no_deadlock : forall (K V : Type) (eqb : K -> K -> bool) (veqb : V -> V -> bool) (zero : V) background n programs schedule, eqb_ok eqb -> threads_below n programs ->
  exists schedule', finished (scd_run eqb veqb zero background (scd_run eqb veqb zero background (@scd_start K V programs) schedule) schedule').
Proof. intros. eapply can_finish; eauto. Qed.
Print Assumptions C131_no_deadlock.
Example C131_no_deadlock_case : threads_below 3 two_delete /\ locked (shared (scd_run Nat.eqb Nat.eqb 0 true (scd_start two_delete) [0;0;1;1;2])) = true.
Proof. split; [intros [|[|[|t]]] L; simpl; auto; lia|reflexivity]. Qed.

(** ** What goes wrong *)
(** two threads delete the key, where del does not raise for keys that are not there: one of them gets KeyError *)
Theorem C131_del_raises_refuted : exists schedule, log (scd_run Nat.eqb Nat.eqb 0 true (scd_start two_delete) schedule) = [(Set_ 1 5, Ok Nothing); (Del 1, Ok Nothing); (Del 1, Err KeyError)].
Proof. exists [0;0;0;0; 0;0; 1;1; 0; 1]. vm_compute. reflexivity. Qed.
Print Assumptions C131_del_raises_refuted.
(** d[k] = default raises KeyError if the key is deleted meanwhile *)
Definition stores_default : nat -> list (call nat nat) := fun t => match t with 0 => [Set_ 1 5; Set_ 1 0] | 1 => [Del 1] | _ => [] end.
Theorem C131_set_raises_refuted : exists schedule, log (scd_run Nat.eqb Nat.eqb 0 true (scd_start stores_default) schedule) = [(Set_ 1 5, Ok Nothing); (Del 1, Ok Nothing); (Set_ 1 0, Err KeyError)].
Proof. exists [0;0;0;0; 0;0;0; 1;1;1; 0]. vm_compute. reflexivity. Qed.
Print Assumptions C131_set_raises_refuted.
(** without background maintenance, len() counts a default value that a read stored after the cleanup *)
Definition counts : nat -> list (call nat nat) := fun t => match t with 0 => [Len] | 1 => [Get 1] | _ => [] end.
Theorem C131_len_refuted : exists schedule, log (scd_run Nat.eqb Nat.eqb 0 false (scd_start counts) schedule) = [(Get 1, Ok (Val 0)); (Len, Ok (Num 1))].
Proof. exists [0;0;0;0; 1;1;1;1; 0]. vm_compute. reflexivity. Qed.
Print Assumptions C131_len_refuted.
(** a key deleted meanwhile ends the cleanup: the keys after it keep their default values *)
Definition deletes_meanwhile : nat -> list (call nat nat) := fun t => match t with 0 => [Get 1; Get 2; Cleanup] | 1 => [Del 1] | _ => [] end.
Theorem C131_cleanup_refuted : exists schedule, let c := scd_run Nat.eqb Nat.eqb 0 false (scd_start deletes_meanwhile) schedule in
  log c = [(Get 1, Ok (Val 0)); (Get 2, Ok (Val 0)); (Del 1, Ok Nothing); (Cleanup, Ok Nothing)] /\ data (shared c) = [(2, 0)].
Proof. exists [0;0;0;0; 0;0;0;0; 0;0;0; 1;1;1; 0]. vm_compute. split; reflexivity. Qed.
Print Assumptions C131_cleanup_refuted.
Theorem C131_full_statement_refuted : ~ C131_full_statement.
Proof.
  intros H. specialize (H nat nat Nat.eqb Nat.eqb 0 true two_delete [0;0;0;0; 0;0; 1;1; 0] 1 (Del 1) (Err KeyError) nateqb_ok eq_refl). cbv zeta in H.
  assert (X : @Err (answer nat) KeyError = Ok Nothing) by (apply H; vm_compute; reflexivity). discriminate.
Qed.
Print Assumptions C131_full_statement_refuted.
