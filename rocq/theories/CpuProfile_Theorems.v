(** C82: theorems. *)
From Coq Require Import QArith.
From Verif Require Import Prelude PySeq_Model CpuProfile_Model CpuProfile_Spec CpuProfile_Proofs.
Local Open Scope nat_scope.

(** ** percentiles *)
(** Whenever it is asked for, a percentile is that of the samples of a recalculation, whether it was requested or not: no question fails. *)
Definition C82_percentiles_full_statement : Prop := forall (P V : Type) (peqb : P -> P -> bool) (pct : list Z -> P -> V) (zero : V), eqb_ok peqb ->
  forall requested l e, ~ In (Some (Err e)) (pexec peqb pct zero (profile_new V requested) (Idle V) l).
(** If no request or question comes while it is recalculated, it is that of the last one. *)
Theorem C82_percentiles_partial : forall (P V : Type) (peqb : P -> P -> bool) (pct : list Z -> P -> V) (zero : V), eqb_ok peqb ->
  forall requested ops, prun peqb pct zero (profile_new V requested) ops = answers pct zero [] ops.
Proof. intros P V peqb pct zero ok requested ops. apply prun_ok; auto. split; [reflexivity|discriminate]. Qed.
Print Assumptions C82_percentiles_partial.
(** A percentile requested after the values were computed and before they are marked as such is an IndexError until the next recalculation. *)
Theorem C82_requested_meanwhile_refuted : forall (pct : list Z -> nat -> Z),
  pexec Nat.eqb pct 0%Z (profile_new Z [90]) (Idle Z) [Begin _ [5%Z]; Go _; Go _; Call (PRequest 30); Go _; Go _; Call (PAsk 90); Call (PAsk 30)] =
  [None; Some (Ok (pct [5%Z] 90)); Some (Err IndexError)].
Proof. reflexivity. Qed.
Print Assumptions C82_requested_meanwhile_refuted.
Theorem C82_percentiles_full_statement_refuted : ~ C82_percentiles_full_statement.
Proof.
  intros H. apply (H nat Z Nat.eqb (fun _ _ => 0%Z) 0%Z Nat.eqb_eq [90] [Begin _ [5%Z]; Go _; Go _; Call (PRequest 30); Go _; Go _; Call (PAsk 90); Call (PAsk 30)] IndexError).
  rewrite C82_requested_meanwhile_refuted. simpl; auto.
Qed.
Print Assumptions C82_percentiles_full_statement_refuted.
Example C82_percentiles_met : answers (fun l p => nth p l 0%Z) (-1)%Z [] [PAsk 1; PRecalculate [30; 10; 20]%Z; PAsk 1; PRequest 2; PAsk 2; PRecalculate [7; 5; 6]%Z; PAsk 2] =
  [Some (Ok (-1)%Z); None; Some (Ok 20%Z); None; Some (Ok 30%Z); None; Some (Ok 7%Z)].
Proof. reflexivity. Qed.

(** ** the usage of the process *)
(** An answer is what was used per unit of time between the newest measurement and the last one at another time. There is none if there are not two
    measurements, or if the newest two were made at the same time. *)
Theorem C82_own_usage : forall window ops, exists a, snd (urun window [] (ops ++ [Get])) = snd (urun window [] ops) ++ [Some a] /\
  match a with
  | Some q => exists p c, before_newest (saves ops) p c /\ usage p c q
  | None => length (saves ops) < 2 \/ exists l p c, saves ops = l ++ [p; c] /\ fst p = fst c
  end.
Proof. exact urun_get. Qed.
Print Assumptions C82_own_usage.
(** With at least [gap] between measurements, not more of them are kept than fit into the window and two, or four. *)
Theorem C82_memory : forall window gap ops, (0 < gap)%Z -> (0 <= window)%Z -> spaced gap (saves ops) ->
  length (fst (urun window [] ops)) <= Nat.max 4 (Z.to_nat (window / gap) + 2).
Proof. intros window gap ops G W S. apply (urun_minv window gap ops [] [] G W S). split; [exists []; reflexivity|simpl; lia]. Qed.
Print Assumptions C82_memory.
Example C82_usage_met : urun 10 [] [Save (0, [1; 5]); Get; Save (4, [3; 5]); Get; Save (4, [3; 6]); Get; Get]%Z =
  ([(0, [1; 5]); (4, [3; 6])]%Z, [None; Some None; None; Some (Some [inject_Z 2 / inject_Z 4; inject_Z 0 / inject_Z 4]%Q); None; Some None;
    Some (Some [inject_Z 2 / inject_Z 4; inject_Z 1 / inject_Z 4]%Q)]).
Proof. reflexivity. Qed.

(** ** the occupancy factor *)
(** An answer is the time used per CPU and per unit of time since an earlier call, [i]; calls between were at its time. *)
Theorem C82_since_last : forall cpus l j u t q, nth_error l j = Some (u, t) -> nth_error (occupancies cpus None l) j = Some (Some q) ->
  exists i u0 t0, i < j /\ nth_error l i = Some (u0, t0) /\ t <> t0 /\ q = ((inject_Z (u - u0) / inject_Z cpus) / inject_Z (t - t0))%Q /\
  (forall k u1 t1, i < k < j -> nth_error l k = Some (u1, t1) -> t1 = t0).
Proof. exact occ_ok. Qed.
Print Assumptions C82_since_last.
(** There is one whenever the clock moved since the call before. *)
Theorem C82_answered : forall cpus l j u t u1 t1, nth_error l (S j) = Some (u, t) -> nth_error l j = Some (u1, t1) -> t <> t1 ->
  exists q, nth_error (occupancies cpus None l) (S j) = Some (Some q).
Proof. exact occ_some. Qed.
Print Assumptions C82_answered.

(** The answers are between 0 and 1, on a machine whose [cpus] spend their time on users, on the system, on interrupts and stolen by a hypervisor; where
    there are virtual machines, the time of users contains that of guests. *)
Definition C82_between_full_statement : Prop := forall cpus (l : list (times * Z)), (0 < cpus)%Z ->
  (forall i j c0 t0 c t, i < j -> nth_error l i = Some (c0, t0) -> nth_error l j = Some (c, t) -> (t0 <= t)%Z /\ (0 <= spent c - spent c0 <= cpus * (t - t0))%Z) ->
  forall us, map (fun r => used (fst r)) l = map Some us ->
  forall j q, nth_error (occupancies cpus None (combine us (map snd l))) j = Some (Some q) -> (0 <= q <= 1)%Q.
(** So it is if the time used, as it is added up, does not grow faster than the time of all CPUs. *)
Theorem C82_between_partial : forall cpus (l : list (Z * Z)), (0 < cpus)%Z ->
  (forall i j u0 t0 u t, i < j -> nth_error l i = Some (u0, t0) -> nth_error l j = Some (u, t) -> (t0 <= t)%Z /\ (0 <= u - u0 <= cpus * (t - t0))%Z) ->
  forall j u t q, nth_error l j = Some (u, t) -> nth_error (occupancies cpus None l) j = Some (Some q) -> (0 <= q <= 1)%Q.
Proof.
  intros cpus l C H j u t q E A. destruct (occ_ok cpus l j u t q E A) as (i & u0 & t0 & L & E0 & N & -> & _).
  destruct (H i j u0 t0 u t L E0 E) as [T B]. apply occ_bounds; auto. lia.
Qed.
Print Assumptions C82_between_partial.
(** What counts as used on a platform: everything there is on Linux, and less where some of it is not measured. *)
Theorem C82_used : forall c u n s i q st, c User = Some u -> c System = Some s ->
  (c Nice = Some n -> c Irq = Some i -> c Softirq = Some q -> c Steal = Some st -> c Guest = Some 0%Z -> c GuestNice = Some 0%Z -> used c = Some (spent c)) /\
  (c Nice = Some n -> c Irq = Some i -> c Softirq = Some q -> c Steal = None -> used c = Some (u + n + s + i + q)%Z) /\
  (c Nice = Some n -> c Softirq = None -> used c = Some (u + n + s)%Z) /\
  (c Nice = None -> forall a b, c Interrupt = Some a -> c Dpc = Some b -> used c = Some (u + s + a + b)%Z).
Proof. exact used_by_platform. Qed.
Print Assumptions C82_used.
(** On Linux guests are added although they are in the time of users already: one CPU that only runs a guest is at 2. *)
Definition guest_only (n : Z) : times := fun f => match f with User | Guest => Some n | Interrupt | Dpc => None | _ => Some 0%Z end.
Theorem C82_guests_refuted : used (guest_only 0) = Some 0%Z /\ used (guest_only 10) = Some 20%Z /\
  exists q, occupancies 1 None [(0, 0); (20, 10)]%Z = [None; Some q] /\ (q == 2)%Q.
Proof. split; [reflexivity|]. split; [reflexivity|]. eexists. split; [reflexivity|]. reflexivity. Qed.
Print Assumptions C82_guests_refuted.
Theorem C82_between_full_statement_refuted : ~ C82_between_full_statement.
Proof.
  intros H.
  assert (B : (0 <= (inject_Z 20 / inject_Z 1) / inject_Z 10 <= 1)%Q).
  { apply (H 1%Z [(guest_only 0, 0%Z); (guest_only 10, 10%Z)]) with (us := [0; 20]%Z) (j := 1); [lia| |reflexivity|reflexivity].
    intros [|[|i]] [|[|j]] c0 t0 c t L E0 E; simpl in E0, E; try lia; try (destruct i; discriminate); try (destruct j; discriminate).
    injection E0 as <- <-. injection E as <- <-. vm_compute. repeat split; discriminate. }
  destruct B as [_ B]. vm_compute in B. apply B. reflexivity.
Qed.
Print Assumptions C82_between_full_statement_refuted.
