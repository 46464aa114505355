(** C107: sleeping lasts as long as asked. C108: waiting for a signal ends when it comes, and restores the handlers. *)
From Verif Require Import Prelude Sleep_Model Sleep_Spec Sleep_Proofs.
From Coq Require Import Lia.
Set Implicit Arguments.
Open Scope Z_scope.

(** C107. With any interruptions, once there was a time.sleep that was not interrupted the sleep has ended: with True,
    and not before its time. *)
Definition C107_full_statement : Prop := forall y turns1 t t' turns2,
  0 <= y -> sane y 0 (turns1 ++ t :: t' :: turns2) -> interrupted t = false ->
  exists r, sleep y false (turns1 ++ t :: t' :: turns2) = Some r /\ ended r = Ok true /\ y <= when_ r.
(** So it is when the end never falls between the two readings of the clock; and time.sleep is called at most once
    more than it is interrupted, never for longer than asked. *)
Theorem C107_partial : forall y turns1 t t' turns2,
  0 <= y -> sane y 0 (turns1 ++ t :: t' :: turns2) -> interrupted t = false ->
  Forall (not_between y) (turns1 ++ [t]) ->
  exists r, sleep y false (turns1 ++ t :: t' :: turns2) = Some r /\ ended r = Ok true /\ y <= when_ r /\
    (length (asked r) <= S (length turns1))%nat /\ Forall (fun a => 0 <= a <= y) (asked r).
Proof.
  intros y turns1 t t' turns2 Hy S I F. unfold sleep. destruct (Z.ltb_spec y 0); [lia|].
  destruct (@sleeping_full y turns1 t t' turns2 0 [] S F I) as (r & E1 & E2 & E3 & new & E4 & E5 & E6).
  exists r. repeat split; auto; rewrite E4; [exact E5|]. simpl. eapply Forall_impl; [|exact E6]. simpl. intros a. lia.
Qed.
Print Assumptions C107_partial.
(** Whatever the clock does: it returns True only after its time; False only for a negative time or, if it may be
    aborted, when interrupted; and the only exception is a ValueError. *)
Theorem C107_answers : forall y abort turns r, sleep y abort turns = Some r ->
  match ended r with
  | Ok true => 0 <= y <= when_ r
  | Ok false => y < 0 \/ abort = true
  | Err e => e = ValueError
  end.
Proof.
  intros y abort turns r H. unfold sleep in H. destruct (Z.ltb_spec y 0); [injection H as <-; simpl; auto|].
  pose proof (sleeping_ends _ _ _ _ H) as E. destruct (ended r) as [[|]|e]; [lia|auto|exact E].
Qed.
Print Assumptions C107_answers.
(** A negative time returns False at once, without sleeping. *)
Theorem C107_negative : forall y abort turns, y < 0 ->
  sleep y abort turns = Some {| ended := Ok false; when_ := 0; asked := [] |}.
Proof. intros y abort turns H. unfold sleep. destruct (Z.ltb_spec y 0); [reflexivity|lia]. Qed.
Print Assumptions C107_negative.
(** One that may be aborted is, at the first interruption, at that moment. *)
Theorem C107_aborted : forall y turns1 t turns2,
  0 <= y -> sane y 0 (turns1 ++ t :: turns2) ->
  Forall (fun u => test u < y /\ arg u <= y /\ interrupted u = false) turns1 -> test t < y -> arg t <= y -> interrupted t = true ->
  exists calls, sleep y true (turns1 ++ t :: turns2) =
    Some {| ended := Ok false; when_ := arg t + lasts t; asked := calls |} /\ length calls = S (length turns1).
Proof.
  intros y turns1 t turns2 Hy S F T A I. unfold sleep. destruct (Z.ltb_spec y 0); [lia|].
  rewrite (@sleeping_aborted y turns1 t turns2 0 [] S F T A I). eexists. split; [reflexivity|].
  simpl. rewrite map_length, app_length. simpl. lia.
Qed.
Print Assumptions C107_aborted.
Example C107_case :
  let a := {| test := 0; arg := 0; lasts := 3; interrupted := true |} in
  let b := {| test := 4; arg := 5; lasts := 6; interrupted := false |} in
  let c := {| test := 11; arg := 11; lasts := 0; interrupted := false |} in
  sane 10 0 [a; b; c] /\ Forall (not_between 10) [a; b] /\
  sleep 10 false [a; b; c] = Some {| ended := Ok true; when_ := 11; asked := [10; 5] |} /\
  sleep 10 true [a; b; c] = Some {| ended := Ok false; when_ := 3; asked := [10] |}.
Proof.
  cbv zeta. simpl. repeat split; try lia; try discriminate.
  repeat constructor; unfold not_between; simpl; lia.
Qed.
(** If the end falls between the test and the second reading, time.sleep is asked for less than 0: a ValueError. *)
Theorem C107_full_statement_refuted : ~ C107_full_statement.
Proof.
  intros H. destruct (H 10 [] {| test := 9; arg := 11; lasts := 0; interrupted := false |}
                           {| test := 12; arg := 12; lasts := 0; interrupted := false |} []) as (r & E & E' & _); try lia; auto.
  - cbn [sane app test arg lasts interrupted]. repeat split; intros; lia.
  - injection E as <-. discriminate E'.
Qed.
Print Assumptions C107_full_statement_refuted.

(** C108. It returns after the first turn in which SIGTERM, SIGINT or an extra signal comes, and then all handlers
    are as they were. *)
Definition C108_full_statement : Prop := forall catchable extra s quiet p rest,
  Forall (fun x => catchable x = true) extra -> end_ s = false ->
  (forall x, ~ listened extra x -> table s x <> Ours) ->
  Forall (silent (SIGINT :: extra)) quiet -> loud (SIGINT :: extra) p ->
  exists s', hang catchable extra s (quiet ++ p :: rest) = Returns s' (S (length quiet)) /\ same_handlers s' s /\ end_ s' = false.
(** So it is for SIGTERM and the extra signals, if none is named twice, nor SIGTERM among them. *)
Theorem C108_partial : forall catchable extra s quiet p rest,
  Forall (fun x => catchable x = true) extra -> NoDup (SIGTERM :: extra) -> end_ s = false ->
  (forall x, ~ listened extra x -> table s x <> Ours) ->
  Forall (silent extra) quiet -> loud extra p ->
  exists s', hang catchable extra s (quiet ++ p :: rest) = Returns s' (S (length quiet)) /\ same_handlers s' s /\ end_ s' = false.
Proof.
  intros catchable extra s quiet p rest F N E O Q L. unfold hang.
  destruct (@installed catchable extra s F N O) as (s1 & -> & D & T & U). rewrite E in D.
  destruct (@polling_silent extra (table s1) T quiet s1 (p :: rest) 0 eq_refl D Q) as (s2 & -> & T2 & D2).
  destruct (@polling_loud extra (table s1) T p rest s2 (0 + length quiet)%nat T2 D2 L) as (s3 & -> & T3 & D3).
  eexists. split; [reflexivity|]. split; [|reflexivity]. intros x. simpl. inversion N as [|? ? Na Nl]; subst.
  rewrite (@restores_ok extra (table s) _ Nl x). simpl. rewrite T3.
  destruct (existsb (Nat.eqb x) extra) eqn:Ex; [reflexivity|].
  destruct (Nat.eqb_spec x SIGTERM) as [->|Nx]; [reflexivity|]. apply U. intros [H|H]; [auto|]. apply existsb_In in H. congruence.
Qed.
Print Assumptions C108_partial.
(** Until then it waits. *)
Theorem C108_waits : forall catchable extra s quiet,
  Forall (fun x => catchable x = true) extra -> NoDup (SIGTERM :: extra) -> end_ s = false ->
  (forall x, ~ listened extra x -> table s x <> Ours) ->
  Forall (silent extra) quiet -> exists s', hang catchable extra s quiet = Hangs s'.
Proof.
  intros catchable extra s quiet F N E O Q. unfold hang.
  destruct (@installed catchable extra s F N O) as (s1 & -> & D & T & U). rewrite E in D.
  destruct (@polling_silent extra (table s1) T quiet s1 [] 0 eq_refl D Q) as (s2 & H & T2 & D2).
  rewrite app_nil_r in H. rewrite H. simpl. rewrite D2. eauto.
Qed.
Print Assumptions C108_waits.
Definition all_default : signals := {| table := fun x => Other x; end_ := false |}.
Example C108_case : exists s',
  hang (fun x => negb (x =? 9)%nat) [10; 12]%nat all_default [Came [2; 17]; Came []; Came [12; 2]; Came [15]]%nat = Returns s' 3%nat /\
  table s' 12%nat = Other 12 /\ table s' 15%nat = Other 15 /\
  silent [10; 12]%nat (Came [2; 17]%nat) /\ loud [10; 12]%nat (Came [12; 2]%nat).
Proof.
  eexists. split; [reflexivity|]. split; [reflexivity|]. split; [reflexivity|]. unfold listened, SIGTERM. split.
  - intros sig [<-|[<-|[]]] [H|[H|[H|[]]]]; discriminate.
  - exists 12%nat. split; [left; reflexivity|]. right. simpl. auto.
Qed.
(** SIGINT, which the documentation names, does not end it, however often it comes. *)
Theorem C108_sigint : forall catchable extra s n,
  Forall (fun x => catchable x = true) extra -> NoDup (SIGTERM :: extra) -> end_ s = false ->
  (forall x, ~ listened extra x -> table s x <> Ours) -> ~ In SIGINT extra ->
  exists s', hang catchable extra s (repeat (Came [SIGINT]) n) = Hangs s'.
Proof.
  intros catchable extra s n F N E O I. apply C108_waits; auto. apply Forall_forall. intros p Hp. apply repeat_spec in Hp. subst p.
  intros sig [<-|[]] [H|H]; [discriminate|auto].
Qed.
Print Assumptions C108_sigint.
Theorem C108_full_statement_refuted : ~ C108_full_statement.
Proof.
  intros H. destruct (H (fun _ => true) [] all_default [] (Came [SIGINT]) []) as (s' & E & _); simpl; auto.
  - discriminate.
  - exists SIGINT. split; [left; reflexivity|]. right. left. reflexivity.
  - discriminate E.
Qed.
Print Assumptions C108_full_statement_refuted.
(** With SIGTERM among the extra signals the handler of this module stays in place after the return; it stays too,
    and so does the flag, when a KeyboardInterrupt comes outside of time.sleep, or a signal cannot be caught. *)
Theorem C108_restored_refuted :
  (exists s', hang (fun _ => true) [SIGTERM] all_default [Came [SIGTERM]] = Returns s' 1%nat /\ table s' SIGTERM = Ours) /\
  (exists s', hang (fun _ => true) [] all_default [Interrupted] = Raises s' /\ table s' SIGTERM = Ours) /\
  (exists s', hang (fun x => negb (x =? 9)%nat) [9%nat] all_default [] = Raises s' /\ table s' SIGTERM = Ours).
Proof. repeat split; eexists; split; reflexivity. Qed.
Print Assumptions C108_restored_refuted.
