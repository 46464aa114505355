(** C106: calling a process returns everything it printed. *)
From Verif Require Import Prelude Procs_Model Procs_Spec Procs_Proofs.
From Coq Require Import Lia.
Set Implicit Arguments.

Section C106.
  Variables byte char : Type.
  Implicit Types (encoding : option (list byte -> res (list char))) (output : list byte).

  (** Whatever the process prints, however large the pipe and in whatever order the threads and the process take
      turns, a call without a timeout can go on until it has returned the whole output. *)
  Definition C106_full_statement : Prop := forall capacity encoding expected output c ms,
    0 < capacity -> exits_with c ms ->
    exists ms', calling (run capacity false encoding expected (started char output) (ms ++ ms')) =
                Done (expected_outcome encoding expected output c).

  (** If a call ends, it ends with the whole output, refused if the exit code is not the expected one; or with a
      TimeoutError, if there was a timeout. The encoding must be one that decodes pieces of a text into pieces. *)
  Theorem C106_partial : forall capacity has_timeout encoding expected output c ms o,
    exits_with c ms -> (forall dec, encoding = Some dec -> splits dec) ->
    calling (run capacity has_timeout encoding expected (started char output) ms) = Done o ->
    o = expected_outcome encoding expected output c \/ (has_timeout = true /\ o = Raised TimeoutExn).
  Proof.
    intros capacity has_timeout encoding expected output c ms o He Hs Hd.
    pose proof (inv_run He (inv_started capacity has_timeout encoding expected output c)) as I.
    destruct (i_done I Hd) as [[E ->]|(rows & <- & ->)]; [right; auto|left]. apply finish_expected. exact Hs.
  Qed.

  (** Output that fits into the pipe: never stuck before the end, ... *)
  Theorem C106_no_deadlock_partial : forall capacity has_timeout encoding expected output c ms,
    0 < capacity -> length output <= capacity -> exits_with c ms ->
    let s := run capacity has_timeout encoding expected (started char output) ms in
    (forall o, calling s <> Done o) ->
    exists m, (m = Write (length (out s)) \/ m = Exit c \/ m = Read \/ m = Call) /\
              step capacity has_timeout encoding expected s m <> s.
  Proof.
    intros capacity has_timeout encoding expected output c ms Hc Hl He s Hd. eapply can_go; eauto.
    apply inv_run; auto. apply inv_started.
  Qed.
  (** ... and after [2 * length output + 4] steps that do something it has ended, whatever the order. *)
  Theorem C106_bounded : forall capacity has_timeout encoding expected output ms,
    (forall l m r, ms = l ++ m :: r ->
       let s := run capacity has_timeout encoding expected (started char output) l in
       step capacity has_timeout encoding expected s m <> s) ->
    length ms <= 2 * length output + 4.
  Proof.
    intros capacity has_timeout encoding expected output ms H.
    assert (G : forall ms s, (forall l m r, ms = l ++ m :: r ->
       step capacity has_timeout encoding expected (run capacity has_timeout encoding expected s l) m <> run capacity has_timeout encoding expected s l) ->
       length ms <= left_ s).
    { clear. induction ms as [|m t IH]; intros s H; simpl; [lia|].
      pose proof (@less _ _ capacity has_timeout encoding expected s m (H [] m t eq_refl)) as L. simpl in L.
      enough (length t <= left_ (step capacity has_timeout encoding expected s m)) by lia.
      apply IH. intros l m' r ->. exact (H (m :: l) m' r eq_refl). }
    specialize (G ms (started char output) H). unfold left_ in G. simpl in G. lia.
  Qed.

  (** Output that does not fit: without a timeout the call never returns, ... *)
  Theorem C106_hangs : forall capacity encoding expected output ms,
    capacity < length output ->
    calling (run capacity false encoding expected (started char output) ms) = Waits.
  Proof.
    intros capacity encoding expected output ms H.
    exact (j_not (@jam_run _ _ capacity false encoding expected output ms _ H (jam_started char capacity false output)) eq_refl).
  Qed.
  (** ... and with a timeout it always times out. *)
  Theorem C106_hangs_timeout : forall capacity has_timeout encoding expected output ms o,
    capacity < length output ->
    calling (run capacity has_timeout encoding expected (started char output) ms) = Done o -> o = Raised TimeoutExn.
  Proof.
    intros capacity has_timeout encoding expected output ms o H.
    intros E. exact (j_done (@jam_run _ _ capacity has_timeout encoding expected output ms _ H (jam_started char capacity has_timeout output)) E).
  Qed.
End C106.
Print Assumptions C106_partial.
Print Assumptions C106_no_deadlock_partial.
Print Assumptions C106_bounded.
Print Assumptions C106_hangs.
Print Assumptions C106_hangs_timeout.

Example C106_case :
  let ms := [Write 2; Read; Call; Write 9; Exit 3; Read; Call; Read; Call]%Z in
  exits_with 3 ms /\
  calling (run (char := nat) 10 true None (Some 0%Z) (started nat [1; 2; 3]) ms) = Done (Failed 3%Z (Bytes [1; 2; 3])) /\
  calling (run (char := nat) 10 true None (Some 3%Z) (started nat [1; 2; 3]) ms) = Done (Returned (Bytes [1; 2; 3])) /\
  calling (run (char := nat) 10 true None None (started nat [1; 2; 3]) [Write 2; Timeout; Read; Read; Call]) = Done (Raised TimeoutExn).
Proof.
  cbv zeta. split; [|repeat split; reflexivity]. intros c' H. simpl in H.
  repeat (destruct H as [H|H]; [try discriminate; injection H; auto|]). contradiction.
Qed.
(** upper-casing ASCII decodes piece by piece *)
Example C106_splits : splits (fun l : list nat => Ok (map (fun b => b - 32) l)).
Proof. split; [reflexivity|]. intros a b. rewrite map_app. reflexivity. Qed.

Theorem C106_full_statement_refuted : ~ C106_full_statement nat nat.
Proof.
  intros H. destruct (H 1 None None [1; 2] 0%Z [] ltac:(lia)) as [ms' E]; [intros c' []|].
  rewrite C106_hangs in E by (simpl; lia). discriminate E.
Qed.
Print Assumptions C106_full_statement_refuted.

(** UTF-8, as far as needed here: a character below 128 is itself, and 195 stands before the second byte of another. *)
Fixpoint utf8 (l : list N) : res (list N) :=
  match l with
  | [] => Ok []
  | b :: t =>
    if (b <? 128)%N then match utf8 t with Ok cs => Ok (b :: cs) | Err e => Err e end
    else match t with
         | b2 :: t2 => if (b =? 195)%N && (128 <=? b2)%N then match utf8 t2 with Ok cs => Ok ((64 + b2)%N :: cs) | Err e => Err e end
                       else Err ValueError
         | [] => Err ValueError
         end
  end.
(** A character whose two bytes fall into different pieces of 2048 bytes is not decoded: a UnicodeDecodeError. *)
Theorem C106_encoding_refuted : exists output : list N,
  let ms := [Write 4096; Exit 0; Read; Read; Read; Call; Call]%Z in
  expected_outcome (Some utf8) None output 0 = Returned (Chars (repeat 97%N 2047 ++ [233%N])) /\
  calling (run 4096 false (Some utf8) None (started N output) ms) = Done (Raised ValueError).
Proof. exists (repeat 97%N 2047 ++ [195%N; 169%N]). split; vm_compute; reflexivity. Qed.
Print Assumptions C106_encoding_refuted.
