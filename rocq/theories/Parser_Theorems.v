(** C29: BinaryParser (satella/parsing.py). *)
From Verif Require Import Prelude Parser_Model Parser_Spec Parser_Proofs.
Local Open Scope Z_scope.

(** Any session with a parser and the parsers made from it, in any order, is one of readers of windows of
    bytes: each reads its window from the left to the right, refuses to read past its end without moving,
    hands the next n bytes to a parser made from it. Missing: windows that are empty or reach past the end of
    the stream, an offset without a length, negative amounts. *)
Theorem C29_reads_the_window_partial : forall B V (stream : list B) offset len (ops : list (nat * parser_op B V)) p r,
  proper_window stream offset len ->
  new_parser stream (Z.of_nat offset) (option_map Z.of_nat len) = Ok p -> new_reader stream offset len = Ok r ->
  proper 1 [r] ops ->
  fst (parser_run stream [p] ops) = readers_run [r] ops.
Proof. intros B V stream. exact (session_ok stream). Qed.
Print Assumptions C29_reads_the_window_partial.
(** An offset past the end of the stream is refused. *)
Theorem C29_offset : forall B (stream : list B) offset len, proper_window stream offset len ->
  (new_parser stream (Z.of_nat offset) (option_map Z.of_nat len) = Err NotEnoughBytes <-> new_reader stream offset len = Err NotEnoughBytes).
Proof. intros B stream. exact (new_same stream). Qed.
Print Assumptions C29_offset.
(** The readers never read more than their window: bytes read and bytes left make up the window. *)
Theorem C29_nothing_lost : forall B V (rs : list (reader B)) (ops : list (nat * parser_op B V)),
  Forall (fun r => (consumed r <= length (window r))%nat) rs -> proper 0 rs ops ->
  Forall (fun r => (consumed r <= length (window r))%nat) (fold_left (fun rs io => fst (readers_step rs (fst io) (snd io))) ops rs).
Proof. intros B V. exact reader_counts. Qed.
Print Assumptions C29_nothing_lost.

(** ** What fails *)
Definition C29_full_statement : Prop := forall B V (stream : list B) offset len (ops : list (nat * parser_op B V)) p r,
  new_parser stream (Z.of_nat offset) (option_map Z.of_nat len) = Ok p -> new_reader stream offset len = Ok r ->
  proper 0 [r] ops ->
  fst (parser_run stream [p] ops) = readers_run [r] ops.
(** An offset without a length: the length is that of the whole stream, so one byte of two counts as two, and
    reading both gives one. *)
Theorem C29_full_statement_refuted : ~ C29_full_statement.
Proof.
  intros H. specialize (H Z Z [1; 2] 1%nat None [(0%nat, PRemainingCount)] (mk_parser 1 1 2) (mk_reader [2] 1 0) eq_refl eq_refl).
  assert (E : [@OInt Z Z 2] = [OInt 1]); [|discriminate].
  apply H. simpl. split; auto.
Qed.
Print Assumptions C29_full_statement_refuted.
Theorem C29_offset_without_length_refuted :
  match new_parser [1; 2] 1 None with
  | Ok p => fst (parser_run (V := Z) [1; 2] [p] [(0%nat, PRemainingCount); (0%nat, PGetBytes 2)])
  | Err _ => []
  end = [OInt 2; OBytes (Ok [2])].
Proof. reflexivity. Qed.
Print Assumptions C29_offset_without_length_refuted.
(** A length past the end of the stream is believed. *)
Theorem C29_length_too_large_refuted :
  match new_parser [1; 2] 0 (Some 5) with
  | Ok p => fst (parser_run (V := Z) [1; 2] [p] [(0%nat, PRemainingCount); (0%nat, PGetBytes 4)])
  | Err _ => []
  end = [OInt 5; OBytes (Ok [1; 2])].
Proof. reflexivity. Qed.
Print Assumptions C29_length_too_large_refuted.
(** get_parser(0) gives a window that reaches past the end of its parent, where it should give an empty one. *)
Theorem C29_empty_window_refuted :
  match new_parser [1; 2; 3; 4] 0 (Some 2) with
  | Ok p => fst (parser_run (V := Z) [1; 2; 3; 4] [p]
                   [(0%nat, PGetBytes 1); (0%nat, PGetParser 0); (1%nat, PLen); (1%nat, PGetBytes 3)])
  | Err _ => []
  end = [OBytes (Ok [1]); OUnit (Ok tt); OInt 4; OBytes (Ok [2; 3; 4])].
Proof. reflexivity. Qed.
Print Assumptions C29_empty_window_refuted.

(** ** Examples *)
Definition u8 : struct Z Z := mk_struct 1 true (fun l => Ok l).
Definition C29_ops : list (nat * parser_op Z Z) :=
  [(0, PGetStruct u8); (0, PGetParser 2); (1, PGetBytes 1); (1, PRemaining); (1, PGetBytes 2); (1, PRemainingCount); (0, PGetBytes 2);
   (0, PTell); (0, PReset); (0, PRemaining); (0, PSeek 3); (0, PGetBytes 1)]%nat.
Example C29_example :
  match new_parser [9; 1; 2; 3; 4; 9] 1 (Some 4) with
  | Ok p => fst (parser_run [9; 1; 2; 3; 4; 9] [p] C29_ops)
  | Err _ => []
  end = [OValue (Ok 1); OUnit (Ok tt); OBytes (Ok [2]); OBytes (Ok [3]); OBytes (Err NotEnoughBytes); OInt 1; OBytes (Err NotEnoughBytes);
         OInt 4; OUnit (Ok tt); OBytes (Ok [1; 2; 3; 4]); OUnit (Ok tt); OBytes (Ok [3])].
Proof. reflexivity. Qed.
Example C29_example_hypotheses :
  proper_window [9; 1; 2; 3; 4; 9] 1 (Some 4%nat) /\ proper 1 [mk_reader [1; 2; 3; 4] 1 0] C29_ops.
Proof.
  split; [vm_compute; lia|]. unfold C29_ops. cbn.
  repeat (split; [let H := fresh in intros ? H; injection H as <-; cbn; try exact I; lia|]). exact I.
Qed.
