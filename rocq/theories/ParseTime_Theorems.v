(** C28: parse_time_string (satella/time/parse.py). *)
From Verif Require Import Prelude ParseTime_Model ParseTime_Spec ParseTime_Proofs.
Local Open Scope string_scope.

(** A number followed by a unit is that many seconds, whatever float() is. For words that start with the letter
    of the unit and have no letter of a smaller unit in them. Missing: minutes, hours, days, weeks. *)
Theorem C28_number_and_unit_partial : forall to_float number word seconds,
  plain number -> unit_word word seconds ->
  parse_time_string to_float (inr (number ++ word))
  = match to_float number with Ok q => Ok (q * inject_Z seconds)%Q | Err e => Err e end.
Proof. exact parse_unit. Qed.
Print Assumptions C28_number_and_unit_partial.
Theorem C28_understood_units : forall word seconds, In (word, seconds) understood_units -> unit_word word seconds.
Proof. exact understood. Qed.
Print Assumptions C28_understood_units.

(** Numbers are seconds, written or not. *)
Theorem C28_plain_number : forall to_float number, plain number -> parse_time_string to_float (inr number) = to_float number.
Proof. exact parse_plain. Qed.
Print Assumptions C28_plain_number.
Theorem C28_number : forall to_float q, parse_time_string to_float (inl q) = Ok q.
Proof. reflexivity. Qed.
Print Assumptions C28_number.

(** ** What fails *)
Definition C28_full_statement : Prop := forall to_float number word seconds,
  plain number -> In (word, seconds) documented_units ->
  parse_time_string to_float (inr (number ++ word))
  = match to_float number with Ok q => Ok (q * inject_Z seconds)%Q | Err e => Err e end.
(** '5 days' has an s in it, so float('5 day') is asked for. *)
Theorem C28_full_statement_refuted : ~ C28_full_statement.
Proof.
  intros H. specialize (H whole_float "5 " "days" 86400%Z).
  assert (P : plain "5 ").
  { intros c Hc. cbn [has] in Hc. destruct (Ascii.eqb "5" c) eqn:E1; [apply Ascii.eqb_eq in E1; subst c; reflexivity|].
    destruct (Ascii.eqb " " c) eqn:E2; [apply Ascii.eqb_eq in E2; subst c; reflexivity|]. discriminate Hc. }
  specialize (H P). assert (I : In ("days", 86400%Z) documented_units) by (unfold documented_units; do 9 right; left; reflexivity). specialize (H I).
  vm_compute in H. discriminate.
Qed.
Print Assumptions C28_full_statement_refuted.
(** Any word with an s at the end and none before: float() is given the number together with the word. *)
Theorem C28_plural_refuted : forall to_float number word, plain number -> has "s" word = false ->
  parse_time_string to_float (inr (number ++ word ++ "s"))
  = match to_float (number ++ word) with Ok q => Ok (q * inject_Z 1)%Q | Err e => Err e end.
Proof. exact parse_plural. Qed.
Print Assumptions C28_plural_refuted.

(** ** Examples *)
Example C28_example_30m : parse_time_string whole_float (inr "30m") = Ok (inject_Z 30 * inject_Z 60)%Q.
Proof. reflexivity. Qed.
Example C28_example_30_min : parse_time_string whole_float (inr "30 min") = Ok (inject_Z 30 * inject_Z 60)%Q.
Proof. reflexivity. Qed.
Example C28_example_plain : parse_time_string whole_float (inr "30") = Ok (inject_Z 30).
Proof. reflexivity. Qed.
Example C28_example_plurals : map (fun s => parse_time_string whole_float (inr s)) ["5 minutes"; "5 hours"; "5 days"; "5 weeks"; "5 seconds"]
  = [Err ValueError; Err ValueError; Err ValueError; Err ValueError; Ok (inject_Z 5 * inject_Z 1)%Q].
Proof. reflexivity. Qed.
