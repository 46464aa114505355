(** C03, C04: theorems about TimeBasedHeap and TimeBasedSetHeap. *)
From Verif Require Import Prelude Order_Spec TimeHeap_Model TimeHeap_Spec TimeHeap_Proofs.

(** C03, full statement (false, see below): every session on a fresh
    TimeBasedHeap answers as a bag of (timestamp, item) entries. *)
Definition C03_full_statement : Prop :=
  forall (V : Type) (ltV eqV : V -> V -> bool) (sub1 : V -> res V),
    total_preorder ltV -> eqb_ok eqV ->
    forall ops : list (time_op V),
    exists final,
      time_bag_session [] ops (fst (th_run ltV eqV sub1 [] ops)) final /\
      Permutation final (snd (th_run ltV eqV sub1 [] ops)).

(** C03, proved part: all sessions without get_timestamp and copy. *)
Theorem C03_time_heap_is_a_bag_partial :
  forall (V : Type) (ltV eqV : V -> V -> bool) (sub1 : V -> res V),
    total_preorder ltV -> eqb_ok eqV ->
    forall ops : list (time_op V),
      forallb time_bag_safe ops = true ->
    exists final,
      time_bag_session [] ops (fst (th_run ltV eqV sub1 [] ops)) final /\
      Permutation final (snd (th_run ltV eqV sub1 [] ops)).
Proof. exact @time_heap_session_ok. Qed.
Print Assumptions C03_time_heap_is_a_bag_partial.

(** C04, full statement (false, see below). *)
Definition C04_full_statement : Prop :=
  forall (V : Type) (ltV eqV : V -> V -> bool),
    total_preorder ltV -> eqb_ok eqV ->
    forall ops : list (time_op V),
      ~ In TPeek ops ->
    exists final,
      time_set_session [] ops (fst (tsh_run ltV eqV tsh_init ops)) final /\
      Permutation final (ts_data (snd (tsh_run ltV eqV tsh_init ops))).

(** C04, proved part: all sessions without remove and copy (peek_closest does
    not exist on this class). *)
Theorem C04_time_set_heap_is_a_map_partial :
  forall (V : Type) (ltV eqV : V -> V -> bool),
    total_preorder ltV -> eqb_ok eqV ->
    forall ops : list (time_op V),
      forallb time_set_safe ops = true ->
    exists final,
      time_set_session [] ops (fst (tsh_run ltV eqV tsh_init ops)) final /\
      Permutation final (ts_data (snd (tsh_run ltV eqV tsh_init ops))).
Proof. exact (fun V l e => @time_set_session_ok V l e (fun x => Ok x)). Qed.
Print Assumptions C04_time_set_heap_is_a_map_partial.

(** ** Hypotheses are met, and the models run *)
Local Definition no_sub (_ : nat) : res nat := Err TypeError.   (* integers are not subscriptable *)
Example C03_nat_lt_ord : total_preorder Nat.ltb.
Proof.
  split.
  - intros a b H. apply Nat.ltb_lt in H. apply Nat.ltb_ge. lia.
  - intros a b c H1 H2. apply Nat.ltb_ge in H1. apply Nat.ltb_ge in H2. apply Nat.ltb_ge. lia.
Qed.
Example C03_nat_eqb_ok : eqb_ok Nat.eqb.
Proof. intros x y. apply Nat.eqb_eq. Qed.

Example C03_example :
  fst (th_run Nat.ltb Nat.eqb no_sub []
        [TPut 5 1; TPut 3 2; TPut 9 3; TPutNow 4 1; TPopLess 5 10; TPeek; TPopItem 3; TPopTimestamp 9])
  = [TONone; TONone; TONone; TONone; TOEntries [(3%Z, 2); (4%Z, 1)]; TOEntry (5%Z, 1);
     TOEntry (9%Z, 3); TORaise ValueError].
Proof. vm_compute. reflexivity. Qed.

Example C04_example :
  fst (tsh_run Nat.ltb Nat.eqb tsh_init
        [TPut 5 1; TPut 3 2; TPut 9 1; TGetTimestamp 1; TLen; TPopLess 5 10; TGetTimestamp 2])
  = [TONone; TONone; TONone; TOTime 9; TONat 2; TOEntries [(3%Z, 2)]; TORaise ValueError].
Proof. vm_compute. reflexivity. Qed.

(** ** C03 is false of the code *)

(** get_timestamp of a stored, non-subscriptable item raises TypeError *)
Theorem C03_get_timestamp_refuted :
  fst (th_run Nat.ltb Nat.eqb no_sub [] [TPut 5 1; TGetTimestamp 1]) = [TONone; TORaise TypeError].
Proof. vm_compute. reflexivity. Qed.
Print Assumptions C03_get_timestamp_refuted.

(** copying a TimeBasedHeap yields an empty heap *)
Theorem C03_copy_refuted :
  fst (th_run Nat.ltb Nat.eqb no_sub [] [TPut 5 1; TLen; TCopy; TLen]) = [TONone; TONat 1; TONone; TONat 0].
Proof. vm_compute. reflexivity. Qed.
Print Assumptions C03_copy_refuted.

Theorem C03_full_statement_refuted : ~ C03_full_statement.
Proof.
  intros H.
  destruct (H nat Nat.ltb Nat.eqb no_sub C03_nat_lt_ord C03_nat_eqb_ok [TPut 5 1; TGetTimestamp 1])
    as (final & Hs & _).
  vm_compute in Hs. inversion Hs as [|? ? ? b1 ? ? ? St1 Hs1]; subst.
  inversion Hs1 as [|? ? ? b2 ? ? ? St2 Hs2]; subst. inversion St2.
Qed.
Print Assumptions C03_full_statement_refuted.

(** ** C04 is false of the code: after remove the item is still reported, and
    putting it again raises ValueError *)
Theorem C04_remove_refuted :
  fst (tsh_run Nat.ltb Nat.eqb tsh_init [TPut 5 1; TRemove 1; TLen; TGetTimestamp 1; TPut 6 1; TLen])
  = [TONone; TONone; TONat 0; TOTime 5; TORaise ValueError; TONat 0].
Proof. vm_compute. reflexivity. Qed.
Print Assumptions C04_remove_refuted.

Theorem C04_copy_refuted :
  fst (tsh_run Nat.ltb Nat.eqb tsh_init [TPut 5 1; TLen; TCopy; TLen]) = [TONone; TONat 1; TONone; TONat 0].
Proof. vm_compute. reflexivity. Qed.
Print Assumptions C04_copy_refuted.

Theorem C04_full_statement_refuted : ~ C04_full_statement.
Proof.
  intros H.
  destruct (H nat Nat.ltb Nat.eqb C03_nat_lt_ord C03_nat_eqb_ok [TPut 5 1; TRemove 1; TPut 6 1])
    as (final & Hs & _).
  { simpl. intuition discriminate. }
  vm_compute in Hs. inversion Hs as [|? ? ? b1 ? ? ? _ St1 Hs1]; subst.
  inversion Hs1 as [|? ? ? b2 ? ? ? _ St2 Hs2]; subst.
  inversion Hs2 as [|? ? ? b3 ? ? ? _ St3 Hs3]; subst. inversion St3.
Qed.
Print Assumptions C04_full_statement_refuted.
