(** C09: theorems about ExpiringEntryDict. *)
From Verif Require Import Prelude Order_Spec Expiring_Model Expiring_Spec Expiring_Proofs.
Local Open Scope Z_scope.

(** C09, full statement (false, see below): with a clock that never goes back,
    every call answers according to what was stored and how long ago. *)
Definition C09_full_statement : Prop :=
  forall (K V : Type) (ltK eqK : K -> K -> bool), total_preorder ltK -> eqb_ok eqK ->
  forall (timeout : Z) (ops : list (ex_op K V)) (T : Z), clock_ok T ops ->
    ex_session eqK timeout [] ops (fst (ex_run ltK eqK timeout ex_init ops)).

(** C09, proved part: sessions without the calls excluded by [ex_safe]. *)
Theorem C09_expiring_dict_partial :
  forall (K V : Type) (ltK eqK : K -> K -> bool), total_preorder ltK -> eqb_ok eqK ->
  forall (timeout : Z) (ops : list (ex_op K V)) (T : Z), clock_ok T ops ->
    ex_safe_session eqK timeout [] [] ops = true ->
    ex_session eqK timeout [] ops (fst (ex_run ltK eqK timeout ex_init ops)).
Proof. exact @ex_session_ok. Qed.
Print Assumptions C09_expiring_dict_partial.

Local Definition ex_ops : list (ex_op nat nat) :=
  [ESet 1 10 0; ESet 2 20 3; ESetDefault 3 30 4 4; EGet 1 10; EContains 1 11; ELen 11; EIter 11; EGet 2 11; ESet 2 21 12;
   EGetD 1 99 12; EPop 2 13; ESetDefault 3 31 14 14; EDel 3 14; ESet 4 40 15; EGet 4 26; ESet 4 41 26; ELen 36; ECleanup 36; ELen 37]%nat.
Example C09_example :
  total_preorder Nat.ltb /\ eqb_ok Nat.eqb /\
  clock_ok 0 ex_ops /\ ex_safe_session Nat.eqb 10 [] [] ex_ops = true /\
  fst (ex_run Nat.ltb Nat.eqb 10 ex_init ex_ops) =
  [EONone; EONone; EOVal 30%nat; EOVal 10%nat; EOBool false; EONat 2; EOKeys [2; 3]%nat; EOVal 20%nat; EONone;
   EOVal 99%nat; EOVal 21%nat; EOVal 30%nat; EONone; EONone; EORaise KeyError; EONone; EONat 1; EONone; EONat 0].
Proof.
  split; [|split; [intros x y; apply Nat.eqb_eq|split; [|split; vm_compute; reflexivity]]].
  - split.
    + intros a b H. apply Nat.ltb_lt in H. apply Nat.ltb_ge. lia.
    + intros a b c H1 H2. apply Nat.ltb_ge in H1. apply Nat.ltb_ge in H2. apply Nat.ltb_ge. lia.
  - simpl. lia.
Qed.

(** After an expired key was read, `in` raises KeyError. *)
Theorem C09_in_raises_refuted :
  fst (ex_run Nat.ltb Nat.eqb 10 ex_init [ESet 1 10 0; EGet 1 11; EContains 1 11]%nat)
  = [EONone; EORaise KeyError; EORaise KeyError].
Proof. vm_compute. reflexivity. Qed.
Print Assumptions C09_in_raises_refuted.

(** After an expired key was read, len, iteration and cleanup raise KeyError. *)
Theorem C09_len_raises_refuted :
  forall o, In o [ELen 11; EIter 11; ECleanup 11] ->
  fst (ex_run Nat.ltb Nat.eqb 10 ex_init [ESet 1 10 0; EGet 1 11; o]%nat)
  = [EONone; EORaise KeyError; EORaise KeyError].
Proof. intros o [<-|[<-|[<-|[]]]]; vm_compute; reflexivity. Qed.
Print Assumptions C09_len_raises_refuted.

(** Deleting a missing key raises ValueError and not KeyError; deleting an
    expired key succeeds. *)
Theorem C09_delete_missing_refuted :
  fst (ex_run Nat.ltb Nat.eqb 10 ex_init [EDel 1 0; ESet 1 10 0; EDel 1 11]%nat)
  = [EORaise ValueError; EONone; EONone].
Proof. vm_compute. reflexivity. Qed.
Print Assumptions C09_delete_missing_refuted.

(** get_timestamp returns the time of expiry, not of insertion. *)
Theorem C09_get_timestamp_refuted :
  fst (ex_run Nat.ltb Nat.eqb 10 ex_init [ESet 1 10 3; EGetTimestamp 1 3]%nat) = [EONone; EOTime 13].
Proof. vm_compute. reflexivity. Qed.
Print Assumptions C09_get_timestamp_refuted.

Theorem C09_full_statement_refuted : ~ C09_full_statement.
Proof.
  intros H. destruct C09_example as (Ho & He & _).
  specialize (H nat nat Nat.ltb Nat.eqb Ho He 10 [ESet 1 10 0; EGet 1 11; EContains 1 11]%nat 0).
  rewrite C09_in_raises_refuted in H. specialize (H ltac:(simpl; lia)).
  inversion H as [|? ? ? ? ? A1 H1]; subst. inversion H1 as [|? ? ? ? ? A2 H2]; subst.
  inversion H2 as [|? ? ? ? ? A3 H3]; subst. vm_compute in A3. discriminate.
Qed.
Print Assumptions C09_full_statement_refuted.
