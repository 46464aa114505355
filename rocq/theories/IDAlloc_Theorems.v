(** C16 IDAllocator, C17 SequentialIssuer. *)
From Verif Require Import Prelude IDAlloc_Model IDAlloc_Spec IDAlloc_Proofs.
Open Scope Z_scope.

(** C16: whatever start_at, top_limit and the elements set.pop picks, an
    identifier is given out only while nobody holds it, is at least start_at, and
    only what is held can be freed; allocation is refused only if there is a limit. *)
Theorem C16_never_twice : forall start_at top_limit ops,
  ida_session (ident_call start_at top_limit) none_held ops
    (fst (ida_run start_at top_limit ia_init ops)).
Proof.
  intros start_at top_limit ops.
  exact (ident_session_ok start_at top_limit ops ia_init none_held
           (ia_init_inv top_limit) (fun y => conj (fun f : False => f) (fun f : False => f))).
Qed.
Print Assumptions C16_never_twice.

(** C16 with the limit, for an allocator without a limit, or starting at 0 with
    a limit that is not 0. Missing: the other limits, where it is false (below). *)
Theorem C16_allocator_partial : forall start_at top_limit ops,
  top_limit = None \/ (start_at = 0 /\ top_limit <> Some 0) ->
  ida_session (call start_at top_limit) none_held ops
    (fst (ida_run start_at top_limit ia_init ops)).
Proof.
  intros start_at top_limit ops H.
  exact (full_session_ok start_at top_limit ops H ia_init none_held
           (ia_init_inv top_limit) (fun y => conj (fun f : False => f) (fun f : False => f))).
Qed.
Print Assumptions C16_allocator_partial.

Definition C16_full_statement : Prop := forall start_at top_limit ops,
  ida_session (call start_at top_limit) none_held ops
    (fst (ida_run start_at top_limit ia_init ops)).

(** start_at=2, top_limit=3: the second identifier is already the limit *)
Theorem C16_limit_exceeded_refuted :
  fst (ida_run 2 (Some 3) ia_init [AAllocate 0; AAllocate 0]) = [AOId 2; AOId 3].
Proof. vm_compute. reflexivity. Qed.
Print Assumptions C16_limit_exceeded_refuted.

(** start_at=-2, top_limit=1: -2 taken, -1 and 0 are free, yet Empty and KeyError *)
Theorem C16_below_zero_refuted :
  fst (ida_run (-2) (Some 1) ia_init [AAllocate 0; AAllocate 0; AMarkAllocated 0])
  = [AOId (-2); AORaise EmptyExn; AORaise KeyError].
Proof. vm_compute. reflexivity. Qed.
Print Assumptions C16_below_zero_refuted.

(** top_limit=0: taken for no limit at all *)
Theorem C16_limit_zero_refuted :
  fst (ida_run 0 (Some 0) ia_init [AAllocate 0]) = [AOId 0].
Proof. vm_compute. reflexivity. Qed.
Print Assumptions C16_limit_zero_refuted.

Theorem C16_full_statement_refuted : ~ C16_full_statement.
Proof.
  intros H. specialize (H 0 (Some 0) [AAllocate 0]).
  rewrite C16_limit_zero_refuted in H. inversion H; subst.
  match goal with K : call _ _ _ _ _ _ |- _ => inversion K; subst end.
  match goal with K : allowed _ _ _ |- _ => destruct K as [_ K]; inversion K end.
Qed.
Print Assumptions C16_full_statement_refuted.

(** A limit of 3: everything is given out, refused, freed and given out again. *)
Example C16_example :
  fst (ida_run 0 (Some 3) ia_init
         [AMarkAllocated 1; AAllocate 5; AMarkAllocated 1; AAllocate 0; AAllocate 0; AMarkFree 1;
          AMarkFree 1; AAllocate 7; AMarkAllocated 3])
  = [AONone; AOId 0; AORaise AlreadyAllocated; AOId 2; AORaise EmptyExn; AONone;
     AORaise ValueError; AOId 1; AORaise ValueError].
Proof. vm_compute. reflexivity. Qed.

(** C17: strictly increasing, and at least what was asked for. *)
Theorem C17_strictly_increasing : forall start ops, issued [] ops (fst (si_run start ops)).
Proof.
  intros start ops. exact (si_run_issued ops start [] (fun y (f : In y []) => match f with end)).
Qed.
Print Assumptions C17_strictly_increasing.

(** The exact value: the next one, raised to what was asked for. *)
Theorem C17_next_identifier : forall start ops, issued_tightly start ops (fst (si_run start ops)).
Proof. intros start ops. exact (si_run_tight ops start). Qed.
Print Assumptions C17_next_identifier.

Example C17_example :
  fst (si_run 5 [IIssue; INoLessThan 3; INoLessThan 7; INoLessThan 20; IIssue]) = [5; 6; 7; 20; 21].
Proof. vm_compute. reflexivity. Qed.
