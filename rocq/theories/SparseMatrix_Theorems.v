(** C14: theorems about SparseMatrix. *)
From Verif Require Import Prelude Order_Spec SparseMatrix_Model SparseMatrix_Spec SparseMatrix_Proofs.
Open Scope Z_scope.

(** C14, full statement (false, see below): constructing a matrix does not
    raise, and from then on every call is answered and takes effect as on a
    finite map of cells with exact dimensions. *)
Definition C14_full_statement : Prop :=
  forall (V : Type) (ltV : V -> V -> bool), total_preorder ltV ->
  forall (data : list (list (option V))) (ops : list (sm_op V)),
    snd (sm_init data) = None /\
    exists m cols rows,
      (forall c r, m c r = after (fun _ _ => None) 0 0 (MSetAll data) c r) /\ extent m cols rows /\
      sm_session ltV false m cols rows ops (fst (sm_run ltV (fst (sm_init data)) ops)).

(** C14, proved part: up to the first call that meets one of the situations
    listed in [safe]. *)
Theorem C14_sparse_matrix_partial :
  forall (V : Type) (ltV : V -> V -> bool), total_preorder ltV ->
  forall (data : list (list (option V))) (ops : list (sm_op V)),
    snd (sm_init data) = None /\
    exists m cols rows,
      (forall c r, m c r = after (fun _ _ => None) 0 0 (MSetAll data) c r) /\ extent m cols rows /\
      sm_session ltV true m cols rows ops (fst (sm_run ltV (fst (sm_init data)) ops)).
Proof. exact @sm_session_ok. Qed.
Print Assumptions C14_sparse_matrix_partial.

Example C14_example :
  total_preorder Z.ltb /\
  fst (sm_run Z.ltb (fst (sm_init [[Some 1; Some 2]; [None; Some 4]]))
    [MIter; MSet 3 2 (Some 9); MCols; MRows; MDel (-1) (-1); MIter; MMax; MDelRow 1; MIter; MNeighbours 0 0 true;
     MShoot; MIter; MGet 2 5; MSetCol 0 [Some 7; None; Some 8]; MCol 0])
  = [MOMatrix [[Some 1; Some 2]; [None; Some 4]]; MONone; MOZ 4; MOZ 3; MONone;
     MOMatrix [[Some 1; Some 2]; [None; Some 4]]; MOCell (Some 4); MONone; MOMatrix [[Some 1; Some 2]];
     MOCoords [(1, 0)]; MONone; MOMatrix [[Some 1; None; Some 2]]; MORaise IndexError; MONone;
     MOList [Some 7; None; Some 8]].
Proof.
  split; [split; intros; rewrite ?Z.ltb_ge, ?Z.ltb_lt in *; lia|vm_compute; reflexivity].
Qed.

(** Deleting the only cell raises ValueError and leaves the dimensions stale. *)
Theorem C14_delete_last_cell_refuted :
  fst (sm_run Z.ltb (fst (sm_init [])) [MSet 2 1 (Some 5); MDel 2 1; MCols; MRows; MGet 2 1])
  = [MONone; MORaise ValueError; MOZ 3; MOZ 2; MOCell None].
Proof. vm_compute. reflexivity. Qed.
Print Assumptions C14_delete_last_cell_refuted.

(** bool() of a matrix is inverted. *)
Theorem C14_bool_refuted :
  fst (sm_run Z.ltb (fst (sm_init [])) [MBool; MSet 0 0 (Some 5); MBool]) = [MOBool true; MONone; MOBool false].
Proof. vm_compute. reflexivity. Qed.
Print Assumptions C14_bool_refuted.

(** delete_row of a row without cells leaves an empty row behind, which the next
    deletion counts. *)
Theorem C14_delete_absent_row_refuted :
  fst (sm_run Z.ltb (fst (sm_init [[Some 1; Some 2]])) [MDeleteRow 5; MRows; MDel 1 0; MRows; MCols])
  = [MONone; MOZ 1; MONone; MOZ 6; MOZ 1].
Proof. vm_compute. reflexivity. Qed.
Print Assumptions C14_delete_absent_row_refuted.

(** An index before the beginning is accepted and stored under a negative number. *)
Theorem C14_before_start_refuted :
  fst (sm_run Z.ltb (fst (sm_init [[Some 1]])) [MSet (-3) 0 (Some 7); MIter; MGet (-3) 0])
  = [MONone; MOMatrix [[Some 1]]; MOCell (Some 7)].
Proof. vm_compute. reflexivity. Qed.
Print Assumptions C14_before_start_refuted.

(** max() of a matrix without a value in the corner raises TypeError. *)
Theorem C14_max_refuted :
  fst (sm_run Z.ltb (fst (sm_init [[None; Some 4]])) [MMax]) = [MORaise TypeError].
Proof. vm_compute. reflexivity. Qed.
Print Assumptions C14_max_refuted.

Theorem C14_full_statement_refuted : ~ C14_full_statement.
Proof.
  intros H. assert (P : total_preorder Z.ltb) by (split; intros; rewrite ?Z.ltb_ge, ?Z.ltb_lt in *; lia).
  destruct (H Z Z.ltb P [] [MBool; MSet 0 0 (Some 5); MBool]) as (_ & m & cols & rows & E & X & S).
  rewrite C14_bool_refuted in S. simpl in S. destruct (S I) as (m' & c' & r' & R & _).
  unfold respects in R. simpl in R. destruct R as [(b & Eb & B) _]. injection Eb as <-.
  destruct B as [B _]. destruct (B eq_refl) as (c & r & O). apply O. rewrite E. simpl.
  unfold at_. destruct (Z.ltb r 0); auto. destruct (Z.to_nat r); auto.
Qed.
Print Assumptions C14_full_statement_refuted.
