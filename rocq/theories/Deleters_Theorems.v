(** C18 DictDeleter and ListDeleter. *)
From Verif Require Import Prelude Deleters_Model Deleters_Spec Deleters_Proofs.

(** C18, dictionaries: whatever is called inside of the with block, every
    iteration presents the entries in order, and leaving the block removes exactly
    the entries marked, whichever order the set of keys is iterated in. *)
Theorem C18_dict_deleter : forall (K V : Type) (eqb : K -> K -> bool) (d : list (K * V)) body order,
  eqb_ok eqb -> NoDup (map fst d) ->
  dd_session d pass0 body (fst (dd_with eqb d body order)) /\
  snd (dd_with eqb d body order) = (unmarked (dd_marked d body) d, None).
Proof. intros K V eqb d body order H1 H2. exact (dd_with_ok eqb H1 d H2 body order). Qed.
Print Assumptions C18_dict_deleter.

(** C18, lists, the documented loop, forward: every element once, in order, and
    exactly the chosen ones are gone. *)
Theorem C18_list_forward : forall (T : Type) (l : list T) (p : T -> bool),
  ld_with l true p = Some (l, filter (fun x => negb (p x)) l).
Proof. intros T l p. exact (with_forward l p). Qed.
Print Assumptions C18_list_forward.

(** The same, backward: exactly the chosen ones are gone, and every element was
    presented; but the last one is presented twice. Missing: "once", which is
    false (below). *)
Theorem C18_list_backward_partial : forall (T : Type) (l : list T) (x : T) (p : T -> bool),
  ld_with (l ++ [x]) false p = Some (rev (l ++ [x]) ++ [x], filter (fun y => negb (p y)) (l ++ [x])).
Proof. intros T l x p. exact (with_backward l x p). Qed.
Print Assumptions C18_list_backward_partial.

(** All calls of a ListDeleter, in any order: exact but for stepping onto the
    place before the first element. *)
Theorem C18_list_calls_partial : forall (T : Type) (l : list T) fwd ops,
  ld_session false (cur0 l fwd) ops (fst (ld_run (ld_init l fwd) ops)).
Proof. intros T l fwd ops. exact (ld_session_ok ops (ld_init l fwd) (init_pos l fwd)). Qed.
Print Assumptions C18_list_calls_partial.

Definition C18_full_statement : Prop :=
  (forall (T : Type) (l : list T) fwd ops, ld_session true (cur0 l fwd) ops (fst (ld_run (ld_init l fwd) ops))) /\
  (forall (T : Type) (l : list T) fwd p,
     ld_with l fwd p = Some (if fwd then l else rev l, filter (fun x => negb (p x)) l)).

(** reversed: 3, 2, 1 and then 3 again *)
Theorem C18_presented_twice_refuted :
  ld_with [1; 2; 3]%nat false (fun _ => false) = Some ([3; 2; 1; 3], [1; 2; 3])%nat.
Proof. vm_compute. reflexivity. Qed.
Print Assumptions C18_presented_twice_refuted.

(** prev() from the first element gives the last one *)
Theorem C18_prev_wraps_refuted :
  fst (ld_run (ld_init [1; 2; 3]%nat true) [LNext; LPrev; LPrev]) = [LOElem 1; LOElem 3; LORaise StopIteration]%nat.
Proof. vm_compute. reflexivity. Qed.
Print Assumptions C18_prev_wraps_refuted.

Theorem C18_full_statement_refuted : ~ C18_full_statement.
Proof.
  intros [_ H]. specialize (H nat [1; 2; 3] false (fun _ => false)).
  rewrite C18_presented_twice_refuted in H. discriminate.
Qed.
Print Assumptions C18_full_statement_refuted.

Example C18_dict_example :
  dd_with Nat.eqb [(1, 10); (2, 20); (3, 30)]
    [DDelete; DIter; DNext; DDelete; DMode ITER_ITEMS; DNext; DNext; DDelete; DNext; DIter; DNext] [3; 1]
  = ([DORaise AttributeError; DONone; DOKey 1; DONone; DONone; DOItem 2 20; DOItem 3 30; DONone;
      DORaise StopIteration; DONone; DOItem 1 10], ([(2, 20)], None)).
Proof. vm_compute. reflexivity. Qed.
Example C18_list_example :
  fst (ld_run (ld_init [5; 6; 7; 8] true)
        [LNext; LDelete; LNext; LNext; LDelete; LValue; LPrev; LNext; LNext; LNext; LRemove; LList; LRemove; LList])
  = [LOElem 5; LONone; LOElem 6; LOElem 7; LONone; LOElem 7; LOElem 6; LOElem 7; LOElem 8;
     LORaise StopIteration; LONone; LOList [6; 8]; LONone; LOList [6; 8]].
Proof. vm_compute. reflexivity. Qed.
