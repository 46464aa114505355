(** Theorems about ListWrapperIterator, PushIterable, Subqueue, RollingArithmeticAverage and AlreadySeen *)
From Verif Require Import Prelude PreludeFacts MoreFacts PySeq_Model Wrappers_Model Wrappers_Spec Wrappers_Proofs.

(** ** C47: these wrappers keep their sequence contracts *)

(** *** ListWrapperIterator presents the wrapped iterator as a list, taking no more from it than needed. *)
Definition C47_full_statement : Prop := forall (src : list Z) ops, fst (lw_run Z.eqb (lw_new src) ops) = as_a_list Z.eqb src 0 ops.
(** Missing: indices and slices that count from the end, and slices without a stop, before the end was met; and "in" moves the iteration. *)
Theorem C47_list_wrapper_partial : forall T (eqb : T -> T -> bool) src ops, all_fine eqb src fresh ops ->
  fst (lw_run eqb (lw_new src) ops) = fst (lw_session eqb src fresh ops) /\
  length (loaded (snd (lw_run eqb (lw_new src) ops))) = taken (snd (lw_session eqb src fresh ops)).
Proof. intros T eqb src ops. exact (lw_ok T eqb src ops). Qed.
Print Assumptions C47_list_wrapper_partial.
(** If neither "in" is asked nor anything counted from the end, these are the answers of the list. *)
Theorem C47_list_answers_partial : forall T (eqb : T -> T -> bool) src ops, all_fine eqb src fresh ops ->
  Forall (fun op => match op with LContains _ => False | _ => True end) ops ->
  fst (lw_run eqb (lw_new src) ops) = as_a_list eqb src 0 ops.
Proof. intros T eqb src ops F G. rewrite (proj1 (lw_ok T eqb src ops F)). exact (answers_ok T eqb src ops fresh G). Qed.
Print Assumptions C47_list_answers_partial.
Example C47_a_lazy_list : let ops := [LGet 1%Z; LContains 20%Z; LSlice None (Some 3%Z); LNext; LContains 40%Z; LNext; LLen; LGet (-1)%Z; LSlice (Some (-2)%Z) None] in
  let src := [10; 20; 30; 40; 50]%Z in
  all_fine Z.eqb src fresh ops /\
  fst (lw_run Z.eqb (lw_new src) ops) = [LItem 20; LBool true; LList [10; 20; 30]; LItem 10; LBool true; LItem 50; LInt 5; LItem 50; LList [40; 50]]%Z /\
  length (loaded (snd (lw_run Z.eqb (lw_new src) (firstn 5 ops)))) = 4.
Proof. simpl. repeat split; auto; try lia; left; repeat split; simpl; auto; try lia; discriminate. Qed.
Theorem C47_full_statement_refuted : ~ C47_full_statement.
Proof. intros H. discriminate (H [1; 2; 3]%Z [LGet 0%Z; LGet (-1)%Z]). Qed.
Print Assumptions C47_full_statement_refuted.
(** [-1] is the last of the elements loaded so far, or IndexError if there are none; so are negative bounds of slices; a slice without a
    stop raises TypeError; *)
Theorem C47_from_the_end_refuted : let src := [1; 2; 3]%Z in
  fst (lw_run Z.eqb (lw_new src) [LGet (-1)%Z; LGet 0%Z; LGet (-1)%Z; LLen; LGet (-1)%Z]) = [LRaised IndexError; LItem 1; LItem 1; LInt 3; LItem 3]%Z /\
  fst (lw_run Z.eqb (lw_new src) [LSlice None (Some (-1)%Z); LSlice (Some 1%Z) None; LExhaust; LSlice None (Some (-1)%Z); LSlice (Some 1%Z) None]) =
    [LList []; LRaised TypeError; LNone; LList [1; 2]; LList [2; 3]]%Z.
Proof. split; reflexivity. Qed.
Print Assumptions C47_from_the_end_refuted.
(** asking whether something is in it skips elements of the iteration; *)
Theorem C47_in_moves_refuted : let src := [1; 2; 3]%Z in
  fst (lw_run Z.eqb (lw_new src) [LNext; LContains 2%Z; LNext; LContains 9%Z; LNext]) = [LItem 1%Z; LBool true; LItem 3%Z; LBool false; LRaised StopIteration].
Proof. reflexivity. Qed.
Print Assumptions C47_in_moves_refuted.
(** and it can be iterated over once: __iter__ returns the object itself. *)
Theorem C47_second_iteration_refuted : let src := [1; 2]%Z in
  fst (lw_run Z.eqb (lw_new src) [LNext; LNext; LNext; LNext]) = [LItem 1%Z; LItem 2%Z; LRaised StopIteration; LRaised StopIteration].
Proof. reflexivity. Qed.
Print Assumptions C47_second_iteration_refuted.

(** *** PushIterable yields what was pushed, the last pushed first and then what was pushed left, and then the rest. *)
Theorem C47_push_iterable : forall T (src : list T) ops, push_run (push_new src) ops = push_expected [] src ops.
Proof. intros T src ops. exact (push_ok T ops (push_new src) [] eq_refl). Qed.
Print Assumptions C47_push_iterable.
Example C47_pushes : push_run (push_new [1; 2]%Z) [PPop; PPush 10%Z; PPush 20%Z; PPushLeft 30%Z; PPop; PPop; PPop; PPop; PPop] =
  [Some (Some 1); None; None; None; Some (Some 20); Some (Some 10); Some (Some 30); Some (Some 2); Some None]%Z.
Proof. reflexivity. Qed.

(** *** Subqueue: what is taken from under a name, and then what is left there, is what was put there, in order. *)
Theorem C47_subqueue_fifo : forall N T (neqb : N -> N -> bool) (ops : list (sop N T)) n, eqb_ok neqb ->
  puts_of neqb n ops = gets_of neqb n (fst (sq_run neqb [] ops)) ++ left_of neqb n (snd (sq_run neqb [] ops)).
Proof. intros N T neqb ops n ok. exact (fifo_ok N T neqb ok ops [] n (NoDup_nil N)). Qed.
Print Assumptions C47_subqueue_fifo.
(** All of its answers. *)
Theorem C47_subqueue : forall N T (neqb : N -> N -> bool) (ops : list (sop N T)), eqb_ok neqb -> fst (sq_run neqb [] ops) = sq_expected neqb (fun _ => []) [] ops.
Proof. intros N T neqb ops ok. exact (sq_ok N T neqb ok ops [] (fun _ => []) (NoDup_nil N) (fun _ => eq_refl)). Qed.
Print Assumptions C47_subqueue.
Example C47_two_names : fst (sq_run Z.eqb [] [SGet 2; SPut 1 10; SPut 2 20; SPut 1 11; SSize; SGetAny; SGet 1; SGet 2; SGetAny; SGetAny; SSize]%Z) =
  [SEmpty; SDone; SDone; SDone; SInt 3; SItem 2 20; SItem 1 10; SEmpty; SItem 1 11; SEmpty; SInt 0]%Z.
Proof. reflexivity. Qed.

(** *** RollingArithmeticAverage is the mean of the last n values since the last clear. *)
Theorem C47_rolling_average : forall n ops, 1 <= n -> rolling_run (Z.of_nat n) rolling_new ops = rolling_expected n [] ops.
Proof. intros n ops H. exact (rolling_ok n H ops rolling_new [] eq_refl eq_refl). Qed.
Print Assumptions C47_rolling_average.
Example C47_last_two : rolling_run 2 rolling_new [RAvg; RInsert 10; RAvg; RInsert 20; RInsert 40; RAvg; RClear; RInsert 5; RAvg]%Z =
  [RRaised ZeroDivision; RDone; RMean 10 1; RDone; RDone; RMean 60 2; RDone; RDone; RMean 5 1]%Z.
Proof. reflexivity. Qed.
(** With n less than 1 the first insertion raises. *)
Theorem C47_no_window : forall n x, (n <= 0)%Z -> rolling_run n rolling_new [RInsert x] = [RRaised IndexError].
Proof. intros n x H. simpl. replace (n <=? 0)%Z with true by (symmetry; now apply Z.leb_le). reflexivity. Qed.
Print Assumptions C47_no_window.

(** *** AlreadySeen tells what comes for the first time, provided that all of it is hashable or none is. *)
Definition C47_seen_full_statement : Prop := forall (hashable : Z -> bool) l, seen_run Z.eqb hashable (Nothing Z) l = firsts Z.eqb [] l.
Theorem C47_already_seen_partial : forall T (eqb : T -> T -> bool) hashable b l, eqb_ok eqb -> Forall (fun x => hashable x = b) l ->
  seen_run eqb hashable (Nothing T) l = firsts eqb [] l.
Proof. intros T eqb hashable b l ok F. exact (seen_ok T eqb ok hashable b l (Nothing T) [] F eq_refl). Qed.
Print Assumptions C47_already_seen_partial.
Example C47_repeated : seen_run Z.eqb (fun _ => false) (Nothing Z) [1; 2; 1; 3; 2]%Z = [Ok true; Ok true; Ok false; Ok true; Ok false].
Proof. reflexivity. Qed.
Theorem C47_seen_full_statement_refuted : ~ C47_seen_full_statement.
Proof. intros H. discriminate (H (fun x => Z.eqb x 1) [1; 2]%Z). Qed.
Print Assumptions C47_seen_full_statement_refuted.
Theorem C47_mixture_refuted : let h := fun x => Z.eqb x 1 in
  seen_run Z.eqb h (Nothing Z) [1; 2]%Z = [Ok true; Err TypeError] /\ seen_run Z.eqb h (Nothing Z) [2; 1]%Z = [Ok true; Err AttributeError].
Proof. split; reflexivity. Qed.
Print Assumptions C47_mixture_refuted.
