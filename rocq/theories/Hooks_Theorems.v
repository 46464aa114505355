(** C75: theorems. *)
From Verif Require Import Prelude Hooks_Model Hooks_Spec Hooks_Proofs.

(** Whatever was done before, an exception nobody caught is given to the registered handlers and the former hook by ascending priority, to
    those of equal priority in the order of registration, up to the first that stops it; one that fails is passed over, unless failures are
    not to be ignored. *)
Theorem C75_order : forall h x r, let s := fst (run begin h) in exists acts res,
  snd (step s (Uncaught x r)) = OHandled acts res /\ fst (step s (Uncaught x r)) = s /\
  exists order, by_priority (priority s) (installed s ++ [0]) order /\ chain (ignore_failed s) x (kindof s) r order acts res.
Proof. exact uncaught_handled. Qed.
Print Assumptions C75_order.

(** With failures ignored, and no handler that exits, a handler is consulted exactly if no handler before it stops the exception. *)
Theorem C75_consulted : forall h x r, let s := fst (run begin h) in ignore_failed s = true ->
  (forall i e b, ~ does x i (kindof s i) (r i) b (Aborts e)) ->
  exists acts, snd (step s (Uncaught x r)) = OHandled acts (Ok tt) /\
  exists order, by_priority (priority s) (installed s ++ [0]) order /\
  forall i, In i (ran acts) <->
    exists l1 l2 b e, order = l1 ++ i :: l2 /\ does x i (kindof s i) (r i) b e /\ In i (ran b) /\ forall g c, In g l1 -> ~ does x g (kindof s g) (r g) c Stops.
Proof. exact consulted. Qed.
Print Assumptions C75_consulted.

(** A handler is registered exactly if it was added and not removed since, and it is registered once. *)
Theorem C75_registered : forall h, NoDup (installed (fst (run begin h))) /\ forall i, In i (installed (fst (run begin h))) <-> registered h i.
Proof. intros h. destruct (good_run h) as (_ & N & R). auto. Qed.
Print Assumptions C75_registered.
(** Removing one that is not registered raises ValueError, otherwise the order of the rest is kept; adding puts it last, or does nothing. *)
Theorem C75_add_remove : forall h i, let s := fst (run begin h) in
  (registered h i -> exists l1 l2, installed s = l1 ++ i :: l2 /\ installed (fst (step s (Remove i))) = l1 ++ l2 /\ snd (step s (Remove i)) = OUnit (Ok tt) /\
    step s (Add i) = (s, OHandler i)) /\
  (~ registered h i -> step s (Remove i) = (s, OUnit (Err ValueError)) /\ installed (fst (step s (Add i))) = installed s ++ [i] /\
    objs (fst (step s (Add i))) = objs s).
Proof.
  intros h i s. destruct (good_run h) as (_ & N & R). fold s in N, R. rewrite <- R. simpl. unfold add.
  destruct (memb Nat.eqb i (installed s)) eqn:M; split; intros I; try solve [exfalso; apply I, (PreludeFacts.memb_In MoreFacts.nateqb_ok); auto].
  - apply in_split in I. destruct I as (l1 & l2 & E). exists l1, l2. rewrite E in *. repeat split; auto. simpl. clear - N.
    apply NoDup_remove_2 in N. induction l1 as [|y l1 IH]; simpl.
    + rewrite Nat.eqb_refl. reflexivity.
    + simpl in N. destruct (Nat.eqb_spec y i); [tauto|]. rewrite IH by tauto. reflexivity.
  - exfalso. apply (PreludeFacts.memb_In MoreFacts.nateqb_ok) in I. congruence.
  - auto.
Qed.
Print Assumptions C75_add_remove.

(** An exception that ends a thread is handled in the same way if it is an Exception, and is what comes out of run(), unless the handling raised;
    other exceptions (SystemExit, KeyboardInterrupt) are left alone. *)
Theorem C75_threads : forall h x e r, let s := fst (run begin h) in
  (an_exception x = false -> snd (step s (InThread x e r)) = OHandled [] (Err e)) /\
  (an_exception x = true -> exists acts res, snd (step s (Uncaught x r)) = OHandled acts res /\
    snd (step s (InThread x e r)) = OHandled acts (match res with Ok _ => Err e | Err f => Err f end)).
Proof. exact thread_handled. Qed.
Print Assumptions C75_threads.

(** ** Each handler runs at most once *)
Definition C75_full_statement : Prop := forall h x r, NoDup (ran (fst (except_handle (fst (run begin h)) x r))).
Theorem C75_once_partial : forall h x r, (forall h1 h2, h <> h1 ++ Add 0 :: h2) ->
  NoDup (ran (fst (except_handle (fst (run begin h)) x r))).
Proof. exact once. Qed.
Print Assumptions C75_once_partial.
(** the former hook is added as well *)
Theorem C75_former_hook_refuted : ran (fst (except_handle (fst (run begin [Add 0])) (mk_exc false false true) (fun _ => RBool false))) = [0; 0].
Proof. reflexivity. Qed.
Print Assumptions C75_former_hook_refuted.
Theorem C75_full_statement_refuted : ~ C75_full_statement.
Proof. intros H. specialize (H [Add 0] (mk_exc false false true) (fun _ => RBool false)). vm_compute in H. inversion H; subst. apply H2. left; auto. Qed.
Print Assumptions C75_full_statement_refuted.

(** Adding the same callable again registers it again, as every time a new handler is made of it; it runs twice. *)
Theorem C75_callable_twice_refuted :
  run begin [AddCallable; AddCallable; Uncaught (mk_exc false false true) (fun _ => RBool false)] =
  (mk_state [mk_handler 10000 Function_; mk_handler 0 Function_; mk_handler 0 Function_] [1; 2] true,
   [OHandler 1; OHandler 2; OHandled [Ran 1; Ran 2; Ran 0] (Ok tt)]).
Proof. reflexivity. Qed.
Print Assumptions C75_callable_twice_refuted.

(** handlers with equal and different priorities, one failing, one returning a sequence *)
Example C75_met :
  snd (run begin [New 5 Custom; New (-10) Function_; New 5 Function_; Add 1; Add 2; Add 3; AddCallable; New (-1000) (Memory true); Add 5; Remove 4;
       Uncaught (mk_exc false false true) (fun h => if Nat.eqb h 1 then RRaise KeyError else RBool false);
       Uncaught (mk_exc false false true) (fun h => if Nat.eqb h 1 then RSeq [false] else RBool false);
       Uncaught (mk_exc false true true) (fun h => RBool false);
       Uncaught (mk_exc true false false) (fun h => RBool false)])
  = [OHandler 1; OHandler 2; OHandler 3; OHandler 1; OHandler 2; OHandler 3; OHandler 4; OHandler 5; OHandler 5; OUnit (Ok tt);
     OHandled [Ran 2; Ran 1; Complain 1; Ran 3; Ran 0] (Ok tt); OHandled [Ran 2; Ran 1] (Ok tt); OHandled [Ran 5; Kill] (Ok tt); OHandled [Ran 1] (Ok tt)].
Proof. reflexivity. Qed.
