(** C68: a singleton class gives one instance, constructed once, for the same first arguments. *)
From Verif Require Import Prelude Singleton_Model Singleton_Spec Singleton_Proofs.

(** with one thread at a time and constructors that do not raise, the class is a table from the first arguments to an instance: the results
    of all operations and the constructors run are those of the table *)
Theorem C68_refines_partial : forall (A : Type) key_eqb num_args ops, Forall (@succeeds A) ops ->
  snd (run key_eqb num_args (begin A) ops) = snd (spec_run key_eqb num_args (empty A) ops) /\
  inits (fst (run key_eqb num_args (begin A) ops)) = ran (fst (spec_run key_eqb num_args (empty A) ops)).
Proof. exact refines. Qed.
Print Assumptions C68_refines_partial.

(** what a call with arguments [a] gives after these operations *)
Definition gives (A : Type) (key_eqb : list A -> list A -> bool) (num_args : nat) (ops : list (op A)) (a : call_args A) : res nat :=
  snd (finish key_eqb num_args 5 (fst (run key_eqb num_args (begin A) ops)) (Entering a) None).
(** calls with the same first arguments give the same instance, until it is deleted *)
Theorem C68_same_instance_partial : forall (A : Type) key_eqb num_args, (forall a b : list A, key_eqb a b = true <-> a = b) ->
  forall ops more a b, Forall (@succeeds A) (ops ++ Call a None :: more) -> firstn num_args (pos a) = firstn num_args (pos b) ->
  (forall args, In (Delete args) more -> args <> firstn num_args (pos a)) ->
  exists i, gives A key_eqb num_args ops a = Ok i /\ gives A key_eqb num_args (ops ++ Call a None :: more) b = Ok i.
Proof. exact same_instance. Qed.
Print Assumptions C68_same_instance_partial.
(** calls with other first arguments give another *)
Theorem C68_other_instance_partial : forall (A : Type) key_eqb num_args, (forall a b : list A, key_eqb a b = true <-> a = b) ->
  forall ops a b, Forall (@succeeds A) ops -> firstn num_args (pos a) <> firstn num_args (pos b) ->
  gives A key_eqb num_args (ops ++ [Call a None]) b <> gives A key_eqb num_args ops a.
Proof. exact other_instance. Qed.
Print Assumptions C68_other_instance_partial.
(** each instance is constructed once *)
Theorem C68_init_once_partial : forall (A : Type) key_eqb num_args, (forall a b : list A, key_eqb a b = true <-> a = b) ->
  forall ops, Forall (@succeeds A) ops -> NoDup (map fst (inits (fst (run key_eqb num_args (begin A) ops)))).
Proof. exact init_once. Qed.
Print Assumptions C68_init_once_partial.
(** Singleton: if the first constructor succeeds, all calls give that instance, and it is the only one constructed, with the first arguments *)
Theorem C68_plain_partial : forall (A : Type) (a : A) calls, let (s, rs) := prun (mk_pstate None 0 []) ((a, None) :: calls) in
  Forall (eq (Ok 0)) rs /\ length rs = 1 + length calls /\ pinits s = [(0, a)].
Proof. exact plain_one. Qed.
Print Assumptions C68_plain_partial.

(** * Not provable: with threads, with constructors that raise *)
Fixpoint nats_eqb (a b : list nat) : bool := match a, b with [], [] => true | x :: s, y :: t => (x =? y) && nats_eqb s t | _, _ => false end.
(** whatever the threads do, two calls with the same first arguments that return, return the same instance, which has been constructed *)
Definition C68_full_statement : Prop :=
  (forall calls es t u a b i j, nth_error calls t = Some a -> nth_error calls u = Some b -> firstn 1 (pos a) = firstn 1 (pos b) ->
     (forall k, ~ In (Forget k) es) ->
     nth_error (snd (exec nats_eqb 1 (threads calls) es)) t = Some (Finished _ (Ok i)) -> nth_error (snd (exec nats_eqb 1 (threads calls) es)) u = Some (Finished _ (Ok j)) -> i = j) /\
  (forall calls es t i, nth_error (snd (exec nats_eqb 1 (threads calls) es)) t = Some (Finished _ (Ok i)) ->
     In i (map fst (inits (fst (exec nats_eqb 1 (threads calls) es))))) /\
  (forall ops ops' a e i, snd (step nats_eqb 1 (fst (run nats_eqb 1 (begin nat) ops)) (Call a (Some e))) = OInst _ (Err e) ->
     snd (step nats_eqb 1 (fst (run nats_eqb 1 (begin nat) (ops ++ Call a (Some e) :: ops'))) (Call a (Some e))) <> OInst _ (Ok i)).

Local Notation arg1 n := (mk_args [n] []).
(** two threads make the dictionary at the same time, or the instance at the same time: two instances for the same arguments *)
Theorem C68_race_refuted :
  snd (exec nats_eqb 1 (threads [arg1 7; arg1 7]) [Turn _ 0 None; Turn _ 1 None; Turn _ 0 None; Turn _ 1 None; Turn _ 0 None; Turn _ 1 None; Turn _ 0 None; Turn _ 1 None; Turn _ 0 None; Turn _ 1 None])
    = [Finished _ (Ok 0); Finished _ (Ok 1)].
Proof. vm_compute. reflexivity. Qed.
Print Assumptions C68_race_refuted.
(** the second thread gets the instance while its constructor has not run *)
Theorem C68_not_constructed_refuted : let c := exec nats_eqb 1 (threads [arg1 7; arg1 7]) [Turn _ 0 None; Turn _ 0 None; Turn _ 0 None; Turn _ 0 None; Turn _ 1 None; Turn _ 1 None; Turn _ 1 None] in
  snd c = [Made (arg1 7) 0; Finished _ (Ok 0)] /\ inits (fst c) = [].
Proof. vm_compute. auto. Qed.
Print Assumptions C68_not_constructed_refuted.
(** with weak references: KeyError if the instance is collected between the check and the access *)
Theorem C68_weak_race_refuted :
  snd (exec nats_eqb 1 (threads [arg1 7; arg1 7])
    [Turn _ 0 None; Turn _ 0 None; Turn _ 0 None; Turn _ 0 None; Turn _ 0 None; Turn _ 1 None; Turn _ 1 None; Forget [7]; Turn _ 1 None]) = [Finished _ (Ok 0); Finished _ (Err KeyError)].
Proof. vm_compute. reflexivity. Qed.
Print Assumptions C68_weak_race_refuted.
(** the same for Singleton *)
Theorem C68_plain_race_refuted :
  pexec (mk_pstate None 0 [], [PEntering 5; PEntering 6]) [(0, None); (1, None); (0, None); (1, None); (0, None); (1, None)] =
    (mk_pstate (Some 1) 2 [(0, 5); (1, 6)], [PFinished _ (Ok 0); PFinished _ (Ok 1)]).
Proof. vm_compute. reflexivity. Qed.
Print Assumptions C68_plain_race_refuted.
(** if the constructor raises, the next call gives the instance that was not constructed, and constructs nothing *)
Theorem C68_failed_constructor_refuted :
  snd (run nats_eqb 1 (begin nat) [Call (arg1 7) (Some (UserExn 1)); Call (arg1 7) None]) = [OInst _ (Err (UserExn 1)); OInst _ (Ok 0)] /\
  inits (fst (run nats_eqb 1 (begin nat) [Call (arg1 7) (Some (UserExn 1)); Call (arg1 7) None])) = [(0, arg1 7)] /\
  prun (mk_pstate None 0 []) [(5, Some (UserExn 1)); (6, None)] = (mk_pstate (Some 0) 1 [(0, 5)], [Err (UserExn 1); Ok 0]).
Proof. vm_compute. auto. Qed.
Print Assumptions C68_failed_constructor_refuted.
(** arguments given by keyword are not told apart; delete_singleton_for with the arguments of the constructor raises KeyError if there are
    more of them than num_args; before the first instance AttributeError is raised *)
Theorem C68_arguments_refuted :
  snd (run nats_eqb 1 (begin nat) [Instances nat; Delete [7]; Call (mk_args [] [7]) None; Call (mk_args [] [8]) None; Call (mk_args [7; 1] []) None; Delete [7; 1]]) =
    [OKeys (Err AttributeError); OUnit _ (Err AttributeError); OInst _ (Ok 0); OInst _ (Ok 0); OInst _ (Ok 1); OUnit _ (Err KeyError)].
Proof. vm_compute. reflexivity. Qed.
Print Assumptions C68_arguments_refuted.
Theorem C68_full_statement_refuted : ~ C68_full_statement.
Proof.
  intros (_ & _ & H). apply (H [] [] (arg1 7) (UserExn 1) 0); vm_compute; reflexivity.
Qed.
Print Assumptions C68_full_statement_refuted.

(** * Cases that meet the hypotheses *)
Example C68_eg_key : forall a b, nats_eqb a b = true <-> a = b.
Proof.
  induction a as [|x a IH]; intros [|y b]; simpl; split; intros H; try discriminate; auto.
  - apply andb_prop in H. destruct H as (E & H). apply Nat.eqb_eq in E. apply IH in H. subst. auto.
  - inversion H; subst. rewrite Nat.eqb_refl. apply IH. auto.
Qed.
Definition eg_ops : list (op nat) := [Call (mk_args [1; 5] []) None; Call (mk_args [2] []) None; Delete [2]; Call (mk_args [1; 6] []) None; Call (mk_args [2] []) None; Instances _].
Example C68_eg_run : Forall (@succeeds nat) eg_ops /\
  snd (run nats_eqb 1 (begin nat) eg_ops) = [OInst _ (Ok 0); OInst _ (Ok 1); OUnit _ (Ok tt); OInst _ (Ok 0); OInst _ (Ok 2); OKeys (Ok [[1]; [2]])].
Proof. split; [repeat constructor|reflexivity]. Qed.
