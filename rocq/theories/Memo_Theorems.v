(** C36: memoize and cache_memoize. *)
From Verif Require Import Prelude PreludeFacts MoreFacts Memo_Model Memo_Spec Memo_Proofs.

(** Whatever the schedule: each call that is over returned what an evaluation on the same positional arguments gave, its own or, for
    cache_memoize, one not older than the duration; an exception is the call's own. *)
Theorem C36_returns_a_value_of_the_function : forall (K W V : Type) (eqb : K -> K -> bool), eqb_ok eqb -> forall duration programs es t program th,
  let c := mexec eqb duration (mstart V programs) es in
  nth_error programs t = Some program -> nth_error (mthreads c) t = Some th ->
  exists finished : list (K * W), program = finished ++ called th ++ todo th /\ Forall2 (justified duration (evals c) t) finished (results th).
Proof. intros K W V eqb He duration programs es t program th. exact (returns K W V eqb He duration programs es t program th). Qed.
Print Assumptions C36_returns_a_value_of_the_function.

(** Calls made one at a time, by any threads: the function is not evaluated again on arguments for which there is a value, until the
    duration is over. *)
Theorem C36_evaluated_once : forall (K W V : Type) (eqb : K -> K -> bool), eqb_ok eqb -> forall duration (programs : list (list (K * W))) es,
  match duration with None => True | Some d => (0 <= d)%Z end ->
  one_by_one duration eqb (mstart V programs) es -> well_spaced duration (evals (mexec eqb duration (mstart V programs) es)).
Proof. intros K W V eqb He duration programs es. exact (spaced K W V eqb He duration programs es). Qed.
Print Assumptions C36_evaluated_once.

(** The lock does not get in the way: all calls can come to an end, whatever the function does (here: ends as [out] says). *)
Theorem C36_can_finish : forall (K W V : Type) (eqb : K -> K -> bool), eqb_ok eqb -> forall duration (programs : list (list (K * W))) es (out : res V),
  exists more, Forall (fun th => todo th = [] /\ at_ th = Outside) (mthreads (mexec eqb duration (mstart V programs) (es ++ more))).
Proof. intros K W V eqb He duration programs es out. exact (can_finish K W V eqb He duration programs es out). Qed.
Print Assumptions C36_can_finish.

Definition go (l : list (nat * Z * res Z)) : list (event Z) := map (fun x => Turn (fst (fst x)) (snd (fst x)) (snd x)) l.
Definition times_ (n : nat) (t : nat) (now : Z) (r : res Z) : list (event Z) := go (repeat (t, now, r) n).
Definition evaluated (c : mstate Z Z Z) : list (Z * Z * res Z) := map (fun e => (on e, stamp e, outcome e)) (evals c).

(** one thread: f(1), f(2), f(1), an exception, f(1) after the duration *)
Definition demo_programs : list (list (Z * Z)) := [[(1, 0); (2, 0); (2, 0); (1, 0); (1, 0)]; [(1, 0)]]%Z.
Definition demo_events : list (event Z) :=
  times_ 8 0 100%Z (Ok 11%Z) ++ times_ 6 0 103%Z (Err KeyError) ++ times_ 8 0 104%Z (Ok 22%Z) ++ times_ 4 0 110%Z (Ok 12%Z) ++ times_ 8 0 111%Z (Ok 13%Z) ++ times_ 4 1 112%Z (Ok 14%Z).
Example C36_demo : let c := mexec Z.eqb (Some 10%Z) (mstart Z demo_programs) demo_events in
  evaluated c = [(1, 100, Ok 11); (2, 103, Err KeyError); (2, 104, Ok 22); (1, 111, Ok 13)]%Z /\
  map (@results Z Z Z) (mthreads c) = [[(100, Ok 11); (103, Err KeyError); (104, Ok 22); (110, Ok 11); (111, Ok 13)]; [(112, Ok 13)]]%Z.
Proof. vm_compute. auto. Qed.
Example C36_demo_one_by_one : one_by_one (Some 10%Z) Z.eqb (mstart Z demo_programs) demo_events.
Proof. apply one_by_one_check. vm_compute. reflexivity. Qed.
Example C36_memoize_demo :
  let es := times_ 6 0 1%Z (Ok 11%Z) ++ times_ 4 1 2%Z (Ok 12%Z) in
  let c := mexec Z.eqb None (mstart Z [[(1, 0)]; [(1, 0)]]%Z) es in
  evaluated c = [(1, 1, Ok 11)]%Z /\ map (@results Z Z Z) (mthreads c) = [[(1, Ok 11)]; [(2, Ok 11)]]%Z /\
  one_by_one None Z.eqb (mstart Z [[(1, 0)]; [(1, 0)]]%Z) es.
Proof. split; [|split]; [vm_compute; reflexivity..|apply one_by_one_check; vm_compute; reflexivity]. Qed.

(** "This will make your function execute it at most one thread": no, the lock is given back while the function runs. Two threads
    evaluate f(1) at the same time, and return different values. *)
Theorem C36_runs_twice_refuted :
  let c := mexec Z.eqb None (mstart Z [[(1, 0)]; [(1, 0)]]%Z) (times_ 3 0 0%Z (Ok 0%Z) ++ times_ 3 1 0%Z (Ok 0%Z)) in
  map (@at_ Z Z Z) (mthreads c) = [Inside 1 0 0 Evaluating; Inside 1 0 0 Evaluating]%Z /\
  map (@results Z Z Z) (mthreads (mexec Z.eqb None c (times_ 3 0 0%Z (Ok 5%Z) ++ times_ 3 1 0%Z (Ok 6%Z)))) = [[(0, Ok 5)]; [(0, Ok 6)]]%Z.
Proof. vm_compute. auto. Qed.
Print Assumptions C36_runs_twice_refuted.

(** The value is one of the function on the same arguments, keyword arguments included. *)
Definition C36_full_statement : Prop := forall (K W V : Type) (eqb : K -> K -> bool), eqb_ok eqb ->
  forall duration programs es t th (call : K * W) now v,
  let c := mexec eqb duration (mstart V programs) es in
  nth_error programs t = Some [call] -> nth_error (mthreads c) t = Some th -> results th = [(now, Ok v)] ->
  exists e, In e (evals c) /\ on e = fst call /\ with_kwargs e = snd call /\ outcome e = Ok v.
(** Keyword arguments are not part of the key (of memoize this is documented): f(1, x=7) returns the value of f(1, x=0). *)
Theorem C36_full_statement_refuted : ~ C36_full_statement.
Proof.
  intros H. destruct (H Z Z Z Z.eqb Z.eqb_eq (Some 10%Z) [[(1, 0)]; [(1, 7)]]%Z (times_ 8 0 1%Z (Ok 11%Z) ++ times_ 4 1 2%Z (Ok 12%Z)) 1 _ (1, 7)%Z 2%Z 11%Z
    eq_refl eq_refl eq_refl) as (e & Hin & H1 & H2 & H3).
  vm_compute in Hin. destruct Hin as [<-|[]]. discriminate H2.
Qed.
Print Assumptions C36_full_statement_refuted.
