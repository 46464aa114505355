(** C119: futures of Cassandra *)
From Coq Require Import Lia.
From Verif Require Import Prelude Cass_Model Cass_Spec Cass_Proofs.
Set Implicit Arguments.

(** In whatever order wrap_future and the driver get on, the driver completing its future once: the future wrap_future returned is
    finished exactly when the driver's is, with its result or exception, and nothing is raised inside the driver. *)
Theorem C119_partial : forall V (es : list (event V)), 2 <= turns es ->
  (completions es = [] -> out (run begin es) = Running) /\
  (forall r, completions es = [r] -> out (run begin es) = Finished r /\ errors (run begin es) = 0).
Proof.
  intros V es T.
  assert (W : waits (@begin V)) by (constructor; reflexivity).
  split.
  - intros C. apply (run_none es W C).
  - intros r C. destruct (run_one es W C) as [_ B _ _ E]. split; auto. rewrite E.
    pose proof (run_at es begin) as Q. cbn in Q. destruct (turns es) as [|[|n]]; [lia|lia|]. now rewrite Q.
Qed.
Print Assumptions C119_partial.
Definition C119_full_statement : Prop := forall V (es : list (event V)), errors (run begin es) = 0.
(** a further page completes the driver's future again: set_result raises InvalidStateError in the driver *)
Theorem C119_full_statement_refuted : ~ C119_full_statement.
Proof. intros H. specialize (H nat [Turn; Turn; Complete (Ok 1); Complete (Ok 2)]). discriminate. Qed.
Print Assumptions C119_full_statement_refuted.
(** the result of the first completion stays *)
Theorem C119_first : forall V (es1 es2 : list (event V)) r, out (run begin es1) = Finished r -> out (run begin (es1 ++ es2)) = Finished r.
Proof.
  intros V es1 es2 r H. unfold run. rewrite fold_left_app. fold (run begin es1). revert H. generalize (run begin es1).
  induction es2 as [|e es IH]; intros s H; [auto|]. cbn. apply IH.
  destruct s as [so cb eb a o n]. cbn in *. subst o. destruct e as [[|]|]; cbn; [destruct cb|destruct eb|destruct a; try destruct so as [[|]|]]; reflexivity.
Qed.
Print Assumptions C119_first.

(** parallel_for executes everything first, in order, each query with its arguments (and without any for None), then yields the results
    in order, as far as they are asked for, up to the first exception. Nothing happens before an element is asked for. *)
Theorem C119_parallel : forall Q A V (submit : Q -> option A -> res nat) (result : nat -> res V) q arguments,
  parallel_for submit result 0 q arguments = [] /\
  (forall fs, map (fun x => submit (fst x) (snd x)) (to_execute q arguments) = map Ok fs ->
   forall n, exists k, k <= length fs /\ k <= S n /\
     (forall i, i < k -> match nth_error fs i with Some f => is_ok (result f) = true | None => False end) /\
     parallel_for submit result (S n) q arguments =
       map (fun x => Execute V (fst x) (snd x)) (to_execute q arguments) ++
       flat_map (fun f => match result f with Ok v => [Yield Q A v] | Err _ => [] end) (firstn k fs) ++
       (match nth_error fs k with Some f => if k <? S n then match result f with Err e => [Raise Q A V e] | Ok _ => [] end else [] | None => [] end) /\
     (k = length fs \/ k = S n \/ exists f e, nth_error fs k = Some f /\ result f = Err e)).
Proof.
  intros Q A V submit result q arguments. split; [reflexivity|].
  intros fs H n.
  assert (SUB : forall l fs acc, map (fun x => submit (fst x) (snd x)) l = map Ok fs ->
     submits V submit l acc = (map (fun x => Execute V (fst x) (snd x)) l, Ok (acc ++ fs))).
  { induction l as [|[x a] l IH]; intros gs acc E; destruct gs as [|g gs]; try discriminate.
    - cbn. now rewrite app_nil_r.
    - cbn in E. injection E as E1 E2. cbn. rewrite E1, (IH gs _ E2). cbn. now rewrite <- app_assoc. }
  assert (Y : forall n fs, exists k, k <= length fs /\ k <= n /\
     (forall i, i < k -> match nth_error fs i with Some f => is_ok (result f) = true | None => False end) /\
     yields Q A result n fs = flat_map (fun f => match result f with Ok v => [Yield Q A v] | Err _ => [] end) (firstn k fs) ++
       (match nth_error fs k with Some f => if k <? n then match result f with Err e => [Raise Q A V e] | Ok _ => [] end else [] | None => [] end) /\
     (k = length fs \/ k = n \/ exists f e, nth_error fs k = Some f /\ result f = Err e)).
  { clear. induction n as [|n IH]; intros fs.
    - exists 0. repeat split; auto; try lia. cbn. destruct fs; reflexivity.
    - destruct fs as [|f fs].
      + exists 0. cbn. repeat split; auto; lia.
      + destruct (result f) as [v|e] eqn:R.
        * destruct (IH fs) as (k & L1 & L2 & O & E & K). exists (S k). cbn [length nth_error]. split; [lia|]. split; [lia|]. split; [|split].
          -- intros [|i] Hi; cbn; [now rewrite R|]. apply O. lia.
          -- cbn [yields firstn flat_map]. rewrite R, E. reflexivity.
          -- destruct K as [K|[K|K]]; auto.
        * exists 0. cbn. rewrite R. repeat split; auto; try lia. right. right. eauto. }
  destruct (Y (S n) fs) as (k & L1 & L2 & O & E & K). exists k. split; [auto|]. split; [auto|]. split; [auto|]. split; [|auto].
  unfold parallel_for. rewrite pairs_ok, (SUB _ fs [] H). cbn [app]. rewrite E. reflexivity.
Qed.
Print Assumptions C119_parallel.
(** An exception of execute_async ends it before anything is yielded; what was executed before stays executed. *)
Theorem C119_submit_fails : forall Q A V (submit : Q -> option A -> res nat) (result : nat -> res V) q arguments l1 x l2 fs e n,
  to_execute q arguments = l1 ++ x :: l2 -> map (fun x => submit (fst x) (snd x)) l1 = map Ok fs -> submit (fst x) (snd x) = Err e ->
  parallel_for submit result (S n) q arguments = map (fun x => Execute V (fst x) (snd x)) (l1 ++ [x]) ++ [Raise Q A V e].
Proof.
  intros Q A V submit result q arguments l1 x l2 fs e n T O E. unfold parallel_for. rewrite pairs_ok, T.
  assert (K : forall acc, submits V submit (l1 ++ x :: l2) acc = (map (fun x => Execute V (fst x) (snd x)) (l1 ++ [x]), Err e)).
  { clear T. revert fs O. induction l1 as [|[y a] l1 IH]; intros fs O acc.
    - destruct x as [y a]. cbn in *. now rewrite E.
    - destruct fs as [|f fs]; [discriminate|]. cbn in O. injection O as O1 O2. cbn. rewrite O1. rewrite (IH fs O2). reflexivity. }
  rewrite K. reflexivity.
Qed.
Print Assumptions C119_submit_fails.

(** cases *)
Example C119_case : turns [Turn; Complete (Err KeyError : res nat); Turn] = 2 /\ completions [Turn; Complete (Err KeyError : res nat); Turn] = [Err KeyError] /\
  out (run begin [Turn; Complete (Err KeyError : res nat); Turn]) = Finished (Err KeyError).
Proof. repeat split. Qed.
Example C119_case_parallel :
  parallel_for (fun q a => Ok (q + match a with Some x => x | None => 0 end)) (fun f => if Nat.eqb f 12 then Err KeyError else Ok f) 5 (OneQuery 10) [Some 1; None; Some 2; Some 3] =
  [Execute nat 10 (Some 1); Execute nat 10 None; Execute nat 10 (Some 2); Execute nat 10 (Some 3); Yield nat nat 11; Yield nat nat 10; Raise nat nat nat KeyError] /\
  map (fun x => (fun q a => Ok (q + match a with Some x => x | None => 0 end) : res nat) (fst x) (snd x)) (to_execute (OneQuery 10) [Some 1; None; Some 2; Some 3]) = map Ok [11; 10; 12; 13].
Proof. split; reflexivity. Qed.
