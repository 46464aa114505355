(** C74: theorems. *)
From Verif Require Import Prelude Closeable_Model Closeable_Spec Closeable_Proofs.

(** ** One thread *)
(** Whatever was done with the object before, an operation answers, and cleans up, as its history says: the cleanup runs exactly if the
    operation closes the object, its constructor was run and it was not closed since. *)
Theorem C74_history : forall h p, exists xs, snd (run fresh (h ++ [p])) = xs ++ [answer (needs h false) p] /\
  cleanups (fst (run fresh (h ++ [p]))) = cleanups (fst (run fresh h)) + (if (closing p && needs h false)%bool then 1 else 0).
Proof. exact answers. Qed.
Print Assumptions C74_history.

(** An object constructed once is cleaned up exactly once if it is closed at all, whether or not the cleanup raises, and not at all if it
    is only closed before its construction is over. *)
Theorem C74_once : forall h1 h2, (forall p, In p h1 -> p <> Init) -> (forall p, In p h2 -> p <> Init) ->
  cleanups (fst (run fresh (h1 ++ Init :: h2))) = if existsb closing h2 then 1 else 0.
Proof. exact exactly_once. Qed.
Print Assumptions C74_once.
Example C74_once_met : run fresh [Close None; Closed; Init; Closed; With (Some KeyError) (Some ValueError); Closed; Close None; Del None]
  = (mk_obj (Some true) 1, [ODone None; OBool true; ODone None; OBool false; ODone (Some ValueError); OBool true; ODone None; ODone None]).
Proof. reflexivity. Qed.

(** ** Several threads *)
(** The object is cleaned up at most once, and by the time some thread's close() has returned it is cleaned up. *)
Definition C74_full_statement : Prop := forall n es, (forall t, In t es -> t < n) ->
  (forall t u, cleaned (exec (start n) es) t -> cleaned (exec (start n) es) u -> t = u) /\
  ((exists t v, nth_error (at_ (exec (start n) es)) t = Some (Finished v)) -> exists t, cleaned (exec (start n) es) t).

(** Every thread that looks at the object before any thread has made its second step cleans up, and nobody else does. *)
Theorem C74_cleaners_partial : forall n es, (forall t, In t es -> t < n) -> 0 < n -> all_finished (exec (start n) es) ->
  forall t, t < n -> (cleaned (exec (start n) es) t <-> In t (early [] es)).
Proof. exact cleaners. Qed.
Print Assumptions C74_cleaners_partial.
(** When all have returned, somebody has cleaned up. *)
Theorem C74_cleaned_in_the_end_partial : forall n es, (forall t, In t es -> t < n) -> 0 < n -> all_finished (exec (start n) es) ->
  exists t, cleaned (exec (start n) es) t.
Proof. exact at_least_one. Qed.
Print Assumptions C74_cleaned_in_the_end_partial.
(** If there are never two threads between the check and the mark, at most one cleans up. *)
Theorem C74_apart_partial : forall n es, (forall t, In t es -> t < n) -> apart n es ->
  forall t u, cleaned (exec (start n) es) t -> cleaned (exec (start n) es) u -> t = u.
Proof. exact apart_once. Qed.
Print Assumptions C74_apart_partial.
Example C74_apart_met : apart 2 [0; 0; 1; 1; 0] /\ cleaned (exec (start 2) [0; 0; 1; 1; 0]) 0 /\ all_finished (exec (start 2) [0; 0; 1; 1; 0]).
Proof.
  split; [|split; [reflexivity|]].
  - intros es1 es2 E t u v w.
    repeat (destruct es1 as [|x es1]; [clear E|injection E as <- E]); try (destruct es1; [|discriminate E]); simpl;
      destruct t as [|[|[|t]]], u as [|[|[|u]]]; simpl; intros; try congruence; try (destruct t; discriminate); destruct u; discriminate.
  - intros [|[|[|t]]] p; simpl; intros H; try discriminate H; injection H as <-; eauto.
Qed.

(** two threads check, then both clean up *)
Theorem C74_twice_refuted : let s := exec (start 2) [0; 1; 0; 1; 0; 1] in cleaned s 0 /\ cleaned s 1.
Proof. split; reflexivity. Qed.
Print Assumptions C74_twice_refuted.
(** the first is still cleaning up when the second one's close() returns, and [closed] was true all the time *)
Theorem C74_early_return_refuted : let s := exec (start 2) [0; 0; 1; 1] in
  nth_error (at_ s) 1 = Some (Finished false) /\ flag s = true /\ ~ exists t, cleaned s t.
Proof. split; [reflexivity|]. split; [reflexivity|]. intros [[|[|[|t]]] C]; discriminate C. Qed.
Print Assumptions C74_early_return_refuted.
Theorem C74_full_statement_refuted : ~ C74_full_statement.
Proof.
  intros H. assert (B : forall t, In t [0; 1; 0; 1; 0; 1] -> t < 2) by (simpl; intros; lia).
  destruct (H 2 _ B) as [U _]. specialize (U 0 1 eq_refl eq_refl). discriminate.
Qed.
Print Assumptions C74_full_statement_refuted.
