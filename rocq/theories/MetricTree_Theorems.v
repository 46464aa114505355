(** C43: the tree of metrics. *)
From Coq Require Import Ascii String.
From Verif Require Import Prelude Files_Model MetricTree_Model MetricTree_Spec MetricTree_Proofs.
Import ListNotations.
Open Scope list_scope.

(** After any history every metric has exactly one effective level, and reading .level gives it. *)
Theorem C43_level : forall ops i, i < size (run ops) -> exists l, effective (run ops) i l /\ level (run ops) i = Ok l /\ l <> INHERIT.
Proof.
  exact (fun ops i Z => match level_ok (run ops) i (run_Inv ops) Z with ex_intro _ l (conj A B) => ex_intro _ l (conj A (conj B (effective_not_inherit _ _ _ A))) end).
Qed.
Print Assumptions C43_level.
(** handle(level, v) hands v to the metric iff the metric's effective level is at least that level; nothing else changes. A
    container reached this way raises TypeError. *)
Theorem C43_handle : forall ops i l v own, effective (run ops) i own -> i < size (run ops) ->
  let s := run ops in let (s', o) := step s (Handle i l v) in
  if (rank l <=? rank own)%nat
  then match kind_of (o_class (heap s i)) with
       | Some KLeaf => o = OHandled true /\ o_data (heap s' i) = o_data (heap s i) ++ [v] /\ (forall j, j <> i -> heap s' j = heap s j)
       | Some KEmpty => o = OHandled true /\ s' = s
       | _ => o = ORaised TypeError /\ s' = s
       end
  else o = OHandled false /\ s' = s.
Proof. exact handle_exact. Qed.
Print Assumptions C43_handle.
(** getMetric with a name that was asked for before returns the same metric if the type is the same, and raises
    MetricAlreadyExists if not, until a reset. (The root is of type base, whatever type was asked for first.) *)
Theorem C43_same_metric : forall ops n t l bad i more t' l' bad', no_resets more -> l' <> Some INHERIT ->
  snd (step (run ops) (Get n t l bad)) = OMetric i ->
  snd (step (run (ops ++ Get n t l bad :: more)) (Get n t' l' bad')) =
    if String.eqb (if name_eqb n [] then "base"%string else t) t' then OMetric i else ORaised AlreadyExists.
Proof. exact same_again. Qed.
Print Assumptions C43_same_metric.
Theorem C43_wrong_type_changes_nothing : forall ops n t l bad i more t' l' bad', no_resets more -> String.eqb (if name_eqb n [] then "base"%string else t) t' = false ->
  snd (step (run ops) (Get n t l bad)) = OMetric i ->
  fst (step (run (ops ++ Get n t l bad :: more)) (Get n t' l' bad')) = run (ops ++ Get n t l bad :: more).
Proof. exact wrong_type. Qed.
Print Assumptions C43_wrong_type_changes_nothing.
(** getMetric registers every ancestor and makes it the parent of the next one, after any history, resets included. *)
Theorem C43_ancestors : forall ops n t l bad i, snd (step (run ops) (Get n t l bad)) = OMetric i ->
  lineage (run (ops ++ [Get n t l bad])) (split_on dot n) i.
Proof. exact get_lineage. Qed.
Print Assumptions C43_ancestors.
(** With proper names every registered metric whose parent is a container is among its children. *)
Theorem C43_children : forall ops k c q, proper_names ops -> reg (run ops) k = Some c -> o_parent (heap (run ops) c) = Some q -> container (run ops) q ->
  In c (o_children (heap (run ops) q)).
Proof. exact child_ok. Qed.
Print Assumptions C43_children.
(** An export visits exactly the leaves reachable through children whose level is not above their parent's. *)
Theorem C43_export : forall ops i n o, i < size (run ops) -> In (n, o) (export (run ops) i) <-> exports (run ops) i n o.
Proof. exact export_ok. Qed.
Print Assumptions C43_export.
(** With proper names, exporting the root visits every registered leaf that is shown, under the name it was asked for... *)
Theorem C43_export_complete : forall ops r q o, proper_names ops -> reg (run ops) [] = Some r -> reg (run ops) q = Some o -> leaf (run ops) o -> shown_from (run ops) r o ->
  In (q, o) (export (run ops) r).
Proof. exact registered_exported. Qed.
Print Assumptions C43_export_complete.
(** ... and, as long as nothing was reset, only those. *)
Theorem C43_export_sound_partial : forall ops r q o, proper_names ops -> no_resets ops -> reg (run ops) [] = Some r -> In (q, o) (export (run ops) r) ->
  reg (run ops) q = Some o /\ leaf (run ops) o /\ shown_from (run ops) r o.
Proof. exact exported_registered. Qed.
Print Assumptions C43_export_sound_partial.

(** reset() of a registered metric forgets it, everything below it and nothing else; of the root, everything. *)
Theorem C43_reset : forall ops f i, proper_names ops -> reg (run ops) f = Some i -> let (s', o) := step (run ops) (Reset i) in
  o = ODone /\ o_children (heap s' i) = [] /\ (forall j, j <> i -> heap s' j = heap (run ops) j) /\
  (f = [] -> forall k, reg s' k = None) /\
  (f <> [] -> forall k, (at_or_below f k -> reg s' k = None) /\ (~ at_or_below f k -> reg s' k = reg (run ops) k)).
Proof. exact reset_exact. Qed.
Print Assumptions C43_reset.

(** ** examples *)
Definition N (s : string) : name := list_ascii_of_string s.
Definition get (s t : string) : op := Get (N s) t None None.
(** the root is 0, a 1, a.b 2, a.c 3 *)
Definition C43_ops : list op := [get "a.b" "int"; Get (N "a.c") "counter" (Some DEBUG) None; Handle 2 RUNTIME 5; Handle 2 DEBUG 6; Handle 3 DEBUG 7].
Example C43_example : proper_names C43_ops /\ no_resets C43_ops /\ effective (run C43_ops) 2 RUNTIME /\ reg (run C43_ops) (N "a.b") = Some 2 /\
  o_data (heap (run C43_ops) 2) = [5%Z] /\ o_data (heap (run C43_ops) 3) = [7%Z] /\ export (run C43_ops) 0 = [(N "a.b", 2)] /\ export (run C43_ops) 1 = [(N "a.b", 2)].
Proof.
  split. { intros n t l bad H. unfold C43_ops, get in H. simpl in H. destruct H as [H|[H|[H|[H|[H|[]]]]]]; try discriminate; injection H as <- <- <- <-; right; vm_compute; intuition discriminate. }
  split. { intros i H. unfold C43_ops, get in H. simpl in H. destruct H as [H|[H|[H|[H|[H|[]]]]]]; discriminate. }
  split. { apply (inherited (run C43_ops) 2 1); [vm_compute; auto|vm_compute; auto|]. apply (inherited (run C43_ops) 1 0); [vm_compute; auto|vm_compute; auto|]. assert (X : o_level (heap (run C43_ops) 0) = RUNTIME) by (vm_compute; auto). rewrite <- X. apply (own_level (run C43_ops) 0). rewrite X. discriminate. }
  repeat split; vm_compute; auto.
Qed.
Example C43_same_example : snd (step (run C43_ops) (get "a.b" "int")) = OMetric 2 /\ snd (step (run C43_ops) (get "a.b" "float")) = ORaised AlreadyExists.
Proof. split; vm_compute; auto. Qed.

(** ** what one might expect and does not hold *)
(** two different metrics are exported under two different names *)
Definition C43_full_statement : Prop :=
  forall ops r q o o', reg (run ops) [] = Some r -> In (q, o) (export (run ops) r) -> In (q, o') (export (run ops) r) -> o = o'.
Theorem C43_full_statement_refuted : ~ C43_full_statement.
Proof.
  intros H. assert (X : 1 = 2); [|discriminate]. apply (H [get ".a" "int"; get "a" "int"]%string 0 (N "a") 1 2); vm_compute; auto.
Qed.
Print Assumptions C43_full_statement_refuted.
(** a metric that was reset stays in the export beside the one that replaced it *)
Theorem C43_reset_leaves_a_copy_refuted : export (run [get "a" "int"; Handle 1 RUNTIME 1; Reset 1; get "a" "int"]) 0 = [(N "a", 1); (N "a", 2)] /\
  o_data (heap (run [get "a" "int"; Handle 1 RUNTIME 1; Reset 1; get "a" "int"]) 1) = [1%Z].
Proof. split; vm_compute; auto. Qed.
Print Assumptions C43_reset_leaves_a_copy_refuted.
(** getMetric below a leaf raises TypeError the first time; the second time it returns a metric that takes data and is never exported *)
Theorem C43_below_a_leaf_refuted :
  let s := run [get "a" "int"; get "a.b" "int"] in
  snd (step (run [get "a" "int"]) (get "a.b" "int")) = ORaised TypeError /\ snd (step s (get "a.b" "int")) = OMetric 2 /\
  snd (step s (Handle 2 RUNTIME 5)) = OHandled true /\ export (run [get "a" "int"; get "a.b" "int"; Handle 2 RUNTIME 5]) 0 = [(N "a", 1)].
Proof. repeat split; vm_compute; auto. Qed.
Print Assumptions C43_below_a_leaf_refuted.
(** asked for the root with another type, getMetric returns it the first time and raises the second time *)
Theorem C43_root_type_refuted : snd (step (run []) (get "" "int")) = OMetric 0 /\ snd (step (run [get "" "int"]) (get "" "int")) = ORaised AlreadyExists.
Proof. split; vm_compute; auto. Qed.
Print Assumptions C43_root_type_refuted.
(** a DISABLED metric takes no data, and is exported *)
Theorem C43_disabled_exported_refuted :
  let s := run [Get (N "a") "int" (Some DISABLED) None] in snd (step s (Handle 1 RUNTIME 5)) = OHandled false /\ export s 0 = [(N "a", 1)].
Proof. split; vm_compute; auto. Qed.
Print Assumptions C43_disabled_exported_refuted.
(** resetting the metric 'a.' forgets every metric *)
Theorem C43_reset_of_empty_part_refuted :
  snd (step (run [get "b" "int"; get "a." "base"; Reset 3]) (get "b" "int")) = OMetric 5 /\ snd (step (run [get "b" "int"; get "a." "base"]) (get "b" "int")) = OMetric 1.
Proof. split; vm_compute; auto. Qed.
Print Assumptions C43_reset_of_empty_part_refuted.
(** the type 'string' of the documentation is not registered: KeyError, and the ancestors stay *)
Theorem C43_string_type_refuted : snd (step (run []) (get "a.b" "string")) = ORaised KeyError /\ size (run [get "a.b" "string"]) = 2.
Proof. split; vm_compute; auto. Qed.
Print Assumptions C43_string_type_refuted.
