(** C88: what Prometheus reads is what was measured. *)
From Coq Require Import String Ascii ZArith.
From Verif Require Import Prelude Prom_Model Prom_Spec Prom_Proofs.
Open Scope list_scope.
Open Scope nat_scope.

(** A reader of the exposition format decodes the rendered text into just the data that are not internal, each with its name (dots being
    underscores), labels, value and timestamp, whatever quotes and backslashes the label values contain. Proved for label values without newlines. *)
Definition C88_full_statement : Prop := forall l, (forall d, In d l -> internal d = false -> well_named d) ->
  decode (to_prometheus l) = Some (map seen_as (filter (fun d => negb (internal d)) l)).
Theorem C88_round_trip_partial : forall l, (forall d, In d l -> internal d = false -> well_named d /\ one_line d) ->
  decode (to_prometheus l) = Some (map seen_as (filter (fun d => negb (internal d)) l)).
Proof. exact decode_ok. Qed.
Print Assumptions C88_round_trip_partial.
(** A newline in a label value is written as it is, and makes the whole text unreadable. *)
Theorem C88_full_statement_refuted : ~ C88_full_statement.
Proof. exact newline_refuted. Qed.
Print Assumptions C88_full_statement_refuted.

(** The same through HTTP, where every sample gets the extra labels; other paths are not found. *)
Theorem C88_get_partial : forall extra l, (forall d, In d l -> internal d = false -> well_named d /\ one_line d) ->
  (forall k v, In (k, v) extra -> good_key k /\ ~ In newline v) ->
  exists body, do_GET (lit "/metrics") extra l = (200, Some body) /\
    decode body = Some (map (fun d => seen_as (labelled extra d)) (filter (fun d => negb (internal d)) l)).
Proof. intros extra l G E. eexists. split; [reflexivity|]. exact (get_ok extra l G E). Qed.
Print Assumptions C88_get_partial.
Theorem C88_get_other : forall path extra l, path <> lit "/metrics" -> do_GET path extra l = (404, None).
Proof. intros path extra l N. unfold do_GET, text_eqb. destruct (list_eq_dec ascii_dec path (lit "/metrics")); [contradiction|reflexivity]. Qed.
Print Assumptions C88_get_other.

(** Different data are to be told apart; but metrics a.b and a_b are one to the reader. *)
Definition C88_distinct_full_statement : Prop := forall a b, well_named a -> well_named b -> one_line a -> one_line b -> internal a = false -> internal b = false ->
  to_prometheus [a] = to_prometheus [b] -> a = b.
Theorem C88_distinct_full_statement_refuted : ~ C88_distinct_full_statement.
Proof. exact collision_refuted. Qed.
Print Assumptions C88_distinct_full_statement_refuted.
Theorem C88_distinct_partial : forall a b, well_named a -> well_named b -> one_line a -> one_line b -> internal a = false -> internal b = false ->
  ~ In "."%char (name a) -> ~ In "."%char (name b) -> to_prometheus [a] = to_prometheus [b] -> a = b.
Proof. exact distinct. Qed.
Print Assumptions C88_distinct_partial.

(** A label value with a quote and a backslash, an internal metric between two visible ones. *)
Definition C88_odd : text := lit "C:\" ++ [""""%char] ++ lit "x".
Definition C88_data : list datum := [one C88_odd; mk_datum (lit "secret") [] (lit "1") None true; counter "up"].
Example C88_example : string_of_list_ascii (to_prometheus C88_data) =
  ("requests_total{path=" ++ String """" "C:\\\" ++ String """" "x" ++ String """" "} 17 1500" ++ String newline "up 1" ++ String newline "")%string.
Proof. reflexivity. Qed.
Example C88_example_back : decode (to_prometheus C88_data)
  = Some [mk_sample (lit "requests_total") [(lit "path", C88_odd)] (lit "17") (Some 1500%Z); mk_sample (lit "up") [] (lit "1") None].
Proof. vm_compute. reflexivity. Qed.
Example C88_example_hypotheses : well_named (one C88_odd) /\ one_line (one C88_odd).
Proof.
  split; [exact (one_named C88_odd)|]. intros k v [I|[]] J. injection I as <- <-. simpl in J.
  repeat (destruct J as [J|J]; [discriminate|]). destruct J.
Qed.
