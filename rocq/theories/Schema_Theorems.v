(** C25: configuration schema descriptors (satella/configuration/schema). *)
From Coq Require Import String.
From Verif Require Import Prelude Schema_Model Schema_Spec Schema_Proofs.
Local Open Scope string_scope.
Local Open Scope list_scope.

(** A Dict descriptor succeeds iff the value is a dictionary, each described key that is there is accepted by
    its descriptor, each that is not there is optional, and the mapper maps the unknown ones. *)
Theorem C25_dict_accepts : forall n keys mapper v,
  NoDup (map fst keys) -> (forall kvs, v = CDict kvs -> NoDup (map fst kvs)) ->
  accepted (fst (call (S n) (new_dict keys mapper) v)) <->
  exists kvs, v = CDict kvs /\ dict_accepts (fun d x => fst (call n d x)) keys mapper kvs.
Proof. exact dict_iff. Qed.
Print Assumptions C25_dict_accepts.

(** The outcome holds the described keys, the defaults of absent ones, the unknown ones mapped, and no other. *)
Theorem C25_dict_outcome : forall n keys mapper v w,
  NoDup (map fst keys) -> (forall kvs, v = CDict kvs -> NoDup (map fst kvs)) ->
  fst (call (S n) (new_dict keys mapper) v) = Ok w ->
  exists kvs out, v = CDict kvs /\ w = CDict out /\
    forall k, dict_entry (fun d x => fst (call n d x)) keys mapper kvs k (dget String.eqb out k).
Proof. exact dict_contents. Qed.
Print Assumptions C25_dict_outcome.

(** A Union returns what its first accepting descriptor returns, those before it having refused. *)
Theorem C25_union : forall n ds v w,
  fst (call (S n) (DUnion ds) v) = Ok w <->
  exists l1 d l2, ds = l1 ++ d :: l2 /\ Forall (fun d' => refused (fst (call n d' v))) l1 /\ fst (call n d v) = Ok w.
Proof. intros n ds v w. rewrite union_fst. exact (union_loop_ok (call n) ds v w). Qed.
Print Assumptions C25_union.
Theorem C25_union_refuses : forall n ds v,
  Forall (fun d => refused (fst (call n d v))) ds -> refused (fst (call (S n) (DUnion ds) v)).
Proof. intros n ds v H. rewrite union_fst. exact (union_loop_refused (call n) ds v H). Qed.
Print Assumptions C25_union_refuses.

(** A List accepts a list or a tuple iff its element descriptor accepts every element, and maps it. Missing:
    element descriptors with a Union in them, where some checker refuses on the way. *)
Theorem C25_list_partial : forall n td v l w,
  Forall (no_checker_refuses td) l \/ no_union td -> v = CList l \/ v = CTuple l ->
  fst (call (S n) (new_list td) v) = Ok w <->
  exists ws, w = CList ws /\ Forall2 (fun x y => fst (call n td x) = Ok y) l ws.
Proof. exact list_iff. Qed.
Print Assumptions C25_list_partial.
(** and otherwise raises what the descriptor raised at the first element it did not accept. *)
Theorem C25_list_error_partial : forall n td v l,
  Forall (no_checker_refuses td) l \/ no_union td -> v = CList l \/ v = CTuple l ->
  fst (call (S n) (new_list td) v) =
  match in_order (fun x => fst (call n td x)) l with Ok ws => Ok (CList ws) | Err e => Err e end.
Proof. exact list_answer. Qed.
Print Assumptions C25_list_error_partial.
Theorem C25_list_refuses : forall n td v, is_list_or_tuple v = false -> refused (fst (call (S n) (new_list td) v)).
Proof. exact list_refuses. Qed.
Print Assumptions C25_list_refuses.

(** Used again and again, a descriptor answers as it did when it was new, as long as before the last value no
    checker refused one, or, without Unions, no value was refused. *)
Theorem C25_again_partial : forall n d vs v,
  Forall (fun v => no_checker_refuses d v \/ (no_union d /\ accepted (fst (call n d v)))) vs ->
  fst (call_run n d (vs ++ [v])) = map (fun v => fst (call n d v)) (vs ++ [v]).
Proof. exact run_until. Qed.
Print Assumptions C25_again_partial.

(** What is not accepted is refused with ConfigurationValidationError, if the functions given complain as they should. *)
Theorem C25_refusals_partial : forall n d v, well_behaved d -> depth d <= n ->
  accepted (fst (call n d v)) \/ refused (fst (call n d v)).
Proof. intros n d v H1 H2. exact (proj1 (call_fine n d v H1 H2)). Qed.
Print Assumptions C25_refusals_partial.

(** The fuel of the model does not matter once it reaches the depth of the descriptor. *)
Theorem C25_fuel : forall n m d v, depth d <= n -> depth d <= m -> call n d v = call m d v.
Proof. exact call_enough. Qed.
Print Assumptions C25_fuel.

(** ** What fails *)
(** The full statement: what a descriptor says of a value does not depend on what it was asked before. *)
Definition C25_full_statement : Prop := forall n d vs, fst (call_run n d vs) = map (fun v => fst (call n d v)) vs.

(** A List() refuses a string once; the second time it takes it, letter by letter. *)
Theorem C25_full_statement_refuted : ~ C25_full_statement.
Proof. intros H. specialize (H 5 (new_list any) [CStr "ab"; CStr "ab"]). vm_compute in H. discriminate. Qed.
Print Assumptions C25_full_statement_refuted.
Theorem C25_list_second_time_refuted :
  fst (call_run 5 (new_list any) [CStr "ab"; CStr "ab"])
  = [Err ConfigurationValidationError; Ok (CList [CStr "a"; CStr "b"])].
Proof. vm_compute. reflexivity. Qed.
Print Assumptions C25_list_second_time_refuted.
(** So does must_be_one_of: it lasts until the first refusal. *)
Theorem C25_checker_second_time_refuted :
  let must_be_a := fun v => match v with CStr "a" => true | _ => false end in
  fst (call_run 5 (DBasic [] [must_be_a] Ok) [CStr "a"; CStr "b"; CStr "b"])
  = [Ok (CStr "a"); Err ConfigurationValidationError; Ok (CStr "b")].
Proof. vm_compute. reflexivity. Qed.
Print Assumptions C25_checker_second_time_refuted.
(** In a List of Unions it happens within one value: the second element is not taken as the first. *)
Theorem C25_list_of_union_refuted :
  fst (call 5 (new_list (DUnion [new_list any; any])) (CList [CStr "ab"; CStr "ab"]))
  = Ok (CList [CStr "ab"; CList [CStr "a"; CStr "b"]]).
Proof. vm_compute. reflexivity. Qed.
Print Assumptions C25_list_of_union_refuted.
(** A Regexp whose REGEXP is a string, as IPv4's is, raises AttributeError when the value does not match,
    and a Union does not go on to its next descriptor then. *)
Theorem C25_regexp_refuted :
  let ipv4 := DRegexp [] [] Ok (fun v => match v with CStr "127.0.0.1" => Some v | _ => None end) true in
  fst (call 5 ipv4 (CStr "localhost")) = Err AttributeError /\
  fst (call 5 (DUnion [ipv4; any]) (CStr "localhost")) = Err AttributeError.
Proof. vm_compute. auto. Qed.
Print Assumptions C25_regexp_refuted.

(** ** Examples *)
Definition schema : desc :=
  new_dict [("port", (false, CNone, DBasic [] [] (fun v => match v with CInt z => Ok (CInt z) | _ => Err TypeError end)));
            ("debug", (true, CBool false, boolean));
            ("hosts", (true, CList [], new_list any))] (fun _ v => Ok v).
Example C25_example_ok :
  fst (call 3 schema (CDict [("x", CNone); ("debug", CStr "True"); ("port", CInt 80)]))
  = Ok (CDict [("port", CInt 80); ("debug", CBool true); ("hosts", CList []); ("x", CNone)]).
Proof. vm_compute. reflexivity. Qed.
Example C25_example_missing : fst (call 3 schema (CDict [("debug", CBool true)])) = Err ConfigurationValidationError.
Proof. vm_compute. reflexivity. Qed.
Example C25_example_hypotheses : no_union schema /\ depth schema = 3 /\ well_behaved schema.
Proof.
  simpl. repeat split; auto.
  - intros k v e H. discriminate.
  - intros v e. destruct v; simpl; try discriminate; intros H; injection H as <-; auto.
  - intros v e. unfold make_boolean. destruct v; simpl; try discriminate.
    destruct (String.eqb (upper s) "TRUE"); [discriminate|]. destruct (String.eqb (upper s) "FALSE"); [discriminate|].
    intros H; injection H as <-; auto.
  - intros v e H. discriminate.
Qed.
Example C25_example_history :
  fst (call_run 3 schema [CDict [("port", CInt 1)]; CDict [("port", CInt 2); ("hosts", CTuple [CNone])]; CNone])
  = [Ok (CDict [("port", CInt 1); ("debug", CBool false); ("hosts", CList [])]);
     Ok (CDict [("port", CInt 2); ("debug", CBool false); ("hosts", CList [CNone])]);
     Err ConfigurationValidationError].
Proof. vm_compute. reflexivity. Qed.
