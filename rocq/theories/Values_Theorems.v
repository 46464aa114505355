(** Theorems about jsonify and stringify (C52) and assert_equal (C62), for values of any size. *)
From Coq Require Import String.
From Verif Require Import Prelude Values_Model Values_Spec Values_Proofs.
Open Scope string_scope.

(** ** C52: jsonify *)
(** What jsonify returns stands for its argument. *)
Theorem C52_jsonify_faithful : forall v j, jsonify v = Ok j -> stands_for v j.
Proof. exact jsonify_stands. Qed.
Print Assumptions C52_jsonify_faithful.
(** What json.dumps already takes is left alone, so converting twice is converting once. *)
Theorem C52_jsonify_identity : forall v, json_value v -> jsonify v = Ok v.
Proof. exact jsonify_id. Qed.
Print Assumptions C52_jsonify_identity.
(** The full statement: every value is converted to one that json.dumps takes. *)
Definition C52_full_statement : Prop := forall v, exists j, jsonify v = Ok j /\ json_value j.
(** True if the values of enums are JSON, keys become simple values, and objects can be printed. *)
Theorem C52_jsonify_serialisable_partial : forall v, printable v -> exists j, jsonify v = Ok j /\ json_value j.
Proof. exact jsonify_total. Qed.
Print Assumptions C52_jsonify_serialisable_partial.

Definition colour : pyv := PEnum "Colour" "RED" (PInt 1).
Definition document : pyv :=
  PDict [(colour, PTuple [PInt 1; PNone; PSet false [PStr "a"]]); (PStr "k", PJson 0 (PDict [(PStr "x", PBytes [1; 2]%Z)])); (PInt 5, PObj 1 (Err TypeError) (Ok "<obj>"))].
Example C52_example_printable : printable document.
Proof.
  apply pr_dict.
  - repeat apply Forall_cons; try apply Forall_nil; simpl; [apply sk_enum; exact I|apply sk_atom; exact I|apply sk_atom; exact I].
  - repeat apply Forall_cons; try apply Forall_nil; simpl.
    + eapply pr_list; [right; left; reflexivity|]. repeat apply Forall_cons; try apply Forall_nil; try (apply pr_atom; exact I).
      eapply pr_list; [do 3 right; left; reflexivity|]. repeat apply Forall_cons; try apply Forall_nil; apply pr_atom; exact I.
    + apply pr_json, pr_dict; repeat apply Forall_cons; try apply Forall_nil; simpl; [apply sk_atom; exact I|apply pr_bytes].
    + apply pr_obj. right. eauto.
Qed.
Example C52_example_jsonify :
  jsonify document = Ok (PDict [(PInt 1, PList [PInt 1; PNone; PList [PStr "a"]]); (PStr "k", PDict [(PStr "x", PList [PInt 1; PInt 2])]); (PInt 5, PStr "<obj>")]).
Proof. reflexivity. Qed.

(** Otherwise: the value of an enum is returned as it is, *)
Theorem C52_enum_value_refuted : jsonify (PEnum "E" "A" (PSet true [PInt 1])) = Ok (PSet true [PInt 1]) /\ ~ json_value (PSet true [PInt 1]).
Proof. split; [reflexivity|]. intros H. inversion H. contradiction. Qed.
Print Assumptions C52_enum_value_refuted.
(** a dictionary with tuples for keys is refused with TypeError, *)
Theorem C52_tuple_key_refuted : jsonify (PDict [(PTuple [PInt 1; PInt 2], PNone)]) = Err TypeError.
Proof. reflexivity. Qed.
Print Assumptions C52_tuple_key_refuted.
Theorem C52_full_statement_refuted : ~ C52_full_statement.
Proof. intros H. destruct (H (PDict [(PTuple [PInt 1; PInt 2], PNone)])) as (j & E & _). discriminate. Qed.
Print Assumptions C52_full_statement_refuted.
(** and two keys that become equal make one entry. *)
Theorem C52_keys_collide_refuted : jsonify (PDict [(colour, PStr "red"); (PInt 1, PStr "one")]) = Ok (PDict [(PInt 1, PStr "one")]).
Proof. reflexivity. Qed.
Print Assumptions C52_keys_collide_refuted.

(** ** C52: stringify *)
(** With recursively=True the result is the argument spelled out, *)
Theorem C52_stringify_faithful : forall sf str_none v j, stringify sf true str_none v = Ok j -> spelled sf str_none v j.
Proof. exact stringify_spelled. Qed.
Print Assumptions C52_stringify_faithful.
(** has nothing but strings in it, and None only if str_none is False, *)
Theorem C52_stringify_strings : forall sf str_none v j, stringify sf true str_none v = Ok j -> only_strings (negb str_none) j.
Proof. exact stringify_rec_strings. Qed.
Print Assumptions C52_stringify_strings.
(** and such values are left alone, so doing it twice is doing it once. *)
Theorem C52_stringify_identity : forall sf str_none v, only_strings (negb str_none) v -> stringify sf true str_none v = Ok v.
Proof. exact stringify_rec_id. Qed.
Print Assumptions C52_stringify_identity.
(** Without it the result is a string, a list of strings, a dictionary of strings, or None for None. *)
Theorem C52_stringify_flat : forall sf v str_none j, stringify sf false str_none v = Ok j ->
  (exists s, j = PStr s) \/ (j = PNone /\ v = PNone /\ str_none = false) \/ (exists l, j = PList (map PStr l)) \/
  (exists l, j = PDict l /\ Forall (fun kv => exists s t, kv = (PStr s, PStr t)) l).
Proof. exact stringify_flat. Qed.
Print Assumptions C52_stringify_flat.

(** str() of some values *)
Definition str_ (v : pyv) : res string :=
  match v with PNone => Ok "None" | PInt 1 => Ok "1" | PInt 2 => Ok "2" | PStr s => Ok s | PEnum c n _ => Ok (c ++ "." ++ n) | _ => Ok "?" end.
Example C52_example_stringify :
  stringify str_ true false (PDict [(PInt 1, PTuple [colour; PNone]); (PStr "b", PBytes [1; 2]%Z)]) =
  Ok (PDict [(PStr "1", PList [PStr "RED"; PNone]); (PStr "b", PList [PStr "1"; PStr "2"])]).
Proof. reflexivity. Qed.
(** Without recursively the elements are not put through stringify, as documented, but through the stringifier: None and members of enums
    in a list do not become what they become alone. *)
Theorem C52_elements_refuted :
  stringify str_ false false (PList [PNone; colour]) = Ok (PList [PStr "None"; PStr "Colour.RED"]) /\
  stringify str_ false false PNone = Ok PNone /\ stringify str_ false false colour = Ok (PStr "RED").
Proof. repeat split. Qed.
Print Assumptions C52_elements_refuted.

(** ** C62: assert_equal *)
Definition compares (obj_eq : pyv -> pyv -> res bool) : Prop :=
  forall a b, match a with PEnum _ _ _ | PJson _ _ | PObj _ _ _ => True | _ => False end -> obj_eq a b = Ok (py_eq a b).
(** Equal values are never reported. *)
Theorem C62_equal_accepted : forall obj_eq lookup_other a b, compares obj_eq -> well_keyed b ->
  py_eq a b = true -> assert_equal obj_eq lookup_other a b = Same.
Proof. intros obj_eq lookup_other a b Ho Hb. exact (equal_accepted obj_eq lookup_other Ho a b Hb). Qed.
Print Assumptions C62_equal_accepted.
(** The full statement: it returns for equal values, and raises Inequal for others. *)
Definition C62_full_statement : Prop := forall obj_eq lookup_other a b, compares obj_eq -> well_keyed b ->
  (py_eq a b = true -> assert_equal obj_eq lookup_other a b = Same) /\
  (py_eq a b = false -> exists r, assert_equal obj_eq lookup_other a b = Inequal r).
(** True if containers are only compared with containers of the same type. *)
Theorem C62_assert_equal_partial : forall obj_eq lookup_other a b, compares obj_eq -> alike a b -> well_keyed b ->
  (py_eq a b = true -> assert_equal obj_eq lookup_other a b = Same) /\
  (py_eq a b = false -> exists r, assert_equal obj_eq lookup_other a b = Inequal r).
Proof. exact verdict_alike. Qed.
Print Assumptions C62_assert_equal_partial.

Definition identity_eq (a b : pyv) : res bool := Ok (py_eq a b).
Definition nothing (a b : pyv) : verdict := Raised TypeError.
Example C62_example_alike : alike (PDict [(PStr "a", PList [PInt 1])]) (PDict [(PStr "b", PInt 2); (PStr "a", PList [PInt 3])]).
Proof.
  apply al_dict. intros k v k' w [E1|[]] [E2|[E2|[]]] H; injection E1 as <- <-; injection E2 as <- <-; try discriminate.
  apply al_list. repeat constructor.
Qed.
Example C62_example_verdicts :
  assert_equal identity_eq nothing (PDict [(PStr "a", PList [PInt 1]); (PInt 1, PNone)]) (PDict [(PBool true, PNone); (PStr "a", PList [PBool true])]) = Same /\
  assert_equal identity_eq nothing (PList [PInt 1; PDict [(PInt 1, PStr "x")]]) (PList [PInt 1; PDict [(PInt 1, PStr "y")]]) = Inequal NotEqual /\
  assert_equal identity_eq nothing (PDict [(PInt 1, PNone)]) (PDict [(PInt 2, PNone)]) = Inequal KeyNotFound.
Proof. repeat split. Qed.
(** Otherwise: a list passes for equal to a tuple, a set, a dictionary or a string with the same elements, *)
Theorem C62_other_containers_refuted :
  assert_equal identity_eq nothing (PList [PStr "a"; PStr "b"]) (PTuple [PStr "a"; PStr "b"]) = Same /\
  assert_equal identity_eq nothing (PList [PStr "a"; PStr "b"]) (PStr "ab") = Same /\
  assert_equal identity_eq nothing (PList [PStr "a"; PStr "b"]) (PDict [(PStr "a", PInt 1); (PStr "b", PInt 2)]) = Same /\
  assert_equal identity_eq nothing (PDict []) (PList []) = Same.
Proof. repeat split. Qed.
Print Assumptions C62_other_containers_refuted.
Theorem C62_full_statement_refuted : ~ C62_full_statement.
Proof.
  intros H. destruct (H identity_eq nothing (PList []) (PTuple [])) as [_ K]; [intros a b _; reflexivity|constructor; constructor|]. destruct (K eq_refl) as (r & E). discriminate.
Qed.
Print Assumptions C62_full_statement_refuted.
(** comparing a list with something that has no length raises TypeError instead of Inequal, *)
Theorem C62_no_length_refuted : assert_equal identity_eq nothing (PList [PInt 1]) (PInt 1) = Raised TypeError.
Proof. reflexivity. Qed.
Print Assumptions C62_no_length_refuted.
(** objects whose comparison raises TypeError pass for equal to anything, *)
Theorem C62_incomparable_refuted :
  assert_equal (fun _ _ => Err TypeError) nothing (PObj 1 (Ok "") (Ok "")) (PInt 1) = Same.
Proof. reflexivity. Qed.
Print Assumptions C62_incomparable_refuted.
(** and different sets of the same size are reported as a mismatch of lengths. *)
Theorem C62_set_reason_refuted : assert_equal identity_eq nothing (PSet false [PInt 1]) (PSet false [PInt 2]) = Inequal LengthMismatch.
Proof. reflexivity. Qed.
Print Assumptions C62_set_reason_refuted.
