(** Theorems about json_encode and JSONAbleDataObject (C53), for values of any size and shape. *)
From Coq Require Import String.
From Verif Require Import Prelude Json_Model Json_Spec Json_Proofs.
Open Scope string_scope.

(** ** json_encode *)
(** What is written out is a rendering of the value. *)
Theorem C53_encode_faithful : forall v j, json_encode v = Ok j -> shows v j.
Proof. intros v j. exact (encode_shows (S (depth v)) v j). Qed.
Print Assumptions C53_encode_faithful.
(** Encoding ends, whatever the value, and the only exception it ends with is TypeError. The fuel of the model plays no part: any amount
    over the depth of the value gives the same answer. *)
Theorem C53_encode_ends : forall v, (forall e, json_encode v = Err e -> e = TypeError) /\ forall n, depth v < n -> encode n v = json_encode v.
Proof. exact json_encode_ends. Qed.
Print Assumptions C53_encode_ends.
(** What is read from a JSON text is written out as the same JSON. *)
Theorem C53_encode_json_identity : forall j, json_encode (value_of j) = Ok j.
Proof. exact json_encode_id. Qed.
Print Assumptions C53_encode_json_identity.
(** The full statement, after the docstring ("This encoder will encode everything!"). *)
Definition C53_full_statement : Prop := forall v, exists j, json_encode v = Ok j.
(** True if every dictionary has JSON keys; within attributes of objects, keys which are enums and objects with to_json() do no harm. *)
Theorem C53_encode_total_partial : forall v, encodable v -> exists j, json_encode v = Ok j.
Proof. exact encodable_total. Qed.
Print Assumptions C53_encode_total_partial.
(** A dictionary keyed by a member of an enum: "enums will be dumped to their value". *)
Theorem C53_enum_key_refuted : json_encode (EDict [(EEnum (EStr "red"), EInt 1)]) = Err TypeError.
Proof. reflexivity. Qed.
Print Assumptions C53_enum_key_refuted.
(** The same dictionary is encoded when it is an attribute of an object. *)
Theorem C53_enum_key_inside_attribute : json_encode (EObj [("colours", EDict [(EEnum (EStr "red"), EInt 1)])]) = Ok (JObj [("colours", JObj [("red", JInt 1)])]).
Proof. reflexivity. Qed.
Print Assumptions C53_enum_key_inside_attribute.
Theorem C53_tuple_key_refuted : json_encode (EObj [("matrix", EDict [(ETuple [EInt 0; EInt 1], EInt 1)])]) = Err TypeError.
Proof. reflexivity. Qed.
Print Assumptions C53_tuple_key_refuted.
Theorem C53_full_statement_refuted : ~ C53_full_statement.
Proof. intros H. destruct (H (EDict [(EEnum (EStr "red"), EInt 1)])) as (j & E). discriminate E. Qed.
Print Assumptions C53_full_statement_refuted.
(** A set is written out without its elements: two different sets give the same JSON. *)
Theorem C53_set_contents_lost : forall cls, json_encode (EList [EOther cls]) = Ok (JList [JStr ("<an instance of " ++ cls ++ ">")]).
Proof. reflexivity. Qed.
Print Assumptions C53_set_contents_lost.
(** One unset slot, and all the other attributes are lost. *)
Theorem C53_unset_slot_refuted : json_encode (ESlots "Point" [("x", Some (EInt 1)); ("y", None)]) = Ok (JStr "<an instance of Point>").
Proof. reflexivity. Qed.
Print Assumptions C53_unset_slot_refuted.

Definition order : ev :=
  EObj [("id", EInt 7); ("lines", EList [EJson (EDict [(EStr "sku", EStr "a"); (EStr "qty", EInt 2)]); ESlots "Note" [("text", Some (EStr "hi"))]]);
        ("state", EEnum (EStr "open")); ("totals", EDict [(EInt 1, ETuple [EBool true; ENone]); (EEnum (EStr "x"), EOther "set")])].
Example C53_example_encodable : encodable order.
Proof.
  apply en_obj. repeat apply Forall_cons; try apply Forall_nil; simpl.
  - apply in_atom. exact I.
  - eapply in_list; [left; reflexivity|]. repeat apply Forall_cons; try apply Forall_nil.
    + apply in_json. apply en_dict; repeat apply Forall_cons; try apply Forall_nil; simpl; auto; apply en_atom; exact I.
    + apply in_slots. repeat apply Forall_cons; try apply Forall_nil. simpl. intros v E. injection E as <-. apply in_atom. exact I.
  - apply in_enum, en_atom. exact I.
  - apply in_dict; repeat apply Forall_cons; try apply Forall_nil; simpl; auto.
    + eapply in_list; [right; reflexivity|]. repeat apply Forall_cons; try apply Forall_nil; apply in_atom; exact I.
    + apply in_other.
Qed.
Example C53_example_encode :
  json_encode order = Ok (JObj [("id", JInt 7); ("lines", JList [JObj [("sku", JStr "a"); ("qty", JInt 2)]; JObj [("text", JStr "hi")]]);
    ("state", JStr "open"); ("totals", JObj [("1", JList [JBool true; JNull]); ("x", JStr "<an instance of set>")])]).
Proof. reflexivity. Qed.

(** ** JSONAbleDataObject *)
(** Creating one: it takes a value for every declared field, from the arguments or the default of the class, and raises ValueError if one has
    neither. Its fields are those values, and it has no others. *)
Theorem C53_create : forall (V : Type) (c : dclass V) (kwargs : dict string V), NoDup (annotations c) ->
  ((forall name, In name (annotations c) -> available c kwargs name) -> exists o, create c kwargs = Ok o) /\
  ((exists name, In name (annotations c) /\ ~ available c kwargs name) -> create c kwargs = Err ValueError) /\
  (forall o, create c kwargs = Ok o ->
     (forall name, In name (annotations c) -> getattr c o name =
        match dget seqb kwargs name with Some v => Ok v | None => match dget seqb (class_attrs c) name with Some v => Ok v | None => Err AttributeError end end) /\
     complete c o /\ forall name, ~ In name (annotations c) -> dget seqb o name = None).
Proof. intros V c kwargs. exact (create_spec c kwargs). Qed.
Print Assumptions C53_create.
(** to_json() has exactly the declared fields, in the order they were declared, with their current values. *)
Theorem C53_to_json : forall (V : Type) (c : dclass V) (o : instance V), NoDup (annotations c) -> complete c o ->
  exists d, to_json c o = Ok d /\ map fst d = annotations c /\ forall name, In name (annotations c) -> exists v, getattr c o name = Ok v /\ dget seqb d name = Some v.
Proof. intros V c o. exact (to_json_spec (fun _ _ => true) (fun _ => 0%Z) c o). Qed.
Print Assumptions C53_to_json.
(** from_json(o.to_json()) has the same fields, equals o both ways, hashes the same, and has the same to_json(). *)
Theorem C53_round_trip : forall (V : Type) (eqb : V -> V -> bool) (hash : V -> Z) (c : dclass V) (o : instance V) d,
  (forall v, eqb v v = true) -> NoDup (annotations c) -> complete c o -> to_json c o = Ok d ->
  exists o', create c d = Ok o' /\ (forall name, In name (annotations c) -> getattr c o' name = getattr c o name) /\
    obj_eq eqb c o c o' = Ok true /\ obj_eq eqb c o' c o = Ok true /\ obj_hash hash c o' = obj_hash hash c o /\ to_json c o' = Ok d.
Proof. intros V eqb hash c o d. exact (round_trip eqb hash c o d). Qed.
Print Assumptions C53_round_trip.
(** Two objects of one class are equal exactly when all declared fields are. *)
Theorem C53_equality : forall (V : Type) (eqb : V -> V -> bool) (c : dclass V) (o o' : instance V), complete c o -> complete c o' ->
  exists b, obj_eq eqb c o c o' = Ok b /\
    (b = true <-> forall name, In name (annotations c) -> exists v w, getattr c o name = Ok v /\ getattr c o' name = Ok w /\ eqb v w = true).
Proof. intros V eqb c o o'. exact (eq_spec eqb c o o'). Qed.
Print Assumptions C53_equality.
(** Equal objects hash alike. *)
Theorem C53_hash : forall (V : Type) (eqb : V -> V -> bool) (hash : V -> Z) (c : dclass V) (o o' : instance V),
  (forall v w, eqb v w = true -> hash v = hash w) -> obj_eq eqb c o c o' = Ok true -> obj_hash hash c o = obj_hash hash c o'.
Proof. intros V eqb hash c o o'. exact (eq_hash eqb hash c o o'). Qed.
Print Assumptions C53_hash.

Definition culture : dclass Z := mk_dclass ["language"; "timezone"; "units"] [("units", 5%Z)].
Example C53_example_create : create culture [("timezone", 2%Z); ("language", 1%Z); ("extra", 9%Z)] = Ok [("language", 1%Z); ("timezone", 2%Z)] /\ create culture [("language", 1%Z)] = Err ValueError.
Proof. split; reflexivity. Qed.
Example C53_example_to_json : NoDup (annotations culture) /\ complete culture [("language", 1%Z); ("timezone", 2%Z)] /\
  to_json culture [("language", 1%Z); ("timezone", 2%Z)] = Ok [("language", 1%Z); ("timezone", 2%Z); ("units", 5%Z)].
Proof.
  split; [|split; [|reflexivity]].
  - repeat constructor; simpl; intuition discriminate.
  - intros name [<-|[<-|[<-|[]]]]; eexists; reflexivity.
Qed.
Example C53_example_hash : obj_eq Z.eqb culture [("language", 1%Z); ("timezone", 2%Z)] culture [("units", 5%Z); ("language", 1%Z); ("timezone", 2%Z)] = Ok true /\
  obj_hash (fun z => z) culture [("language", 1%Z); ("timezone", 2%Z)] = Ok 6%Z.
Proof. split; reflexivity. Qed.
(** Across classes equality is not symmetric: a == b holds, b == a raises AttributeError. *)
Theorem C53_classes_refuted : let a := mk_dclass ["x"] [] in let b := mk_dclass ["x"; "y"] [] in
  obj_eq Z.eqb a [("x", 1%Z)] b [("x", 1%Z); ("y", 2%Z)] = Ok true /\ obj_eq Z.eqb b [("x", 1%Z); ("y", 2%Z)] a [("x", 1%Z)] = Err AttributeError.
Proof. split; reflexivity. Qed.
Print Assumptions C53_classes_refuted.
(** A mistyped argument is ignored: no exception, and the default stays. *)
Theorem C53_unknown_argument_refuted : create culture [("language", 1%Z); ("timezone", 2%Z); ("unit", 7%Z)] = create culture [("language", 1%Z); ("timezone", 2%Z)].
Proof. reflexivity. Qed.
Print Assumptions C53_unknown_argument_refuted.
