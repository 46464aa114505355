(** C101: schemas read from a description. C102: what File and Directory give. *)
From Coq Require Import String.
From Verif Require Import Prelude Schema_Model Schema_Spec SchemaJson_Model SchemaJson_Spec SchemaJson_Proofs.
Local Open Scope string_scope.
Open Scope list_scope.

(** The schema made from a description does to every value what the description says. Missing: lists of things
    that hold both lists and unions (see C25), and values used after one was refused. *)
Theorem C101_meaning_partial : forall reg qualname resolve prim contents fields dct fuel,
  knows reg prim -> standard reg contents ->
  written_dict reg qualname resolve fields dct -> nesting (TDict fields) <= S fuel -> plain_lists (TDict fields) ->
  exists d, descriptor_from_dict reg qualname resolve fuel dct = Ok d /\
    forall m v, nesting (TDict fields) <= m -> distinct v -> fst (call m d v) = ask prim contents (TDict fields) v.
Proof. intros reg qualname resolve prim contents fields dct fuel K S H1 H2 H3. exact (built_means K S H1 H2 H3). Qed.
Print Assumptions C101_meaning_partial.

(** One after the other too, if there are no lists in it, or if there are no unions and only the last may be refused. *)
Theorem C101_again_partial : forall reg qualname resolve prim contents fields dct fuel,
  knows reg prim -> standard reg contents ->
  written_dict reg qualname resolve fields dct -> nesting (TDict fields) <= S fuel ->
  exists d, descriptor_from_dict reg qualname resolve fuel dct = Ok d /\
    forall m vs v, nesting (TDict fields) <= m -> Forall distinct (vs ++ [v]) ->
      no_lists (TDict fields) \/
      (no_unions (TDict fields) /\ Forall (fun v => accepted (ask prim contents (TDict fields) v)) vs) ->
      fst (call_run m d (vs ++ [v])) = map (ask prim contents (TDict fields)) (vs ++ [v]).
Proof. intros reg qualname resolve prim contents fields dct fuel K S H1 H2. exact (built_again K S H1 H2). Qed.
Print Assumptions C101_again_partial.

(** With satella's own names they mean what they should, *)
Theorem C101_builtin : forall k, knows (builtin k) (builtin_meaning k) /\ standard (builtin k) (file_contents k).
Proof. exact builtin_knows. Qed.
Print Assumptions C101_builtin.
(** and a class registered under a name, new or not, gives that name its meaning and changes no other. *)
Theorem C101_register : forall reg prim contents n d, knows reg prim -> standard reg contents -> ~ special n -> simple d ->
  knows (register n true (plain_class d) reg) (fun m v => if String.eqb m n then fst (call 1 d v) else prim m v) /\
  standard (register n true (plain_class d) reg) contents.
Proof. exact register_knows. Qed.
Print Assumptions C101_register.

(** A description with something in it that is no name, dictionary or class raises ConfigurationSchemaError. *)
Theorem C101_senseless_partial : forall reg qualname resolve prim contents dct fuel,
  knows reg prim -> standard reg contents -> senseless_dict reg qualname resolve fuel dct ->
  descriptor_from_dict reg qualname resolve fuel dct = Err ConfigurationError.
Proof.
  intros reg qualname resolve prim contents dct fuel K S H. unfold descriptor_from_dict.
  rewrite (proj2 (senseless_refused qualname resolve K S) fuel dct H). reflexivity.
Qed.
Print Assumptions C101_senseless_partial.

(** ** What fails *)
Definition k0 : makers :=
  {| to_int := fun v => match v with CInt z => Ok (CInt z) | CStr "5" => Ok (CInt 5) | _ => Err ValueError end;
     to_float := fun _ => Err ValueError;
     to_str := fun v => match v with CStr s => Ok (CStr s) | _ => Ok (CStr "?") end;
     to_file := fun _ => Err ConfigurationValidationError; to_dir := fun _ => Err ConfigurationValidationError;
     file_contents := fun _ _ v => match v with CStr "/etc/passwd" => Ok (CStr "root") | _ => Err FileNotFound end;
     ipv4_matches := fun v => Some v |}.
Definition q0 (o : nat) : option string := if Nat.eqb o 0 then Some "int" else None.
Definition r0 (d : dict string cv) : res (cv -> res cv) := Ok (fun v => Ok (CTuple [v])).
Definition load (d : dict string cv) : res desc := descriptor_from_dict (builtin k0) q0 r0 9 d.

Definition C101_full_statement : Prop := forall k qualname resolve fields dct fuel,
  written_dict (builtin k) qualname resolve fields dct -> nesting (TDict fields) <= fuel ->
  exists d, descriptor_from_dict (builtin k) qualname resolve fuel dct = Ok d /\
    forall vs, Forall distinct vs ->
      fst (call_run fuel d vs) = map (ask (builtin_meaning k) (file_contents k) (TDict fields)) vs.
(** What a list refused once it accepts the next time. *)
Theorem C101_full_statement_refuted : ~ C101_full_statement.
Proof.
  intros H. destruct (H k0 q0 r0 [("a", (None, TList TAny))] [("a", CDict [("type", CStr "list")])] 5) as (d & E & G).
  - split; [repeat constructor; simpl; tauto|]. simpl. repeat split; try discriminate. exists [("type", CStr "list")]. auto.
  - simpl. lia.
  - vm_compute in E. injection E as <-. specialize (G [CDict [("a", CStr "b")]; CDict [("a", CStr "b")]]).
    discriminate G. repeat constructor; simpl; tauto.
Qed.
Print Assumptions C101_full_statement_refuted.

(** A name nobody registered, or one that cannot stand alone, raises AttributeError, *)
Theorem C101_unknown_name_refuted :
  load [("a", CStr "integer")] = Err AttributeError /\ load [("a", CStr "list")] = Err AttributeError.
Proof. split; reflexivity. Qed.
Print Assumptions C101_unknown_name_refuted.
(** and KeyError in the long form; so does a class there. *)
Theorem C101_unknown_type_refuted :
  load [("a", CDict [("type", CStr "integer")])] = Err KeyError /\ load [("a", CDict [("type", CObj 0)])] = Err KeyError.
Proof. split; reflexivity. Qed.
Print Assumptions C101_unknown_type_refuted.
(** A list of what nobody registered is a list of anything, *)
Theorem C101_list_of_unknown_refuted :
  load [("a", CDict [("type", CStr "list"); ("of", CStr "integer")])] = load [("a", CDict [("type", CStr "list")])].
Proof. reflexivity. Qed.
Print Assumptions C101_list_of_unknown_refuted.
(** and a union with it raises TypeError when a value gets there. *)
Theorem C101_union_of_unknown_refuted : exists d,
  load [("a", CDict [("type", CStr "union"); ("of", CList [CStr "int"; CStr "integer"; CStr "str"])])] = Ok d /\
  fst (call 9 d (CDict [("a", CStr "x")])) = Err TypeError.
Proof. eexists. split; reflexivity. Qed.
Print Assumptions C101_union_of_unknown_refuted.
(** A key described by the empty string makes a schema that refuses every configuration. *)
Theorem C101_empty_refuted : forall key, exists d, load [(key, CStr "")] = Ok d /\
  forall n v, refused (fst (call (S (S n)) d v)).
Proof.
  intros key. eexists. split; [reflexivity|]. intros n v. unfold refused. destruct v as [| | | | | | |kvs]; try reflexivity.
  simpl. destruct (dget String.eqb kvs ""); reflexivity.
Qed.
Print Assumptions C101_empty_refuted.
(** A dictionary with a key called type is not described by its keys. *)
Theorem C101_type_key_refuted : exists d,
  load [("printer", CDict [("type", CStr "str"); ("port", CStr "int")])] = Ok d /\
  fst (call 9 d (CDict [("printer", CDict [("type", CStr "laser"); ("port", CInt 9100)])])) = Ok (CDict [("printer", CStr "?")]) .
Proof. eexists. split; reflexivity. Qed.
Print Assumptions C101_type_key_refuted.

(** ** A case *)
Definition C101_fields : list (string * (option cv * ty)) :=
  [("port", (Some (CInt 9600), TPlain "int")); ("host", (None, TPlain "str")); ("n", (None, TPlain "int"));
   ("secret", (None, TContents CNone (CBool false))); ("mode", (Some CNone, TCast (fun v => Ok (CTuple [v]))));
   ("nested", (None, TDict [("either", (None, TList (TUnion [TDict [("a", (None, TPlain "str"))]; TPlain "int"])))]))].
Definition C101_dct : dict string cv :=
  [("port", CDict [("type", CStr "int"); ("default", CInt 9600)]); ("host", CStr "str"); ("n", CObj 0);
   ("secret", CStr "file_contents");
   ("mode", CDict [("type", CStr "caster"); ("cast_to", CStr "x.Mode"); ("optional", CBool true)]);
   ("nested", CDict [("either", CDict [("type", CStr "list");
      ("of", CDict [("type", CStr "union"); ("of", CList [CDict [("a", CStr "str")]; CStr "int"])])])])].
Ltac eq_neq := simpl; repeat split; try discriminate; auto 10.
Example C101_case_written : written_dict (builtin k0) q0 r0 C101_fields C101_dct /\ plain_lists (TDict C101_fields) /\
  nesting (TDict C101_fields) <= 6.
Proof.
  split; [|split; [|simpl; lia]].
  2:{ simpl. tauto. }
  split; [repeat constructor; simpl; intuition discriminate|].
  assert (N : ~ special "int" /\ ~ special "str") by (split; unfold special; simpl; intuition discriminate).
  destruct N as [Ni Ns].
  repeat split; try discriminate.
  - simpl. intuition.
  - exact Ni.
  - right. eexists. split; reflexivity.
  - simpl. intuition.
  - exact Ns.
  - left. split; [discriminate|]. left. reflexivity.
  - simpl. intuition.
  - exact Ni.
  - left. split; [discriminate|]. right. exists 0. split; reflexivity.
  - left. repeat split; try discriminate; [simpl; tauto|]. left. reflexivity.
  - eexists. repeat split; reflexivity.
  - eexists. split; [reflexivity|]. split; [reflexivity|]. split; [repeat constructor; simpl; tauto|].
    repeat split; try discriminate. eexists. split; [reflexivity|]. split; [reflexivity|].
    eexists _, _. split; [reflexivity|]. split; [reflexivity|]. split; [left; reflexivity|]. repeat split.
    + eexists. split; [reflexivity|]. split; [reflexivity|]. split; [repeat constructor; simpl; tauto|].
      repeat split; try discriminate; [simpl; intuition|exact Ns|]. left. split; [discriminate|]. left. reflexivity.
    + simpl. intuition.
    + exact Ni.
    + left. split; [discriminate|]. left. reflexivity.
Qed.
Example C101_case : exists d, load C101_dct = Ok d /\
  fst (call 9 d (CDict [("extra", CNone); ("n", CStr "5"); ("secret", CStr "/etc/passwd"); ("host", CStr "h");
                        ("nested", CDict [("either", CList [CDict [("a", CStr "x")]; CInt 7])])])) =
  Ok (CDict [("port", CInt 9600); ("host", CStr "h"); ("n", CInt 5); ("secret", CStr "root"); ("mode", CNone);
             ("nested", CDict [("either", CList [CDict [("a", CStr "x")]; CInt 7])]); ("extra", CNone)]).
Proof. eexists. split; reflexivity. Qed.
Example C101_case_senseless : senseless_dict (builtin k0) q0 r0 2 [("a", CStr "int"); ("b", CDict [("type", CStr "list"); ("of", CInt 5)])].
Proof.
  apply SFields with (fs := [("a", (None, TPlain "int"))]) (d := [("a", CStr "int")]).
  - simpl. lia.
  - repeat constructor; simpl; tauto.
  - split; [repeat constructor; simpl; tauto|]. simpl. repeat split; try discriminate; [tauto|unfold special; simpl; intuition discriminate|].
    left. split; [discriminate|auto].
  - apply SList; [reflexivity|]. apply SValue. exact I.
Qed.

(** * C102 *)
(** Equal are objects of the same kind with the same path, so equality is an equivalence, *)
Theorem C102_equal : forall a b, path_eq a b = true <-> a = b.
Proof.
  intros [p|p|p] [q|q|q]; unfold path_eq; simpl;
    rewrite ?Bool.andb_true_r, ?Bool.andb_false_r, ?String.eqb_eq; split; intros H; congruence.
Qed.
Print Assumptions C102_equal.
(** and equal objects have the same hash, which is that of the path, as text. *)
Theorem C102_hash : forall hash a b, path_eq a b = true -> path_hash hash a = path_hash hash b.
Proof. intros hash a b H. apply C102_equal in H. congruence. Qed.
Print Assumptions C102_hash.
(** File accepts exactly the paths of files and gives an object that is written as that path; likewise Directory. *)
Theorem C102_file : forall isfile v, 
  (isfile v = true -> exists o, make_file isfile v = Ok o /\ path_str o = v /\ path_eq o (AFile v) = true) /\
  (isfile v = false -> make_file isfile v = Err ConfigurationValidationError).
Proof.
  intros isfile v. unfold make_file. split; intros ->; [|reflexivity]. exists (AFile v). repeat split. apply C102_equal. reflexivity.
Qed.
Print Assumptions C102_file.
Theorem C102_directory : forall isdir v,
  (isdir v = true -> exists o, make_directory isdir v = Ok o /\ path_str o = v /\ path_eq o (ADirectory v) = true) /\
  (isdir v = false -> make_directory isdir v = Err ConfigurationValidationError).
Proof.
  intros isdir v. unfold make_directory. split; intros ->; [|reflexivity]. exists (ADirectory v). repeat split. apply C102_equal. reflexivity.
Qed.
Print Assumptions C102_directory.
(** The documentation: such an object is equal to the string of its path. It never is. *)
Definition C102_full_statement : Prop := forall p, path_eq (AFile p) (AString p) = true.
Theorem C102_full_statement_refuted : ~ C102_full_statement.
Proof. intros H. specialize (H "x"). discriminate. Qed.
Print Assumptions C102_full_statement_refuted.
Theorem C102_never_string : forall p s, path_eq (AFile p) (AString s) = false /\ path_eq (AString s) (AFile p) = false /\
  path_eq (ADirectory p) (AString s) = false /\ path_eq (AString s) (ADirectory p) = false.
Proof. intros p s. unfold path_eq. simpl. rewrite !Bool.andb_false_r. auto. Qed.
Print Assumptions C102_never_string.
Example C102_case : make_file (String.eqb "/etc/passwd") "/etc/passwd" = Ok (AFile "/etc/passwd") /\
  path_eq (AFile "/etc") (ADirectory "/etc") = false.
Proof. split; reflexivity. Qed.
