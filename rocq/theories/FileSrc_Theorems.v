(** C94: configuration from files, directories, environment variables and descriptions. *)
From Coq Require Import List Bool Arith ZArith.
From Verif Require Import Prelude Sources_Model Sources_Spec FileSrc_Model FileSrc_Spec FileSrc_Proofs.
Import ListNotations.
Open Scope nat_scope.

(** ** FileSource *)

(** The first format that understands the file decides, if those before it only complain. *)
Theorem C94_file_first : forall root cwd decode p data, at_names root (whole cwd p) = Some (FFile (Ok data)) ->
  forall before f after d, Forall (rejects decode data) before -> understands decode data f d ->
  file_provide root cwd decode (before ++ f :: after) p = Ok (TDict d).
Proof. exact file_first. Qed.
Print Assumptions C94_file_first.
(** No format understands it: ConfigurationError. *)
Theorem C94_file_none : forall root cwd decode p data, at_names root (whole cwd p) = Some (FFile (Ok data)) ->
  forall formats, Forall (rejects decode data) formats -> file_provide root cwd decode formats p = Err ConfigurationError.
Proof. exact file_none. Qed.
Print Assumptions C94_file_none.
(** There is no such file or it cannot be read: ConfigurationError. *)
Theorem C94_file_unreadable : forall root cwd decode formats p,
  match at_names root (whole cwd p) with Some (FFile (Ok _)) => False | Some (FFile (Err e)) => e = OSErrorExn \/ e = FileNotFound | _ => True end ->
  file_provide root cwd decode formats p = Err ConfigurationError.
Proof. exact file_unreadable. Qed.
Print Assumptions C94_file_unreadable.
(** What a FileSource provides is always a dictionary, made by one of its formats. *)
Theorem C94_file_dict : forall root cwd decode formats p t, file_provide root cwd decode formats p = Ok t ->
  (exists d, t = TDict d) /\ exists f text, In f formats /\ transform f text = Ok t.
Proof. intros. split; [eapply file_dict|eapply file_from]; eauto. Qed.
Print Assumptions C94_file_dict.
(** Every format either understands the file, or complains, or breaks. *)
Theorem C94_formats : forall decode f data,
  (exists d, understands decode data f d /\ format_provide decode f data = Ok (TDict d)) \/
  (rejects decode data f /\ format_provide decode f data = Err ConfigurationError) \/
  (exists e, breaks decode data f e /\ format_provide decode f data = Err e).
Proof.
  intros. destruct (format_all decode f data) as [(d & U)|[R|(e & B)]].
  - left. exists d. split; auto. now apply format_understands.
  - right. left. split; auto. now apply format_rejects.
  - right. right. exists e. split; auto. now apply format_breaks.
Qed.
Print Assumptions C94_formats.
(** Another error of a parser (a RecursionError, say) comes through, although a later format might have understood the file. *)
Theorem C94_file_breaks : forall root cwd decode p data, at_names root (whole cwd p) = Some (FFile (Ok data)) ->
  forall before f after e, Forall (rejects decode data) before -> breaks decode data f e -> e <> OSErrorExn -> e <> FileNotFound -> e <> WouldWaitMore ->
  file_provide root cwd decode (before ++ f :: after) p = Err e.
Proof. intros root cwd decode p data H before f after e B U N1 N2 N3. eapply file_breaks; eauto. destruct e; cbn; congruence. Qed.
Print Assumptions C94_file_breaks.
Definition C94_file_full_statement : Prop := forall root cwd decode formats p,
  (exists d, file_provide root cwd decode formats p = Ok (TDict d)) \/ file_provide root cwd decode formats p = Err ConfigurationError.
Theorem C94_file_full_statement_refuted : ~ C94_file_full_statement.
Proof.
  intro H. destruct (H (FDir [(1, FFile (Ok [7]))]) [] (@Ok _) [ {| transform := fun _ => Err (UserExn 1); extra_exception := fun _ => false |};
    {| transform := fun _ => Ok (TDict []); extra_exception := fun _ => false |} ] (absolute_path [1])) as [(d & E)|E]; discriminate.
Qed.
Print Assumptions C94_file_full_statement_refuted.

(** ** DirectorySource *)

(** Given an absolute path of a directory, whatever the tree below it and the filter: the files are those that are wanted, each once, in the order of listing;
    a directory that cannot be listed makes it fail, unless on_fail is SILENT. *)
Theorem C94_directory_partial : forall root cwd keep sub on_fail, names_distinct root ->
  forall fuel D es, at_names root D = Some (FDir es) -> height (FDir es) <= fuel ->
  (exists l, get_sources root cwd keep sub on_fail fuel (absolute_path D) = Ok (map (fun names => absolute_path (D ++ names)) l) /\
     (forall names, In names l <-> wanted keep sub D (FDir es) names) /\ in_order (FDir es) l /\
     (on_fail = 1%Z \/ forall names, ~ unreadable keep sub D (FDir es) names)) \/
  (get_sources root cwd keep sub on_fail fuel (absolute_path D) = Err ConfigurationError /\ on_fail <> 1%Z /\
     exists names, unreadable keep sub D (FDir es) names).
Proof.
  intros root cwd keep sub on_fail ND fuel D es H L. destruct (dir_good root cwd keep sub on_fail ND fuel D es H L) as [(l & E & M & O & U)|(E & N & names & _ & U)].
  - left. exists l. split; auto. split; [intro names; rewrite M; tauto|]. split; auto. destruct U as [U|U]; auto.
  - right. split; auto. split; auto. eauto.
Qed.
Print Assumptions C94_directory_partial.
(** What it provides is the merger of what the files give, later ones overriding earlier ones: ConfigurationError of a file is passed on, or ignored if on_fail is SILENT;
    if no file gives anything it is an error, unless there are no files. *)
Theorem C94_directory_merges : forall root cwd decode keep sub on_fail formats dfuel p ps,
  (forall f text t, In f formats -> transform f text = Ok t -> tree_wf t) ->
  get_sources root cwd keep sub on_fail dfuel p = Ok ps ->
  forall m, exists n, forall fuel, n <= fuel -> exists s m' r,
    directory_source root cwd decode keep sub on_fail formats dfuel p = Ok s /\ provide fuel m s = (m', r) /\
    answers m' r (merged on_fail true (map (file_provide root cwd decode formats) ps)).
Proof. exact directory_merges. Qed.
Print Assumptions C94_directory_merges.
(** There is no such directory. *)
Theorem C94_directory_missing : forall root cwd keep sub on_fail fuel p,
  match at_names root (whole cwd p) with Some (FDir _) => False | _ => True end ->
  get_sources root cwd keep sub on_fail (S fuel) p = if Z.eqb on_fail 1 then Ok [] else Err ConfigurationError.
Proof. exact directory_missing. Qed.
Print Assumptions C94_directory_missing.
(** Given a relative path, the directory's path is put before the files' paths, which already have it: unless there happen to be files there, nothing is read, and nothing is reported. *)
Theorem C94_relative : forall root cwd keep sub on_fail fuel d es,
  at_names root (cwd ++ d) = Some (FDir es) -> (forall x, In x (map fst es) -> at_names root (cwd ++ d ++ d ++ [x]) = None) ->
  get_sources root cwd keep sub on_fail (S fuel) {| absolute := false; parts := d |} = Ok [].
Proof. exact relative_doubles. Qed.
Print Assumptions C94_relative.
(** Without subdirectories: precisely the files called as the directory's entries, at the path doubled. *)
Theorem C94_relative_exact : forall root cwd keep on_fail fuel d es, at_names root (cwd ++ d) = Some (FDir es) ->
  get_sources root cwd keep false on_fail (S fuel) {| absolute := false; parts := d |} =
  Ok (map (fun x => {| absolute := false; parts := d ++ d ++ [x] |})
        (filter (fun x => keep {| absolute := false; parts := d ++ [x] |} && match at_names root (cwd ++ d ++ d ++ [x]) with Some (FFile _) => true | _ => false end) (map fst es))).
Proof. exact relative_exact. Qed.
Print Assumptions C94_relative_exact.
Definition C94_directory_full_statement : Prop := forall root cwd on_fail fuel p es, names_distinct root ->
  at_names root (whole cwd p) = Some (FDir es) -> height (FDir es) <= fuel -> (forall names, at_names (FDir es) names <> Some FLocked) ->
  exists l, get_sources root cwd (fun _ => true) true on_fail fuel p = Ok l /\
    forall names data, at_names (FDir es) names = Some (FFile data) -> In (whole cwd p ++ names) (map (whole cwd) l).
Theorem C94_directory_full_statement_refuted : ~ C94_directory_full_statement.
Proof.
  intro H. set (conf := [(2, FFile (Ok [7]))]).
  destruct (H (FDir [(1, FDir conf)]) [] 0%Z 5 {| absolute := false; parts := [1] |} conf) as (l & E & F).
  - cbn. repeat (constructor; cbn; try tauto).
  - reflexivity.
  - cbn. auto with arith.
  - intros [|n r]; cbn; [discriminate|]. destruct n as [|[|[|n]]]; cbn; try discriminate. destruct r; discriminate.
  - vm_compute in E. injection E as <-. specialize (F [2] (Ok [7]) eq_refl). destruct F.
Qed.
Print Assumptions C94_directory_full_statement_refuted.

(** ** The environment *)
Theorem C94_environment : forall environ cast env_name config_name own,
  (environ env_name = None -> environment_provide environ cast env_name config_name own = Err ConfigurationError) /\
  (forall s v, environ env_name = Some s -> cast s = Ok v ->
     environment_provide environ cast env_name config_name own = Ok (TDict [(match config_name with Some n => n | None => own env_name end, v)])) /\
  (forall s e, environ env_name = Some s -> cast s = Err e ->
     environment_provide environ cast env_name config_name own = Err (match e with ValueError | TypeError | KeyError | ConfigurationValidationError => ConfigurationError | _ => e end)).
Proof. intros. split; [apply environment_missing|split; intros; [eapply environment_ok|eapply environment_cast]; eauto]. Qed.
Print Assumptions C94_environment.
Theorem C94_env_vars : forall environ json env_name,
  (environ env_name = None -> env_vars_provide environ json env_name = Err ConfigurationError) /\
  forall s, environ env_name = Some s ->
    (forall d, understands Ok s json d -> env_vars_provide environ json env_name = Ok (TDict d)) /\
    (rejects Ok s json -> env_vars_provide environ json env_name = Err ConfigurationError) /\
    (forall e, breaks Ok s json e -> env_vars_provide environ json env_name = Err e).
Proof. intros. split; [apply env_vars_missing|intros s H; now apply env_vars_ok]. Qed.
Print Assumptions C94_env_vars.

(** ** Descriptions *)

(** A source written down is loaded back: the class, its arguments in order, its keyword arguments, the sources inside, being optional or not. *)
Theorem C94_load_partial : forall is_source is_extra extra_raises ctor_raises truth letters, truth (JAtom 1) = true ->
  forall s fuel, writable is_source is_extra (fun t a k => ctor_raises t a k = None) (fun v => extra_raises v = None) s -> jv_height (write false s) <= fuel ->
  load is_source is_extra extra_raises ctor_raises truth letters fuel (write false s) = Ok s.
Proof. exact load_round. Qed.
Print Assumptions C94_load_partial.
(** Whatever the description, and whatever the constructors raise: a source or ConfigurationError. *)
Theorem C94_load_errors : forall is_source is_extra extra_raises ctor_raises truth letters,
  (forall v, extra_raises v <> Some Diverges) -> (forall t a k, ctor_raises t a k <> Some Diverges) ->
  forall fuel v, jv_height v <= fuel ->
  (exists s, load is_source is_extra extra_raises ctor_raises truth letters fuel v = Ok s) \/ load is_source is_extra extra_raises ctor_raises truth letters fuel v = Err ConfigurationError.
Proof. exact load_fine. Qed.
Print Assumptions C94_load_errors.
(** A source that is loaded is of the class named under "type", which its constructor accepted; it is made optional only if the description says so. *)
Theorem C94_load_class : forall is_source is_extra extra_raises ctor_raises truth letters fuel d s,
  load is_source is_extra extra_raises ctor_raises truth letters fuel (JDict d) = Ok s ->
  exists t args kwargs, dget Nat.eqb d 0 = Some (JAtom t) /\ is_source t = true /\ ctor_raises t args kwargs = None /\
    (s = Built t args kwargs \/ s = OptionalOf (Built t args kwargs) /\ exists o, In (3, o) d /\ truth o = true).
Proof. exact load_class. Qed.
Print Assumptions C94_load_class.
(** A list: all the sources, in order; ConfigurationError if one of them fails. *)
Theorem C94_load_list : forall is_source is_extra extra_raises ctor_raises truth letters fuel l ss,
  load_list is_source is_extra extra_raises ctor_raises truth letters fuel l = Ok ss <->
  Forall2 (fun v s => load is_source is_extra extra_raises ctor_raises truth letters fuel v = Ok s) l ss.
Proof.
  intros. unfold load_list. split; [|apply map_res_ok]. revert ss. induction l as [|v r IH]; cbn [map_res]; intros ss H; [injection H as <-; constructor|].
  destruct (load _ _ _ _ _ _ fuel v) as [s|e] eqn:E; cbn [res_bind] in H; [|discriminate]. destruct (map_res _ r) as [ys|e]; cbn [res_bind] in H; [|discriminate].
  injection H as <-. constructor; auto.
Qed.
Print Assumptions C94_load_list.
(** A dictionary with a "type" that is not known should be passed on as it is, with a warning; loading fails instead. *)
Definition C94_load_full_statement : Prop := forall is_source is_extra extra_raises ctor_raises truth letters t other d fuel,
  is_source t = true -> (forall a k, ctor_raises t a k = None) -> dget Nat.eqb d 0 = Some (JAtom other) -> is_source other = false -> is_extra other = false ->
  jv_height (JDict d) < fuel ->
  load is_source is_extra extra_raises ctor_raises truth letters fuel (JDict [(0, JAtom t); (1, JDict d)]) = Ok (Built t [ALit (JDict d)] []).
Theorem C94_unknown_type : forall is_source is_extra extra_raises ctor_raises truth letters t other d fuel,
  is_source t = true -> dget Nat.eqb d 0 = Some (JAtom other) -> is_source other = false -> is_extra other = false ->
  load is_source is_extra extra_raises ctor_raises truth letters (S fuel) (JDict [(0, JAtom t); (1, JDict d)]) = Err ConfigurationError.
Proof.
  intros. cbn [load dget Nat.eqb pop ddel iter_args res_bind map_res]. rewrite H. cbn [negb]. unfold to_arg. rewrite H0, H2, H1. reflexivity.
Qed.
Print Assumptions C94_unknown_type.
Theorem C94_load_full_statement_refuted : ~ C94_load_full_statement.
Proof.
  intro H. specialize (H (fun t => t =? 10) (fun _ => false) (fun _ => None) (fun _ _ _ => None) (fun _ => true) (fun _ => None) 10 20 [(0, JAtom 20)] 3
    eq_refl (fun _ _ => eq_refl) eq_refl eq_refl eq_refl ltac:(cbn; auto with arith)). discriminate.
Qed.
Print Assumptions C94_load_full_statement_refuted.

(** ** Concrete cases *)
Definition ini : format := {| transform := fun b => match b with 1 :: r => Ok (TDict [(1%Z, TLeaf (Z.of_nat (length r)))]) | _ => Err ValueError end; extra_exception := fun _ => false |}.
Definition nul : format := {| transform := fun b => match b with 2 :: _ => Ok (TDict []) | 3 :: _ => Ok (TLeaf 5) | _ => Err (UserExn 4) end; extra_exception := fun e => match e with UserExn 4 => true | _ => false end |}.
(** /1 = {2: a file for ini, 3: {4: a file for nul, 5: {}}, 6: a socket, 7: a file neither can read} *)
Definition world := FDir [(1, FDir [(2, FFile (Ok [1; 1; 1])); (3, FDir [(4, FFile (Ok [2])); (5, FDir [])]); (6, FOther); (7, FFile (Ok [9]))])].
Example C94_case_files :
  file_provide world [] (@Ok _) [ini; nul] (absolute_path [1; 2]) = Ok (TDict [(1%Z, TLeaf 2)]) /\
  file_provide world [1; 3] (@Ok _) [ini; nul] {| absolute := false; parts := [4] |} = Ok (TDict []) /\
  file_provide world [] (@Ok _) [ini; nul] (absolute_path [1; 7]) = Err ConfigurationError /\ file_provide world [] (@Ok _) [ini; nul] (absolute_path [1; 8]) = Err ConfigurationError.
Proof. repeat split. Qed.
Example C94_case_hypotheses : names_distinct world /\ Forall (rejects (@Ok _) [2]) [ini] /\ understands (@Ok _) [2] nul [] /\ rejects (@Ok _) [3] nul.
Proof.
  split; [|split; [|split]].
  - cbn. repeat match goal with |- NoDup _ => constructor | |- _ /\ _ => split | |- True => exact I | |- ~ _ => cbn; intuition discriminate end.
  - constructor; [|constructor]. unfold rejects, complaint. cbn. auto.
  - reflexivity.
  - exact I.
Qed.
Example C94_case_directory :
  get_sources world [] (fun _ => true) true 0 10 (absolute_path [1]) = Ok (map absolute_path [[1; 2]; [1; 3; 4]; [1; 7]]) /\
  get_sources world [] (fun _ => true) false 0 10 (absolute_path [1]) = Ok (map absolute_path [[1; 2]; [1; 7]]) /\
  get_sources world [1] (fun _ => true) true 0 10 {| absolute := false; parts := [3] |} = Ok [] /\
  wanted (fun _ => true) true [1] (FDir [(3, FDir [(4, FFile (Ok [2]))])]) [3; 4].
Proof.
  split; [reflexivity|]. split; [reflexivity|]. split; [reflexivity|]. split; [eexists; reflexivity|]. split; [discriminate|]. split; auto.
Qed.
Example C94_case_load :
  let s := Built 10 [ASource (OptionalOf (Built 11 [ALit (JAtom 9)] [])); ALit (JList [JAtom 4])] [(7, ALit (JAtom 8))] in
  writable (fun t => t <? 20) (fun _ => false) (fun _ _ _ => True) (fun _ => True) s /\
  load (fun t => t <? 20) (fun _ => false) (fun _ => None) (fun _ _ _ => None) (fun _ => true) (fun _ => None) 10
    (JDict [(2, JList [JDict [(3, JAtom 1); (1, JAtom 9); (0, JAtom 11)]; JList [JAtom 4]]); (7, JAtom 8); (0, JAtom 10)]) = Ok s.
Proof.
  split; [|reflexivity]. cbn.
  repeat match goal with |- _ /\ _ => split | |- True => exact I | |- _ = _ => reflexivity | |- NoDup _ => constructor | |- ~ _ => intros [] | |- Forall _ _ => constructor end.
Qed.
