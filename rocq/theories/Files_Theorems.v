(** Theorems about the functions of satella/files.py *)
From Coq Require Import Ascii String.
From Verif Require Import Prelude PreludeFacts MoreFacts Files_Model Files_Spec Files_Proofs.
Import ListNotations.
Open Scope list_scope.
Definition str (s : string) : path := list_ascii_of_string s.
Definition wrote {P B} (r : fres bool * list (fs P B)) : fres bool := fst r.

(** ** C44: make_noncolliding_name returns a free name of the documented form *)
(** It is the first of dir/stem.ext, dir/stem.1.ext, dir/stem.2.ext, ... that does not exist, *)
Theorem C44_first_free : forall exists_ fuel p r dir filename stem ext, os_split p = (dir, filename) -> extension_of filename stem ext ->
  make_noncolliding_name exists_ fuel p = Some r ->
  exists n, r = candidate dir stem ext n /\ exists_ r = false /\ forall j, j < n -> exists_ (candidate dir stem ext j) = true.
Proof. exact nc_ok. Qed.
Print Assumptions C44_first_free.
(** and there is one, if finitely many exist: so many checks, and two, suffice. *)
Theorem C44_ends : forall exists_ existing p, (forall q, exists_ q = true -> In q existing) ->
  exists r, make_noncolliding_name exists_ (length existing + 2) p = Some r.
Proof. intros ex l p F. rewrite Nat.add_comm. exact (nc_ends ex l p F). Qed.
Print Assumptions C44_ends.
(** Every name has such parts. *)
Theorem C44_parts : forall filename, exists stem ext, extension_of filename stem ext /\
  forall stem' ext', extension_of filename stem' ext' -> stem' = stem /\ ext' = ext.
Proof. intros f. exists (stem_of f), (ext_of f). split. - exact (parts_ok f). - intros s e H. exact (parts_unique f s e _ _ H (parts_ok f)). Qed.
Print Assumptions C44_parts.
Example C44_some_exist : let ex p := existsb (String.eqb (string_of_list_ascii p)) ["a/b.tar.gz"; "a/b.tar.1.gz"; "a/c"]%string in
  make_noncolliding_name ex 5 (str "a/b.tar.gz") = Some (str "a/b.tar.2.gz") /\ make_noncolliding_name ex 5 (str "a/c") = Some (str "a/c.1") /\
  make_noncolliding_name ex 5 (str "c") = Some (str "c") /\ os_split (str "a/b.tar.gz") = (str "a", str "b.tar.gz").
Proof. repeat split. Qed.

(** ** C59: split is the reverse of os.path.join *)
Definition C59_full_statement : Prop := forall p, exists fuel l, split fuel p = Some l /\ join l = p.
(** Missing: absolute paths, for which it does not end, and repeated slashes, which are joined back as one. *)
Theorem C59_relative_partial : forall p, relative p -> exists l, split (length p + 2) p = Some l /\ join l = squeeze p.
Proof. exact split_ok. Qed.
Print Assumptions C59_relative_partial.
Theorem C59_round_trip_partial : forall p, relative p -> no_double p -> exists l, split (length p + 2) p = Some l /\ join l = p.
Proof. intros p R D. destruct (split_ok p R) as (l & A & B). exists l. split; auto. rewrite B. exact (proj1 (no_double_squeeze p) D). Qed.
Print Assumptions C59_round_trip_partial.
(** More steps do not change the result. *)
Theorem C59_deterministic : forall fuel k p l, split fuel p = Some l -> split (fuel + k) p = Some l.
Proof. intros fuel k p l. exact (split_det k fuel p l). Qed.
Print Assumptions C59_deterministic.
Example C59_a_path : relative (str "a/b\c/d/") /\ no_double (str "a/b\c/d/") /\ split 20 (str "a/b\c/d/") = Some (map str ["a"; "b\c"; "d"; ""]%string).
Proof. repeat split; try discriminate; simpl; intros (H & t & E); discriminate. Qed.
(** The path of any file from the root, be there no backslash in it, is split for ever. *)
Theorem C59_absolute_refuted : forall fuel p, absolute p -> ~ In bs p -> split fuel p = None.
Proof. exact split_absolute. Qed.
Print Assumptions C59_absolute_refuted.
Theorem C59_full_statement_refuted : ~ C59_full_statement.
Proof. intros H. destruct (H (str "/a")) as (fuel & l & E & _). rewrite split_absolute in E; [discriminate| |]. - exists (str "a"). reflexivity. - intros [A|[A|[]]]; discriminate. Qed.
Print Assumptions C59_full_statement_refuted.
Theorem C59_double_refuted : split 10 (str "a//b") = Some (map str ["a"; "b"]%string) /\ join (map str ["a"; "b"]%string) = str "a/b".
Proof. split; reflexivity. Qed.
Print Assumptions C59_double_refuted.

(** ** C60: find_files yields the files that match *)
Definition C60_full_statement : Prop := forall matches p inside prefix_with whole prefix_with_path,
  find_files matches p inside prefix_with true whole prefix_with_path = wanted matches whole (the_prefix p prefix_with prefix_with_path) inside.
(** Missing: apply_wildcard_to_entire_path when there are subdirectories. *)
Theorem C60_by_name_partial : forall matches p inside prefix_with prefix_with_path,
  find_files matches p inside prefix_with true false prefix_with_path = wanted matches false (the_prefix p prefix_with prefix_with_path) inside.
Proof. exact find_ok. Qed.
Print Assumptions C60_by_name_partial.
Theorem C60_no_subdirectories_partial : forall matches p inside prefix_with scan whole prefix_with_path,
  Forall (fun e => match e with EFile _ => True | EDir _ _ => False end) inside ->
  find_files matches p inside prefix_with scan whole prefix_with_path = wanted matches whole (the_prefix p prefix_with prefix_with_path) inside.
Proof. exact find_flat_ok. Qed.
Print Assumptions C60_no_subdirectories_partial.
Example C60_a_tree : find_files (fun p => match p with "b"%char :: _ => true | _ => false end) (str "r")
  [EFile (str "b1"); EDir (str "d") [EFile (str "a2"); EDir (str "b") [EFile (str "b3")]; EFile (str "b4")]; EFile (str "a5")] None true false true =
  map str ["r/b1"; "r/d/b/b3"; "r/d/b4"]%string.
Proof. reflexivity. Qed.
(** In subdirectories the wildcard is applied to the name only, whatever was asked for. *)
Theorem C60_full_statement_refuted : ~ C60_full_statement.
Proof.
  intros H. discriminate (H (fun p => match p with "r"%char :: _ => true | _ => false end) (str "r") [EDir (str "d") [EFile (str "f")]] None true true).
Qed.
Print Assumptions C60_full_statement_refuted.
(** Not scanning subdirectories, it yields them as if they were files. *)
Definition C60_shallow_full_statement : Prop := forall matches p inside,
  find_files matches p inside None false false false = map (under None) (filter (fun names => matches (last names [])) (shallow inside)).
Theorem C60_shallow_full_statement_refuted : ~ C60_shallow_full_statement.
Proof. intros H. discriminate (H (fun _ => true) (str "r") [EDir (str "d") [EFile (str "f")]]). Qed.
Print Assumptions C60_shallow_full_statement_refuted.

(** ** C45: write_out_file_if_different leaves the file with the given content and reports whether it wrote *)
Definition C45_full_statement : Prop := forall (encode : Z -> option (list Z)) decode cuts (f : fs nat Z) p d bytes, encode d = Some bytes -> decode bytes = Some d ->
  (exists c, f p = File c true true) ->
  let (r, states) := write_out_file_if_different Nat.eqb Z.eqb encode decode cuts f p d in
  read_in_file decode (last_state f states) p = FOk d /\ (r = FOk false /\ read_in_file decode f p = FOk d \/ r = FOk true /\ read_in_file decode f p <> FOk d).
(** Missing: a file with a content that cannot be decoded, which raises. *)
Theorem C45_content_partial : forall P B D (peqb : P -> P -> bool) (deqb : D -> D -> bool) encode decode, eqb_ok peqb -> eqb_ok deqb ->
  forall cuts (f : fs P B) p d bytes, encode d = Some bytes -> decode bytes = Some d ->
  (f p = Absent \/ exists c, f p = File c true true /\ decode c <> None) ->
  let (r, states) := write_out_file_if_different peqb deqb encode decode cuts f p d in
  read_in_file decode (last_state f states) p = FOk d /\
  (r = FOk false /\ read_in_file decode f p = FOk d /\ states = [] \/ r = FOk true /\ read_in_file decode f p <> FOk d).
Proof. intros P B D peqb deqb encode decode pok dok cuts f p d bytes E Dd R. exact (wofid_ok P B D peqb pok deqb dok encode decode cuts f p d bytes R E Dd). Qed.
Print Assumptions C45_content_partial.
(** Whatever happens and wherever it is interrupted, other files are as they were. *)
Theorem C45_other_files : forall P B D (peqb : P -> P -> bool) (deqb : D -> D -> bool) encode decode, eqb_ok peqb ->
  forall cuts (f : fs P B) p d g q, In g (snd (write_out_file_if_different peqb deqb encode decode cuts f p d)) -> q <> p -> g q = f q.
Proof. intros P B D peqb deqb encode decode pok. exact (others_ok P B D peqb pok deqb encode decode). Qed.
Print Assumptions C45_other_files.
Definition C45_fs (p : nat) : node Z := match p with 1 => File [10; 20]%Z true true | 2 => File [99]%Z true true | 3 => File [10; 20]%Z false true | _ => Absent end.
Definition C45_enc (d : Z) : option (list Z) := if (d =? 0)%Z then None else Some [d; 2 * d]%Z.
Definition C45_dec (l : list Z) : option Z := match l with [a; b] => if (b =? 2 * a)%Z then Some a else None | _ => None end.
Definition C45_write := write_out_file_if_different Nat.eqb Z.eqb C45_enc C45_dec [1].
Example C45_two_writes : wrote (C45_write C45_fs 1 10%Z) = FOk false /\ wrote (C45_write C45_fs 1 20%Z) = FOk true /\ wrote (C45_write C45_fs 5 20%Z) = FOk true /\
  map (fun g => g 1) (snd (C45_write C45_fs 1 20%Z)) = [File [] true true; File [20] true true; File [20; 40] true true]%Z /\
  C45_enc 20%Z = Some [20; 40]%Z /\ C45_dec [20; 40]%Z = Some 20%Z.
Proof. repeat split. Qed.
Theorem C45_full_statement_refuted : ~ C45_full_statement.
Proof.
  intros H. specialize (H C45_enc C45_dec [] C45_fs 2 20%Z [20; 40]%Z eq_refl eq_refl (ex_intro _ [99%Z] eq_refl)). simpl in H. destruct H as [H _]. discriminate H.
Qed.
Print Assumptions C45_full_statement_refuted.
(** The docstring has any OSError upon reading followed by writing; only FileNotFoundError is. *)
Theorem C45_unreadable_refuted : wrote (C45_write C45_fs 3 20%Z) = FErr PermissionDenied /\ snd (C45_write C45_fs 3 20%Z) = [].
Proof. split; reflexivity. Qed.
Print Assumptions C45_unreadable_refuted.
(** Data that cannot be encoded, and a crash in the middle, cost the previous content. *)
Theorem C45_content_lost_refuted : wrote (C45_write C45_fs 1 0%Z) = FErr EncodeError /\ last_state C45_fs (snd (C45_write C45_fs 1 0%Z)) 1 = File [] true true /\
  In (File [] true true) (map (fun g => g 1) (snd (C45_write C45_fs 1 20%Z))).
Proof. repeat split. left. reflexivity. Qed.
Print Assumptions C45_content_lost_refuted.

(** ** C61: with AutoflushFile what was written is in the file as soon as write returns *)
(** The file after every operation: writes append, and no operation leaves the file open. *)
Theorem C61_content : forall B (zero : B) m c f ops, auto_open m c = Ok f ->
  map snd (auto_run zero f ops) = auto_expected zero (match m with MA | MAB => c | _ => [] end) true ops.
Proof. intros B zero m c f ops E. destruct m; inversion E; subst; apply auto_ok; reflexivity. Qed.
Print Assumptions C61_content.
Example C61_writes : exists f, auto_open MA [1; 2]%Z = Ok f /\
  map snd (auto_run 0%Z f [AWrite [3%Z]; ASeek 0; AWrite [4%Z]; ATruncate (Some 3); ATruncate None; AElse [9%Z]; AWrite [5%Z]; AClose; AWrite [6%Z]]) =
  [[1; 2; 3]; [1; 2; 3]; [1; 2; 3; 4]; [1; 2; 3]; [1; 2; 3]; [9]; [9; 5]; [9; 5]; [9; 5]]%Z.
Proof. eexists. split; reflexivity. Qed.
(** What the operations answer; after close() all raise ValueError, and so does reading in modes that do not allow it. *)
Theorem C61_answers : forall B (zero : B) m c f ops, auto_open m c = Ok f ->
  map fst (auto_run zero f ops) =
  auto_answers zero (match m with MWPlus | MWBPlus => true | _ => false end) (match m with MA | MAB => c | _ => [] end) true ops.
Proof. intros B zero m c f ops E. destruct m; inversion E; subst; apply answers_ok; reflexivity. Qed.
Print Assumptions C61_answers.
(** Reading yields nothing, wherever one has moved to. *)
Definition C61_reads_full_statement : Prop := forall (ops : list (aop Z)) f, auto_open MWPlus [] = Ok f ->
  flat_map (fun r => match fst r with AData d => [d] | _ => [] end) (auto_run 0%Z f ops) = reads_expected [] 0 ops.
Theorem C61_reads_nothing_refuted : forall B (zero : B) m c f ops d c', auto_open m c = Ok f -> In (AData d, c') (auto_run zero f ops) -> d = [].
Proof. intros B zero m c f ops d c' E. destruct m; inversion E; subst; apply reads_nothing; reflexivity. Qed.
Print Assumptions C61_reads_nothing_refuted.
Theorem C61_reads_full_statement_refuted : ~ C61_reads_full_statement.
Proof. intros H. discriminate (H [AWrite [1; 2]%Z; ASeek 0; ARead] _ eq_refl). Qed.
Print Assumptions C61_reads_full_statement_refuted.
(** Modes a+ and ab+, listed as allowed, are not. *)
Theorem C61_modes_refuted : forall B (c : list B), auto_open MAPlus c = Err ValueError /\ auto_open MABPlus c = Err ValueError.
Proof. intros. split; reflexivity. Qed.
Print Assumptions C61_modes_refuted.
