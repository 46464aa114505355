(** C98: jump_to_directory. C99: /dev/null objects, lines, substitutions, JSON files and deletion. *)
From Coq Require Import List Bool Arith Lia.
From Verif Require Import Prelude FileOps_Model FileOps_Spec FileOps_Proofs.
Import ListNotations.
Open Scope nat_scope.

(** ** C98 *)
(** The body runs in the target directory; afterwards the working directory is the one from before, whatever the body did and however it ended,
    and the body's exception, if any, comes through. (If the old directory is gone, FileNotFoundError; if the target is no directory, the body does not run.) *)
Theorem C98_restored_partial : forall path_of j body w, ~ In j (flat_map uses body) ->
  let (r, w') := run_cmd path_of (Jump j body) w in
  (~ directory w (target w (path_of j)) /\ r = Err FileNotFound /\ cwd w' = cwd w /\ dirs w' = dirs w) \/
  (directory w (target w (path_of j)) /\ exists w1, cwd w1 = target w (path_of j) /\ dirs w1 = dirs w /\
     let (b, w2) := run_cmds path_of body w1 in
     dirs w' = dirs w2 /\
     (directory w2 (cwd w) -> r = b /\ cwd w' = cwd w) /\
     (~ directory w2 (cwd w) -> r = Err FileNotFound /\ cwd w' = cwd w2)).
Proof. intros path_of j body w N. assert (H := jump_inside path_of j body w N). destruct (run_cmd path_of (Jump j body) w) as [r w']. exact H. Qed.
Print Assumptions C98_restored_partial.
(** Whole programs, with any nesting: if they use no other way to change or remove directories, they end where they started. *)
Theorem C98_programs : forall path_of l w, Forall tame l -> directory w (cwd w) -> cwd (snd (run_cmds path_of l w)) = cwd w.
Proof. intros path_of l w T D. now apply tame_runs. Qed.
Print Assumptions C98_programs.
(** Directories that do not exist are made: entering from where the object was made succeeds. *)
Theorem C98_created : forall path_of j w, let w' := jump_init path_of w j in
  directory w' (target w (path_of j)) /\ (forall d, directory w d -> directory w' d) /\ cwd w' = cwd w /\
  (forall body, ~ In j (flat_map uses body) -> directory (snd (run_cmds path_of body {| cwd := target w (path_of j); dirs := dirs w'; prev_of := fun i => if i =? j then Some (cwd w) else prev_of w i |})) (cwd w) ->
     cwd (snd (run_cmd path_of (Jump j body) w')) = cwd w).
Proof.
  intros path_of j w w'. assert (D : directory w' (target w (path_of j))) by apply made_directory. split; [exact D|]. split; [|split; [reflexivity|]].
  - intros d [->|I]; [now left|right]. cbn. apply in_app_iff. now right.
  - intros body N Db. rewrite run_jump. unfold jump_enter, chdir at 1. cbn [set_prev].
    assert (E : is_dir (set_prev w' j (cwd w')) (resolve (set_prev w' j (cwd w')) (path_of j)) = true) by (apply is_dir_iff; exact D). rewrite E.
    change (resolve (set_prev w' j (cwd w')) (path_of j)) with (target w (path_of j)). cbn [set_prev dirs prev_of]. change (cwd w') with (cwd w). change (prev_of w') with (prev_of w).
    set (w1 := {| cwd := target w (path_of j); dirs := dirs w'; prev_of := _ |}) in *.
    assert (P := prevs_kept path_of body j w1 N). destruct (run_cmds path_of body w1) as [b w2]. cbn [snd] in *. unfold jump_exit. rewrite P.
    assert (P1 : prev_of w1 j = Some (cwd w)) by (cbn; now rewrite Nat.eqb_refl). rewrite P1. unfold chdir. apply is_dir_iff in Db. now rewrite Db.
Qed.
Print Assumptions C98_created.
(** False in full: the same object entered again inside its own body forgets where it came from; *)
Definition C98_full_statement : Prop := forall path_of j body w,
  (forall c, In c body -> forall p, c <> Chdir p /\ c <> Rmtree p) -> directory w (cwd w) -> cwd (snd (run_cmd path_of (Jump j body) w)) = cwd w.
Theorem C98_full_statement_refuted : ~ C98_full_statement.
Proof.
  intro H. specialize (H (fun _ => {| absolute := true; parts := [1] |}) 0 [Jump 0 []] {| cwd := [2]; dirs := [[1]; [2]]; prev_of := fun _ => None |}).
  assert (E : [1] = [2]) by (apply H; [intros c [<-|[]] p; split; discriminate|right; cbn; auto]). discriminate.
Qed.
Print Assumptions C98_full_statement_refuted.
(** and a relative path is made where the object is made, but looked up where it is entered. *)
Theorem C98_relative_refuted : ~ (forall path_of j w body d, directory w d ->
  fst (run_cmds path_of [Chdir {| absolute := true; parts := d |}; Jump j body] (jump_init path_of w j)) <> Err FileNotFound).
Proof.
  intro H. apply (H (fun _ => {| absolute := false; parts := [1] |}) 0 {| cwd := [2]; dirs := [[2]; [3]]; prev_of := fun _ => None |} [] [3]); [right; cbn; auto|reflexivity].
Qed.
Print Assumptions C98_relative_refuted.
Example C98_case : let w := {| cwd := [2]; dirs := [[1]; [2]; [2; 5]]; prev_of := fun _ => None |} in
  let path_of j := if j =? 0 then {| absolute := true; parts := [1] |} else {| absolute := false; parts := [5] |} in
  Forall tame [Jump 1 [Jump 0 [Makedirs {| absolute := false; parts := [7; 8] |}; Raise KeyError]]] /\ directory w (cwd w) /\
  fst (run_cmds path_of [Jump 1 [Jump 0 [Makedirs {| absolute := false; parts := [7; 8] |}; Raise KeyError]]] w) = Err KeyError /\
  cwd (snd (run_cmds path_of [Jump 1 [Jump 0 [Makedirs {| absolute := false; parts := [7; 8] |}; Raise KeyError]]] w)) = [2] /\
  In [1; 7; 8] (dirs (snd (run_cmds path_of [Jump 1 [Jump 0 [Makedirs {| absolute := false; parts := [7; 8] |}; Raise KeyError]]] w))).
Proof.
  cbn. split; [|split; [right; cbn; auto|split; [reflexivity|split; [reflexivity|auto]]]].
  repeat constructor; cbn; intuition discriminate.
Qed.

(** ** C99: /dev/null *)
(** Until it is closed, it answers as it should; after that everything but closing raises ValueError. *)
Theorem C99_null : forall b ops i o, nth_error ops i = Some o ->
  exists out, nth_error (null_run (null_init b) ops) i = Some out /\
    ((forall k p, k < i -> nth_error ops k = Some p -> ~ closes p) -> null_answer b o out) /\
    ((exists k p, k < i /\ nth_error ops k = Some p /\ closes p) -> out = if match o with NClose | NExit => true | _ => false end then NNone else NRaise ValueError).
Proof.
  intros b ops i o E.
  assert (D : (exists k p, k < i /\ nth_error ops k = Some p /\ closes p) \/ (forall k p, k < i -> nth_error ops k = Some p -> ~ closes p)).
  { clear E. induction i as [|i [(k & p & L & H)|H]]; [right; intros; lia|left; exists k, p; split; [lia|exact H]|].
    destruct (nth_error ops i) as [q|] eqn:Q.
    - assert (Dq : closes q \/ ~ closes q) by (destruct q; unfold closes; intuition discriminate).
      destruct Dq as [Dq|Dq]; [left; exists i, q; auto|right]. intros k p L K. destruct (Nat.eq_dec k i) as [->|]; [congruence|]. apply (H k); [lia|exact K].
    - right. intros k p L K. destruct (Nat.eq_dec k i) as [->|]; [congruence|]. apply (H k); [lia|exact K]. }
  destruct D as [(k & p & L & K & C)|D].
  - assert (Dq : closes o \/ ~ closes o) by (destruct o; unfold closes; intuition discriminate). destruct Dq as [Dq|Dq].
    + exists NNone. split; [now apply null_close_out with o|]. split; [intro H; exfalso; eapply H; eauto|]. intros _. destruct Dq as [-> | ->]; reflexivity.
    + exists (NRaise ValueError). split; [eapply null_run_closed; eauto|]. split; [intro H; exfalso; eapply H; eauto|]. intros _. destruct o; try reflexivity; exfalso; apply Dq; red; auto.
  - destruct (null_run_open (null_init b) ops i o eq_refl D E) as (out & R & A). exists out. split; [exact R|]. split; [intros _; exact A|]. intros (k & p & L & K & C). exfalso. eapply D; eauto.
Qed.
Print Assumptions C99_null.
(** There is one right answer to each call. *)
Theorem C99_null_exact : forall b o x y, null_answer b o x -> null_answer b o y -> x = y.
Proof. exact null_answer_fun. Qed.
Print Assumptions C99_null_exact.
(** "raises io.UnsupportedOperation: since reading from this is forbidden": it does not. *)
Theorem C99_null_read_refuted : forall b n, exists d, null_run (null_init b) [NRead n] = [NData d].
Proof. intros b n. eexists. reflexivity. Qed.
Print Assumptions C99_null_read_refuted.

(** ** C99: lines *)
(** Every line of the text, without white space at its ends; with or without those that are empty then. *)
Theorem C99_lines : forall is_space is_break t, exists ls ss, lines is_break t ls /\ Forall2 (stripped is_space) ls ss /\
  read_lines is_space is_break false t = ss /\
  read_lines is_space is_break true t = filter (fun l => negb (length l =? 0)) ss.
Proof.
  intros is_space is_break t. exists (splitlines is_break [] t), (map (strip is_space) (splitlines is_break [] t)). split; [apply lines_exist|]. split; [|split; [reflexivity|]].
  - induction (splitlines is_break [] t); constructor; [apply strip_spec|assumption].
  - unfold read_lines. apply filter_ext. intros [|]; reflexivity.
Qed.
Print Assumptions C99_lines.
(** The specification is exact: there is one way to read lines. *)
Theorem C99_lines_exact : forall is_space is_break t a b, (lines is_break t a -> lines is_break t b -> a = b) /\ (stripped is_space t (concat a) -> stripped is_space t (concat b) -> concat a = concat b).
Proof. intros. split; [intros A B; eapply lines_fun; eauto|apply stripped_fun]. Qed.
Print Assumptions C99_lines_exact.
Example C99_case_lines : read_lines (fun c => c <=? 32) (fun c => (c =? 10) || (c =? 13)) true [32; 65; 32; 66; 32; 13; 10; 10; 67] = [[65; 32; 66]; [67]] /\
  read_lines (fun c => c <=? 32) (fun c => (c =? 10) || (c =? 13)) false [32; 65; 13; 10; 10; 67; 10] = [[65]; []; [67]].
Proof. split; reflexivity. Qed.

(** ** C99: substitution *)
(** The file then has the text with the substitutions; if reading or substituting fails, it is unchanged. *)
Theorem C99_sub_partial : forall decode encode sub f,
  (forall b t t', f = Some b -> decode b = Ok t -> ~ In 13 t -> sub t = Ok t' -> forall b', encode t' = Ok b' -> read_re_sub_and_write decode encode sub f = (Ok tt, Some b')) /\
  (f = None -> read_re_sub_and_write decode encode sub f = (Err FileNotFound, f)) /\
  (forall b e, f = Some b -> decode b = Err e -> read_re_sub_and_write decode encode sub f = (Err e, f)) /\
  (forall b t e, f = Some b -> decode b = Ok t -> ~ In 13 t -> sub t = Err e -> read_re_sub_and_write decode encode sub f = (Err e, f)).
Proof.
  intros decode encode sub f. unfold read_re_sub_and_write, text_read. repeat split.
  - intros b t t' -> D N S b' E. rewrite D. cbn [res_map]. rewrite (newlines_same (length t) t); auto. rewrite S. unfold text_write. now rewrite E.
  - now intros ->.
  - intros b e -> D. now rewrite D.
  - intros b t e -> D N S. rewrite D. cbn [res_map]. rewrite (newlines_same (length t) t); auto. now rewrite S.
Qed.
Print Assumptions C99_sub_partial.
(** False in full: line ends \r\n are all changed to \n, even if nothing matches; and a result that cannot be encoded leaves an empty file. *)
Definition C99_sub_full_statement : Prop := forall decode encode f b t, f = Some b -> decode b = Ok t -> encode t = Ok b -> read_re_sub_and_write decode encode (fun t => Ok t) f = (Ok tt, f).
Theorem C99_sub_full_statement_refuted : ~ C99_sub_full_statement.
Proof. intro H. specialize (H (fun b => Ok b) (fun b => Ok b) _ [65; 13; 10] _ eq_refl eq_refl eq_refl). discriminate. Qed.
Print Assumptions C99_sub_full_statement_refuted.
Theorem C99_sub_lost_refuted : forall decode encode sub b t t' e, decode b = Ok t -> ~ In 13 t -> sub t = Ok t' -> encode t' = Err e -> read_re_sub_and_write decode encode sub (Some b) = (Err e, Some []).
Proof. intros decode encode sub b t t' e D N S E. unfold read_re_sub_and_write, text_read. rewrite D. cbn [res_map]. rewrite (newlines_same (length t) t); auto. rewrite S. unfold text_write. now rewrite E. Qed.
Print Assumptions C99_sub_lost_refuted.

(** ** C99: JSON in files *)
(** What was written is read, if JSON and the encoding are inverse to their counterparts (JSON texts have no \r). *)
Theorem C99_json_partial : forall decode encode V (loads : list nat -> res V) decode_error ujson t v f b,
  encode t = Ok b -> decode b = Ok t -> ~ In 13 t -> loads t = Ok v ->
  write_json_to_file encode (Ok t) f = (Ok tt, Some b) /\ read_json_from_file decode ujson loads decode_error (snd (write_json_to_file encode (Ok t) f)) = Ok v.
Proof.
  intros decode encode V loads de ujson t v f b E D N L. unfold write_json_to_file, text_write, read_json_from_file, text_read. rewrite E. cbn [snd]. rewrite D. cbn [res_map res_bind]. rewrite (newlines_same (length t) t); auto. now rewrite L.
Qed.
Print Assumptions C99_json_partial.
(** Reading fails with FileNotFoundError without a file, and with ValueError if the text is not JSON. *)
Theorem C99_json_errors : forall decode V (loads : list nat -> res V) decode_error,
  (forall ujson, read_json_from_file decode ujson loads decode_error None = Err FileNotFound) /\
  (forall b t e, decode b = Ok t -> ~ In 13 t -> loads t = Err e -> decode_error e = true -> read_json_from_file decode false loads decode_error (Some b) = Err ValueError).
Proof.
  intros decode V loads de. split; [reflexivity|]. intros b t e D N L X. unfold read_json_from_file, text_read. rewrite D. cbn [res_map res_bind]. rewrite (newlines_same (length t) t); auto. now rewrite L, X.
Qed.
Print Assumptions C99_json_errors.
(** False in full: a value that cannot be encoded destroys what was in the file. *)
Definition C99_json_full_statement : Prop := forall encode json f e, json = Err e -> write_json_to_file encode json f = (Err e, f).
Theorem C99_json_full_statement_refuted : ~ C99_json_full_statement.
Proof. intro H. specialize (H (fun b => Ok b) (Err TypeError) (Some [1; 2]) TypeError eq_refl). discriminate. Qed.
Print Assumptions C99_json_full_statement_refuted.

(** ** C99: deletion *)
(** try_unlink raises nothing; it returns True exactly if there was something that could be removed, and then it is gone. *)
Theorem C99_unlink_partial : forall pw n, n <> Some (NLink true) ->
  (pw = true /\ (exists m, n = Some m /\ removable m) /\ try_unlink pw n = (Ok true, None)) \/
  (~ (pw = true /\ exists m, n = Some m /\ removable m) /\ exists n', try_unlink pw n = (Ok false, n') /\ (n = None <-> n' = None)).
Proof.
  intros pw n NL. destruct n as [[c|d|w l]|].
  - destruct pw; [left|right].
    + repeat split. eexists; split; [reflexivity|constructor].
    + split; [intros (? & _); discriminate|]. eexists. split; [reflexivity|]. split; discriminate.
  - destruct d; [congruence|]. destruct pw; [left|right].
    + repeat split. eexists; split; [reflexivity|constructor].
    + split; [intros (? & _); discriminate|]. eexists. split; [reflexivity|]. split; discriminate.
  - unfold try_unlink. cbn [path_isdir shutil_rmtree]. destruct (rm_spec (NDir w l) pw) as [(P & R & E)|(NR & m & E)]; rewrite E.
    + left. split; [exact P|]. split; [eauto|reflexivity].
    + right. split; [intros (P & x & Q & R); injection Q as <-; apply NR; auto|]. eexists. split; [reflexivity|]. split; discriminate.
  - right. split; [intros (_ & m & Q & _); discriminate|]. eexists. split; [reflexivity|]. split; reflexivity.
Qed.
Print Assumptions C99_unlink_partial.
(** False in full: a link to a directory is not deleted, although os.unlink, of which this is "a syntactic sugar", would; *)
Theorem C99_unlink_link_refuted : try_unlink true (Some (NLink true)) = (Ok false, Some (NLink true)) /\ os_unlink true (Some (NLink true)) = (Ok tt, None).
Proof. split; reflexivity. Qed.
Print Assumptions C99_unlink_link_refuted.
(** and False does not mean that nothing was deleted. *)
Definition C99_unlink_full_statement : Prop := forall pw n n', try_unlink pw n = (Ok false, n') -> n' = n.
Theorem C99_unlink_full_statement_refuted : ~ C99_unlink_full_statement.
Proof. intro H. specialize (H true (Some (NDir true [(1, NFile 5); (2, NDir false [(3, NFile 6)])])) _ eq_refl). discriminate. Qed.
Print Assumptions C99_unlink_full_statement_refuted.
Example C99_case_unlink : removable (NDir true [(1, NFile 5); (2, NDir true [(3, NLink true)]); (4, NDir false [])]) /\
  try_unlink true (Some (NDir true [(1, NFile 5); (2, NDir true [(3, NLink true)]); (4, NDir false [])])) = (Ok true, None).
Proof.
  split; [|reflexivity]. constructor; [auto|]. intros name m [H|[H|[H|[]]]]; injection H as <- <-; constructor; auto.
  - intros n m [H|[]]. injection H as <- <-. constructor.
  - intros n m [].
Qed.
