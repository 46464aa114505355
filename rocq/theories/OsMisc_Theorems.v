(** C109: whereis finds the executables of a name in PATH, in order. C110: shuffling together and random words. *)
From Coq Require Import String Ascii Lia Permutation.
From Verif Require Import Prelude OsMisc_Model OsMisc_Spec OsMisc_Proofs.
Set Implicit Arguments.
Local Open Scope string_scope.
Open Scope list_scope.

(** C109. Whatever is in the directories, whereis yields exactly the paths of the executable files of that name, in
    the order of PATH, and never fails; directories that cannot be listed are passed over. *)
Definition C109_full_statement : Prop := forall path listdir stat name,
  (forall d files, listdir d = Is files -> NoDup files) ->
  exists ds, joined ds = path /\ Forall (fun p => has_colon p = false) ds /\
             whereis (Some path) listdir stat name = (executables listdir stat name ds, None).
(** So it is if listing and examining files never fails but for missing files, and the files of that name are
    ordinary: no directories, and without the set-user-id, set-group-id and sticky bits. *)
Theorem C109_partial : forall path listdir stat name,
  (forall d files, listdir d = Is files -> NoDup files) ->
  (forall d, listdir d <> Fails OtherOSError) ->
  (forall d files f, listdir d = Is files -> In f files ->
     match stat (path_join d f) with Is m => f = name -> ordinary m | Fails e => e = Missing end) ->
  exists ds, joined ds = path /\ Forall (fun p => has_colon p = false) ds /\
             whereis (Some path) listdir stat name = (executables listdir stat name ds, None).
Proof.
  intros path listdir stat name H1 H2 H3. exists (split_colon path). split; [apply split_joined|]. split; [apply split_joined|].
  unfold whereis. apply whereis_all_ok.
  - intros d _. specialize (H2 d). destruct (listdir d) as [|[| |]]; auto.
  - intros d files _ E. split; [eauto|]. intros f Hf. exact (H3 d files f E Hf).
Qed.
Print Assumptions C109_partial.
(** Whatever happens, everything it yields is a listed file of that name in a directory of PATH. *)
Theorem C109_sound : forall path listdir stat name p,
  In p (fst (whereis (Some path) listdir stat name)) ->
  exists ds d files, joined ds = path /\ Forall (fun p => has_colon p = false) ds /\ In d ds /\ listdir d = Is files /\
                  In name files /\ p = path_join d name.
Proof.
  intros path listdir stat name p. unfold whereis. destruct (split_joined path) as [J C]. intros H. exists (split_colon path).
  assert (G : exists d files, In d (split_colon path) /\ listdir d = Is files /\ In name files /\ p = path_join d name).
  { clear J C. revert H. generalize (split_colon path) as ds. induction ds as [|d r IH]; simpl; intros H; [contradiction|].
    unfold whereis_in, safe_listdir in H. destruct (listdir d) as [files|e] eqn:E.
    - destruct (look stat d name files None) as [l eo] eqn:El.
      assert (S : In p l -> p = path_join d name /\ In name files).
      { intros Hp. apply (look_sound listdir stat d name files None p). rewrite El. exact Hp. }
      destruct eo as [e|]; simpl in H; [destruct (S H); subst; eauto 10|].
      destruct (whereis_all listdir stat r name) as [l' e']. simpl in *. apply in_app_or in H. destruct H as [H|H]; [destruct (S H); subst; eauto 10|].
      destruct (IH H) as (d' & files' & ? & ? & ? & ?). eauto 10.
    - assert (H' : In p (fst (whereis_all listdir stat r name))).
      { destruct e; simpl in H; [| |contradiction]; destruct (whereis_all listdir stat r name); exact H. }
      destruct (IH H') as (d' & files' & ? & ? & ? & ?). eauto 10. }
  destruct G as (d & files & ? & ? & ? & ?). exists d, files. auto 10.
Qed.
Print Assumptions C109_sound.

Definition m755 : mode := {| directory := false; user_x := true; group_x := true; other_x := true; set_uid := false; set_gid := false; sticky := false |}.
Definition m644 : mode := {| directory := false; user_x := false; group_x := false; other_x := false; set_uid := false; set_gid := false; sticky := false |}.
Definition ls (d : string) : answer (list string) :=
  if String.eqb d "/bin" then Is ["ls"; "sh"; "gone"] else if String.eqb d "/opt/" then Is ["sh"; "readme"] else Fails Missing.
Definition st (p : string) : answer mode :=
  if String.eqb p "/bin/gone" then Fails Missing else if String.eqb p "/opt/readme" then Is m644 else Is m755.
Example C109_case : whereis (Some "/bin:/none:/opt/:") ls st "sh" = (["/bin/sh"; "/opt/sh"], None) /\
  whereis (Some "/bin:/none:/opt/:") ls st "readme" = ([], None) /\ whereis None ls st "sh" = ([], None) /\
  (forall d files, ls d = Is files -> NoDup files) /\ (forall d, ls d <> Fails OtherOSError) /\
  (forall d files f, ls d = Is files -> In f files -> match st (path_join d f) with Is m => f = "sh" -> ordinary m | Fails e => e = Missing end).
Proof.
  split; [reflexivity|]. split; [reflexivity|]. split; [reflexivity|]. unfold ls. split; [|split].
  - intros d files. destruct (String.eqb d "/bin"); [intros [= <-]; repeat constructor; simpl; intuition discriminate|].
    destruct (String.eqb d "/opt/"); [intros [= <-]; repeat constructor; simpl; intuition discriminate|discriminate].
  - intros d. destruct (String.eqb d "/bin"); [discriminate|]. destruct (String.eqb d "/opt/"); discriminate.
  - intros d files f. unfold st. destruct (String.eqb (path_join d f) "/bin/gone"); [reflexivity|].
    destruct (String.eqb (path_join d f) "/opt/readme"); intros _ _ _; repeat split.
Qed.
(** A directory is taken for an executable; *)
Theorem C109_full_statement_refuted : ~ C109_full_statement.
Proof.
  intros H. destruct (H "/bin" (fun _ => Is ["sh"])
    (fun _ => Is {| directory := true; user_x := true; group_x := true; other_x := true; set_uid := false; set_gid := false; sticky := false |}) "sh")
    as (ds & J & _ & E).
  - intros d files [= <-]. repeat constructor. intros [].
  - vm_compute in E. injection E as E. assert (L : length (["/bin/sh"] : list string) = 0); [|discriminate L].
    rewrite E. clear. induction ds; [reflexivity|exact IHds].
Qed.
Print Assumptions C109_full_statement_refuted.
(** an executable that is shown as rws--s--t is not; *)
Theorem C109_set_uid_refuted : exists m, executable m = true /\ whereis (Some "/bin") (fun _ => Is ["sh"]) (fun _ => Is m) "sh" = ([], None).
Proof.
  exists {| directory := false; user_x := true; group_x := true; other_x := true; set_uid := true; set_gid := true; sticky := true |}.
  split; reflexivity.
Qed.
Print Assumptions C109_set_uid_refuted.
(** and another file that cannot be examined (say, a link to itself) ends the search. *)
Theorem C109_other_file_refuted :
  whereis (Some "/bin:/opt") (fun _ => Is ["loop"; "sh"]) (fun p => if String.eqb p "/bin/loop" then Fails OtherOSError else Is m755) "sh" = ([], Some OtherOSError).
Proof. reflexivity. Qed.
Print Assumptions C109_other_file_refuted.

(** C110. Sequences of equal length are rearranged in the same way: position [k] of each result is position [p k] of
    its argument, for one rearrangement [p]. *)
Theorem C110_shuffle : forall T shuffle (args : list (list T)) n,
  (forall l, Permutation (shuffle l) l) -> (forall a, In a args -> length a = n) ->
  exists p ls, Permutation p (seq 0 n) /\ shuffle_together shuffle args = Ok ls /\
    Forall2 (fun a l => length l = n /\ forall k i, nth_error p k = Some i -> nth_error l k = nth_error a i) args ls.
Proof.
  intros T shuffle args n P L. unfold shuffle_together. destruct args as [|a r].
  - exists (seq 0 n), []. repeat split; auto.
  - rewrite (L a) by (left; reflexivity). specialize (P (seq 0 n)).
    destruct (@picks_all_ok T (a :: r) (shuffle (seq 0 n))) as (ls & E & F).
    + intros b Hb. apply Forall_forall. intros i Hi. apply (Permutation_in _ P) in Hi. apply in_seq in Hi. rewrite (L b Hb). lia.
    + exists (shuffle (seq 0 n)), ls. split; [exact P|]. split; [exact E|]. rewrite (Permutation_length P), seq_length in F. exact F.
Qed.
Print Assumptions C110_shuffle.
(** Sequences of other lengths are not refused: a shorter one fails, the end of a longer one is left out. *)
Theorem C110_shorter : forall T shuffle (a : list T) args b,
  (forall l, Permutation (shuffle l) l) -> In b args -> length b < length a ->
  shuffle_together shuffle (a :: args) = Err IndexError.
Proof.
  intros T shuffle a args b P Hb Hl. unfold shuffle_together. eapply picks_all_fail; [right; exact Hb| |exact (le_n _)].
  apply Permutation_in with (l := seq 0 (length a)); [symmetry; apply P|]. apply in_seq. lia.
Qed.
Print Assumptions C110_shorter.
Definition C110_full_statement : Prop := forall shuffle (args ls : list (list nat)), (forall l, Permutation (shuffle l) l) ->
  shuffle_together shuffle args = Ok ls -> Forall2 (fun a l => Permutation a l) args ls.
Theorem C110_full_statement_refuted : ~ C110_full_statement.
Proof.
  intros H. specialize (H (fun l => l) [[1]; [2; 3]] [[1]; [2]] (fun l => Permutation_refl l) eq_refl).
  inversion H as [|? ? ? ? _ H']; subst. inversion H' as [|? ? ? ? E _]; subst. apply Permutation_length in E. discriminate E.
Qed.
Print Assumptions C110_full_statement_refuted.
Example C110_case : shuffle_together (@rev nat) [[1; 2; 3]; [10; 20; 30]] = Ok [[3; 2; 1]; [30; 20; 10]] /\
  forall l : list nat, Permutation (rev l) l.
Proof. split; [reflexivity|]. intros l. symmetry. apply Permutation_rev. Qed.

(** A random word of a choice that is not empty is made of as many elements as asked for (of none, if that is
    negative), all from the choice. *)
Theorem C110_word : forall T R (choice : list T) (join : list T -> R) count chosen, choice <> [] ->
  exists l, random_word choice join count chosen = Ok (join l) /\ length l = Z.to_nat count /\ forall x, In x l -> In x choice.
Proof.
  intros T R choice join count chosen Hn. unfold random_word.
  destruct (@picks_ok T choice (map (fun k => Nat.modulo (chosen k) (length choice)) (seq 0 (Z.to_nat count)))) as (l & E & L & N).
  - apply Forall_forall. intros i Hi. apply in_map_iff in Hi. destruct Hi as (k & <- & _). apply Nat.mod_upper_bound. destruct choice; [congruence|discriminate].
  - rewrite E. exists l. split; [reflexivity|]. rewrite map_length, seq_length in L. split; [exact L|]. intros x Hx.
    apply In_nth_error in Hx. destruct Hx as [k Hk].
    destruct (nth_error (map (fun k => Nat.modulo (chosen k) (length choice)) (seq 0 (Z.to_nat count))) k) as [i|] eqn:Ei.
    + rewrite (N k i Ei) in Hk. eapply nth_error_In. exact Hk.
    + apply nth_error_None in Ei. rewrite map_length, seq_length in Ei. assert (k < length l) by (apply nth_error_Some; congruence). lia.
Qed.
Print Assumptions C110_word.
Theorem C110_word_empty : forall T R (join : list T -> R) count chosen, (0 < count)%Z -> random_word [] join count chosen = Err IndexError.
Proof. intros T R join count chosen H. unfold random_word. destruct (Z.to_nat count) eqn:E; [lia|]. cbn [seq map picks]. destruct (chosen 0 mod Datatypes.length []); reflexivity. Qed.
Print Assumptions C110_word_empty.
