(** C24: merging configuration sources. *)
From Verif Require Import Prelude PreludeFacts MoreFacts Sources_Model Sources_Spec Sources_Proofs.
Local Open Scope Z_scope.

(** merge_dicts of two configurations that share no objects: it ends, the result is
    their join, and no other object is touched. *)
Theorem C24_merge_dicts : forall m v1 v2 t1 t2 f1 f2,
  rep m v1 t1 f1 -> rep m v2 t2 f2 -> NoDup (f1 ++ f2) -> tree_wf t1 -> tree_wf t2 ->
  exists n, forall fuel, (n <= fuel)%nat ->
  exists m' v f, merge_dicts fuel m v1 v2 = Ok (m', v) /\ rep m' v (join t1 t2) f /\
    (forall a, ~ In a (f1 ++ f2) -> nth_error m' a = nth_error m a).
Proof.
  intros m v1 v2 t1 t2 f1 f2 R1 R2 N W1 W2. exists (S (height t1)). intros fuel Hf.
  destruct (merge_ok fuel m v1 v2 t1 t2 f1 f2 Hf R1 R2 N W1 W2) as (m' & v & f & E & R & _ & _ & _ & O). exists m', v, f. auto.
Qed.
Print Assumptions C24_merge_dicts.

(** What joining means, key by key. *)
Theorem C24_join_keys : forall d1 d2, exists d, join (TDict d1) (TDict d2) = TDict d /\
  forall k, dget Z.eqb d k = match dget Z.eqb d1 k, dget Z.eqb d2 k with
                             | Some x, Some y => Some (join x y)
                             | Some x, None => Some x
                             | None, y => y
                             end.
Proof. intros d1 d2. eexists. split; [reflexivity|]. intros k. exact (join_get d1 d2 _ k eq_refl). Qed.
Print Assumptions C24_join_keys.

(** A leaf path holds the value of the last configuration that defines it. *)
Theorem C24_last_leaf_wins : forall before t after path z,
  Forall (fun t => is_tree_dict t = true) (before ++ t :: after) ->
  at_path t path = Some (TLeaf z) -> (forall t', In t' after -> says_nothing_of t' path) ->
  at_path (fold_left join (before ++ t :: after) (TDict [])) path = Some (TLeaf z).
Proof. exact last_leaf_wins. Qed.
Print Assumptions C24_last_leaf_wins.

(** provide() of any source, however nested: the answer is the outcome the sources
    have. It is the first call, and StaticSources share no objects. *)
Theorem C24_provide_partial : forall m s ts F, src_rep m s ts F -> NoDup F ->
  exists n, forall fuel, (n <= fuel)%nat -> exists m' r, provide fuel m s = (m', r) /\ answers m' r (outcome ts).
Proof. exact provide_first. Qed.
Print Assumptions C24_provide_partial.

(** Any number of calls, of any sources without a StaticSource: each answer is the
    outcome of its source, and stays so after the calls that follow. *)
Theorem C24_history_partial : forall calls tl, (forall m, srcs_rep m calls tl []) ->
  exists n, forall fuel m, (n <= fuel)%nat ->
    let (rs, m') := provide_run fuel m calls in
    Forall2 (fun r ts => answers m' r (outcome ts)) rs tl /\ (length m <= length m')%nat /\
    forall a, (a < length m)%nat -> nth_error m' a = nth_error m a.
Proof. exact provide_history. Qed.
Print Assumptions C24_history_partial.
(** sources without statics are such calls *)
Theorem C24_no_statics : forall m calls tl f, srcs_rep m calls tl f -> forallb no_statics calls = true ->
  forall m', srcs_rep m' calls tl [].
Proof. intros m calls tl f R H. exact (proj2 (proj2 (no_statics_all m) calls tl f R H)). Qed.
Print Assumptions C24_no_statics.

(** OptionalSource does not fail with ConfigurationError, whatever is under it. *)
Theorem C24_optional : forall fuel m s m', provide fuel m (SOptional s) <> (m', Err ConfigurationError).
Proof. exact optional_never. Qed.
Print Assumptions C24_optional.

(** In full: every call of provide() gives what the sources say. *)
Definition C24_full_statement : Prop := forall m s ts F, src_rep m s ts F -> NoDup F ->
  exists n, forall fuel, (n <= fuel)%nat -> forall calls,
    let (rs, m') := provide_run fuel m (repeat s calls) in
    Forall (fun r => answers m' r (outcome ts)) rs.

(** Two StaticSources: {1: [10]} and {1: [20]}. The first call puts 20 into the list
    of the first source, so the second call gives [10, 20, 20]. *)
Definition two_statics : mem := [CList [VLeaf 10]; CDict [(1, VRef 0)]; CList [VLeaf 20]; CDict [(1, VRef 2)]].
Definition two_statics_source : source val := SMerging [SStatic (VRef 1); SStatic (VRef 3)] 0 true.
Theorem C24_second_call_refuted :
  let (m1, r1) := provide 5 two_statics two_statics_source in
  let (m2, r2) := provide 5 m1 two_statics_source in
  r1 = Ok (VRef 4) /\ nth_error m1 4 = Some (CDict [(1, VRef 0)]) /\ nth_error m1 0 = Some (CList [VLeaf 10; VLeaf 20]) /\
  nth_error m2 0 = Some (CList [VLeaf 10; VLeaf 20; VLeaf 20]).
Proof. vm_compute. auto. Qed.
Print Assumptions C24_second_call_refuted.

Definition two_statics_tree : source tree :=
  SMerging [SStatic (TDict [(1, TList [TLeaf 10])]); SStatic (TDict [(1, TList [TLeaf 20])])] 0 true.
Lemma two_statics_rep : src_rep two_statics two_statics_source two_statics_tree [1; 0; 3; 2]%nat.
Proof.
  assert (forall k z, tree_wf (TDict [(k, TList [TLeaf z])])) as W by (intros k z; simpl; repeat split; auto; repeat constructor; intros []).
  apply sr_merge. apply (ss_cons (f := [1; 0]%nat) (g := [3; 2]%nat)).
  - apply sr_static; [|apply W]. apply (@rep_dict two_statics 1 [(1, VRef 0)]); [reflexivity|].
    apply (@ri_cons two_statics 1 (VRef 0) (TList [TLeaf 10]) [] [] [0%nat] []); [|constructor].
    apply (@rep_list two_statics 0 [VLeaf 10] [TLeaf 10]); [reflexivity|].
    apply (@re_cons two_statics (VLeaf 10) (TLeaf 10) [] [] [] []); constructor.
  - apply (ss_cons (f := [3; 2]%nat) (g := [])); [|constructor].
    apply sr_static; [|apply W]. apply (@rep_dict two_statics 3 [(1, VRef 2)]); [reflexivity|].
    apply (@ri_cons two_statics 1 (VRef 2) (TList [TLeaf 20]) [] [] [2%nat] []); [|constructor].
    apply (@rep_list two_statics 2 [VLeaf 20] [TLeaf 20]); [reflexivity|].
    apply (@re_cons two_statics (VLeaf 20) (TLeaf 20) [] [] [] []); constructor.
Qed.
Lemma merge_more_fuel : forall fuel, (3 <= fuel)%nat ->
  provide_run fuel two_statics (repeat two_statics_source 2) = provide_run 3 two_statics (repeat two_statics_source 2).
Proof. intros fuel H. destruct fuel as [|[|[|fuel]]]; try lia. destruct fuel; reflexivity. Qed.
Theorem C24_full_statement_refuted : ~ C24_full_statement.
Proof.
  intros H. destruct (H _ _ _ _ two_statics_rep) as [n Hn].
  { repeat constructor; simpl; intuition discriminate. }
  specialize (Hn (Nat.max 3 n) ltac:(lia) 2%nat). rewrite merge_more_fuel in Hn by lia.
  vm_compute in Hn. inversion Hn as [|r rs Hr _]; subst. destruct Hr as (v & f & Ev & R). inversion Ev; subst.
  inversion R as [|? d ? ? Hnth RI|]; subst. vm_compute in Hnth. inversion Hnth; subst.
  inversion RI as [|? ? ? ? ? ? ? Rl _]; subst. inversion Rl as [| |? l ? ? Hl RE]; subst. vm_compute in Hl. inversion Hl; subst.
  inversion RE as [|? ? ? ? ? ? R1 RE1]; subst. inversion RE1 as [|? ? ? ? ? ? R2 RE2]; subst. inversion RE2.
Qed.
Print Assumptions C24_full_statement_refuted.

Example C24_examples :
  outcome (SMerging [SLoad (Ok (TDict [(1, TDict [(2, TLeaf 20)]); (3, TLeaf 30)])); SLoad (Err ConfigurationError);
                     SOptional (SLoad (Err ConfigurationError)); SBuildObjectFrom 1 (SLoad (Ok (TDict [(4, TLeaf 40)])))] 1 true)
    = Ok (TDict [(1, TDict [(2, TLeaf 20); (4, TLeaf 40)]); (3, TLeaf 30)]) /\
  outcome (SMerging [SLoad (Err ConfigurationError)] 1 true) = Err ConfigurationError /\
  outcome (SMerging [SLoad (Err ConfigurationError)] 1 false) = Ok (TDict []) /\
  outcome (SMerging [SLoad (Ok (TDict [])); SLoad (Err ConfigurationError); SLoad (Err KeyError)] 0 true) = Err ConfigurationError /\
  outcome (SAlternative [SLoad (Err ConfigurationError); SLoad (Ok (TDict [(1, TLeaf 1)]))]) = Ok (TDict [(1, TLeaf 1)]) /\
  outcome (SAlternative []) = Err ConfigurationError.
Proof. vm_compute. auto 10. Qed.
