(** C128: items as attributes. *)
From Coq Require Import String.
From Verif Require Import Prelude PreludeFacts AttrDict_Model AttrDict_Spec AttrDict_Proofs.
Local Open Scope string_scope.
Local Open Scope list_scope.

(** every name can be read as an attribute, a copy can be made of everything, and apply_dict_object leaves no plain dictionary behind *)
Definition C128_full_statement : Prop :=
  (forall in_class ops n o x, nth_error ops n = Some o -> nth_error (snd (steps in_class [] ops)) n = Some x -> answer (rev (firstn n ops)) o x) /\
  (forall h v, closed h -> leads h v -> exists fuel s v', deep fuel (h, []) v = Ok (s, v')) /\
  (forall h t v, is_tree h t v -> exists fuel h' v' t', applied fuel h v = Ok (h', v') /\ is_tree h' t' v' /\ plain t' = plain t /\ objects t').

(** Whatever is called, the answers are those of a dictionary the items of which are attributes too, except when a name of the class is
    read as an attribute: then the attribute of the class is what is read, whatever was stored. *)
Theorem C128_partial in_class ops n o x : nth_error ops n = Some o -> nth_error (snd (steps in_class [] ops)) n = Some x ->
  ((forall s, o = GetAttr s -> in_class s = false) -> answer (rev (firstn n ops)) o x) /\
  (forall s, o = GetAttr s -> in_class s = true -> x = ClassAttribute).
Proof.
  intros N X. assert (T : tracks [] []) by (split; [constructor|auto]). pose proof (steps_ok in_class ops [] [] n o x T N X) as (A & B).
  rewrite app_nil_r in B. split; auto. intros s ->. auto.
Qed.
Print Assumptions C128_partial.
Theorem C128_every_call_answered in_class ops : List.length (snd (steps in_class [] ops)) = List.length ops.
Proof. apply steps_length. Qed.
Print Assumptions C128_every_call_answered.
Definition a_class (s : string) : bool := String.eqb s "items".
Definition some_calls : list op :=
  [SetAttr "a" (At 1); GetItem (Name "a"); SetItem (Number 3) (At 2); GetAttr "a"; DelAttr "a"; GetAttr "a"; GetItem (Name "a"); DelItem (Name "a"); DelAttr "a"; Length; SetAttr "items" (At 9); GetAttr "items"; GetItem (Name "items")].
Example C128_case : snd (steps a_class [] some_calls) =
  [Done; Item (At 1); Done; Item (At 1); Done; Raises AttributeError; Raises KeyError; Raises KeyError; Raises AttributeError; Number_ 1; Done; ClassAttribute; Item (At 9)].
Proof. reflexivity. Qed.
(** an item called "items" is not read as an attribute *)
Theorem C128_attribute_refuted : ~ (forall in_class ops n o x, nth_error ops n = Some o -> nth_error (snd (steps in_class [] ops)) n = Some x -> answer (rev (firstn n ops)) o x).
Proof. intros H. specialize (H a_class some_calls 11 (GetAttr "items") ClassAttribute eq_refl eq_refl). discriminate H. Qed.
Print Assumptions C128_attribute_refuted.

(** A DictObject made of a DictObject alone is that DictObject. Otherwise a new one is made: the items of the dictionary with the keyword
    arguments over them. Nothing that was there is changed. *)
Theorem C128_construct h p w e kwargs : nth_error h p = Some (ODict w e) ->
  (w = true -> kwargs = [] -> construct h p kwargs = Ok (h, p)) /\
  (w = false \/ kwargs <> [] -> exists e', construct h p kwargs = Ok (h ++ [ODict true e'], List.length h) /\ forall k, dget key_eqb e' k = overlaid e kwargs k).
Proof.
  intros N. unfold construct. rewrite N. split; [intros -> ->; auto|]. intros X. exists (fold_left (fun e kv => dset key_eqb e (Name (fst kv)) (snd kv)) kwargs e).
  split; [|intros k; apply overlay_ok]. destruct w; auto. destruct kwargs; auto. destruct X; [discriminate|tauto].
Qed.
Print Assumptions C128_construct.
Example C128_construct_case : construct [ODict false [(Name "a", At 1); (Number 2, At 2)]] 0 [("b", At 3); ("a", At 4)]
  = Ok ([ODict false [(Name "a", At 1); (Number 2, At 2)]; ODict true [(Name "a", At 4); (Number 2, At 2); (Name "b", At 3)]], 1).
Proof. reflexivity. Qed.
(** copy.copy gives another DictObject with the same items *)
Theorem C128_copy h p e : nth_error h p = Some (ODict true e) -> exists h' q, copied h p = Ok (h', q) /\ nth_error h' q = Some (ODict true e) /\ q <> p /\
  forall x, x < List.length h -> x <> q /\ nth_error h' x = nth_error h x.
Proof.
  intros N. exists (h ++ [ODict true e]), (List.length h). unfold copied. rewrite N. assert (L : p < List.length h) by (apply nth_error_Some; congruence). split; auto.
  split; [rewrite nth_error_app2, Nat.sub_diag by auto; auto|]. split; [lia|]. intros x X. split; [lia|]. apply nth_error_app1. auto.
Qed.
Print Assumptions C128_copy.

(** Where nothing contains itself copy.deepcopy ends. It gives new objects only, for every object one can get to exactly one, so that what
    was shared is shared; DictObjects stay DictObjects, and what was there is not changed. *)
Theorem C128_deepcopy_partial h v n fuel : closed h -> leads h v -> depth n h v -> n < fuel ->
  exists h' m v' f, deep fuel (h, []) v = Ok ((h', m), v') /\ (exists ext, h' = h ++ ext) /\ v' = moved f v /\
    (forall p, reach h v p -> exists o, nth_error h p = Some o /\ List.length h <= f p /\ nth_error h' (f p) = Some (moved_obj f o)) /\
    (forall p q, reach h v p -> reach h v q -> f p = f q -> p = q).
Proof. intros C. apply deep_spec. auto. Qed.
Print Assumptions C128_deepcopy_partial.
Definition shared_twice : heap := [ODict true [(Name "a", Ref 1); (Name "b", Ref 2)]; OList [Ref 2; At 5]; ODict true [(Number 1, At 6)]].
Example C128_deepcopy_case : closed shared_twice /\ leads shared_twice (Ref 0) /\ depth 3 shared_twice (Ref 0) /\
  deep 4 (shared_twice, []) (Ref 0) =
    Ok ((shared_twice ++ [ODict true [(Number 1, At 6)]; OList [Ref 3; At 5]; ODict true [(Name "a", Ref 4); (Name "b", Ref 3)]], [(2, 3); (1, 4); (0, 5)]), Ref 5).
Proof.
  split; [|split; [simpl; lia|split; [|reflexivity]]].
  - intros p o v N I. destruct p as [|[|[|p]]]; simpl in N; try (destruct p; discriminate); inversion N; subst; simpl in I; intuition; subst; simpl; auto; lia.
  - simpl. intros o x N I. inversion N; subst. simpl in I. destruct I as [<-|[<-|[]]]; simpl.
    + intros o x N' I. inversion N'; subst. destruct I as [<-|[<-|[]]]; simpl; auto. intros o x N2 I. inversion N2; subst. destruct I as [<-|[]]. simpl. auto.
    + intros o x N' I. inversion N'; subst. destruct I as [<-|[]]. simpl. auto.
Qed.
(** a DictObject that contains itself *)
Definition itself : heap := [ODict true [(Name "me", Ref 0)]].
Theorem C128_deepcopy_refuted : ~ (forall h v, closed h -> leads h v -> exists fuel s v', deep fuel (h, []) v = Ok (s, v')).
Proof.
  intros H. destruct (H itself (Ref 0)) as (fuel & s & v' & E); [|simpl; auto|].
  - intros p o v N I. destruct p as [|p]; simpl in N; [|destruct p; discriminate]. inversion N; subst. destruct I as [<-|[]]. simpl. auto.
  - revert s v' E. induction fuel as [|fuel IH]; intros s v' E; [discriminate|]. simpl in E. destruct (deep fuel (itself, []) (Ref 0)) as [[s1 v1]|e] eqn:D; [|discriminate]. apply (IH s1 v1). auto.
Qed.
Print Assumptions C128_deepcopy_refuted.

(** For a value that is a tree apply_dict_object ends and gives a tree with the same contents, every dictionary of which is a DictObject if
    those inside of DictObjects were so before. What was there is not changed. *)
Theorem C128_apply_partial h t v fuel : is_tree h t v -> height t < fuel -> exists h' v' t', applied fuel h v = Ok (h', v') /\
  (exists ext, h' = h ++ ext) /\ is_tree h' t' v' /\ plain t' = plain t /\ (objects_done t -> objects t').
Proof. intros T F. apply applied_ok; auto. Qed.
Print Assumptions C128_apply_partial.
Definition nested_dicts : heap := [ODict false [(Name "a", Ref 1); (Name "b", At 7)]; OList [Ref 2; At 5]; ODict false [(Number 1, At 6)]].
Definition nested_tree : tree := TDict false [(Name "a", TList [TDict false [(Number 1, TAt 6)]; TAt 5]); (Name "b", TAt 7)].
Example C128_apply_case : is_tree nested_dicts nested_tree (Ref 0) /\ objects_done nested_tree /\
  applied 4 nested_dicts (Ref 0) = Ok (nested_dicts ++ [ODict true [(Number 1, At 6)]; OList [Ref 3; At 5]; ODict true [(Name "a", Ref 4); (Name "b", At 7)]], Ref 5).
Proof.
  split; [|split; [simpl; tauto|reflexivity]]. simpl. exists 0, [(Name "a", Ref 1); (Name "b", At 7)]. repeat split; auto. exists 1, [Ref 2; At 5]. repeat split; auto. exists 2, [(Number 1, At 6)]. repeat split; auto.
Qed.
(** a DictObject is taken as it is, with the plain dictionaries in it *)
Definition half_done : heap := [ODict true [(Name "a", Ref 1)]; ODict false []].
Theorem C128_apply_refuted :
  ~ (forall h t v, is_tree h t v -> exists fuel h' v' t', applied fuel h v = Ok (h', v') /\ is_tree h' t' v' /\ plain t' = plain t /\ objects t').
Proof.
  intros H. destruct (H half_done (TDict true [(Name "a", TDict false [])]) (Ref 0)) as (fuel & h' & v' & t' & E & T & P & O).
  - simpl. exists 0, [(Name "a", Ref 1)]. repeat split; auto. exists 1, []. auto.
  - destruct fuel as [|fuel]; [discriminate|]. simpl in E. inversion E; subst. destruct t' as [z|l|w e]; simpl in P; try discriminate. inversion P as [P1].
    destruct e as [|[k t] [|? ?]]; try discriminate. simpl in *. inversion P1; subst. destruct T as (p & e & Q1 & Q2 & T). inversion Q1; subst. simpl in Q2. inversion Q2; subst.
    destruct T as (_ & T & _). destruct O as (_ & O & _). destruct t as [z|l|w' e]; try discriminate. simpl in T, O. destruct T as (p & e' & Q3 & Q4 & _). inversion Q3; subst. simpl in Q4. inversion Q4; subst. destruct O. discriminate.
Qed.
Print Assumptions C128_apply_refuted.
(** a list that contains itself *)
Theorem C128_apply_cycle_refuted : ~ (forall h v, closed h -> leads h v -> exists fuel h' v', applied fuel h v = Ok (h', v')).
Proof.
  intros H. destruct (H [OList [Ref 0]] (Ref 0)) as (fuel & s & v' & E); [|simpl; auto|].
  - intros p o v N I. destruct p as [|p]; simpl in N; [|destruct p; discriminate]. inversion N; subst. destruct I as [<-|[]]. simpl. auto.
  - revert s v' E. induction fuel as [|fuel IH]; intros s v' E; [discriminate|]. simpl in E. destruct (applied fuel [OList [Ref 0]] (Ref 0)) as [[s1 v1]|e] eqn:D; [|discriminate]. apply (IH s1 v1). auto.
Qed.
Print Assumptions C128_apply_cycle_refuted.
Theorem C128_full_statement_refuted : ~ C128_full_statement.
Proof. intros (H & _). exact (C128_attribute_refuted H). Qed.
Print Assumptions C128_full_statement_refuted.
