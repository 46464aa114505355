(** C42: collections of metric data. *)
From Coq Require Import String.
From Verif Require Import Prelude MetricData_Model MetricData_Spec MetricData_Proofs.
Import ListNotations.
Open Scope list_scope.

(** a + b and a += b: one datum for every name and labels of either, that of b if both have it *)
Theorem C42_union_partial : forall (Lab V : Type) (leqb : Lab -> Lab -> bool), eqb_ok leqb -> forall (hash : string * Lab -> Z) (hp : heap Lab V) a b,
  valid hash hp a -> valid hash hp b ->
  valid hash hp (add_coll leqb hash hp a b) /\
  forall d, In d (contents hp (add_coll leqb hash hp a b)) <->
    In d (contents hp b) \/ (In d (contents hp a) /\ ~ exists d', In d' (contents hp b) /\ dkey d' = dkey d).
Proof. exact add_coll_ok. Qed.
Print Assumptions C42_union_partial.
(** a + datum and a += datum: the datum replaces the one of the same name and labels *)
Theorem C42_datum_partial : forall (Lab V : Type) (leqb : Lab -> Lab -> bool), eqb_ok leqb -> forall (hash : string * Lab -> Z) (hp : heap Lab V) s i,
  valid hash hp s -> valid hash hp (add_datum leqb hash hp s i) /\
  forall d, In d (contents hp (add_datum leqb hash hp s i)) <-> d = hp i \/ (In d (contents hp s) /\ dkey d <> dkey (hp i)).
Proof. exact add_datum_ok. Qed.
Print Assumptions C42_datum_partial.
(** set_value and set_timestamp change exactly that *)
Theorem C42_set_value : forall (Lab V : Type) (hash : string * Lab -> Z) (hp : heap Lab V) s v,
  valid hash hp s -> valid hash (change_all (with_value v) hp s) s /\ contents (change_all (with_value v) hp s) s = map (with_value v) (contents hp s).
Proof. exact (fun Lab V hash hp s v => change_ok Lab V hash (with_value v) hp s (fun _ => eq_refl)). Qed.
Print Assumptions C42_set_value.
Theorem C42_set_timestamp : forall (Lab V : Type) (hash : string * Lab -> Z) (hp : heap Lab V) s t,
  valid hash hp s -> valid hash (change_all (with_time t) hp s) s /\ contents (change_all (with_time t) hp s) s = map (with_time t) (contents hp s).
Proof. exact (fun Lab V hash hp s t => change_ok Lab V hash (with_time t) hp s (fun _ => eq_refl)). Qed.
Print Assumptions C42_set_timestamp.
(** prefix_with and postfix_with rename every datum *)
Theorem C42_prefix : forall (Lab V : Type) (hp : heap Lab V) s p, one_per_key hp s ->
  contents (change_all (prefixed p) hp s) s = map (prefixed p) (contents hp s).
Proof. exact (fun Lab V hp s p => change_contents Lab V (fun _ => 0%Z) (prefixed p) hp s). Qed.
Print Assumptions C42_prefix.
Theorem C42_postfix : forall (Lab V : Type) (hp : heap Lab V) s p, one_per_key hp s ->
  contents (change_all (postfixed p) hp s) s = map (postfixed p) (contents hp s).
Proof. exact (fun Lab V hp s p => change_contents Lab V (fun _ => 0%Z) (postfixed p) hp s). Qed.
Print Assumptions C42_postfix.
(** add_labels: every datum gets the labels; of those that become equal one stays; the collection is valid, whatever it was *)
Theorem C42_add_labels : forall (Lab V : Type) (leqb : Lab -> Lab -> bool), eqb_ok leqb -> forall (hash : string * Lab -> Z) lmerge l (hp : heap Lab V) s,
  one_per_key hp s -> let r := add_labels leqb lmerge hash l hp s in
  valid hash (fst r) (snd r) /\
  (forall d, In d (contents (fst r) (snd r)) -> exists d0, In d0 (contents hp s) /\ d = with_labels lmerge l d0) /\
  (forall d0, In d0 (contents hp s) -> exists d, In d (contents (fst r) (snd r)) /\ dkey d = dkey (with_labels lmerge l d0)) /\
  (forall i, ~ In i (map snd s) -> fst r i = hp i).
Proof. exact add_labels_ok. Qed.
Print Assumptions C42_add_labels.
(** The labels given win over those the datum had; the others stay. *)
Theorem C42_new_labels_win : forall (K W V : Type) (keqb : K -> K -> bool), eqb_ok keqb -> forall (l : dict K W) (d : datum (dict K W) V) k, NoDup (map fst l) ->
  dget keqb (d_labels (with_labels (label_merge keqb) l d)) k = match dget keqb l k with Some v => Some v | None => dget keqb (d_labels d) k end /\
  d_name (with_labels (label_merge keqb) l d) = d_name d /\ d_value (with_labels (label_merge keqb) l d) = d_value d.
Proof. intros K W V keqb ok l d k wf. split; [exact (label_merge_get keqb ok l wf (d_labels d) k)|split; reflexivity]. Qed.
Print Assumptions C42_new_labels_win.
(** What a name is after prefix_with and postfix_with. *)
Theorem C42_names : forall (Lab V : Type) p (d : datum Lab V), p <> ""%string -> d_name d <> ""%string ->
  d_name (prefixed p d) = (p ++ "." ++ d_name d)%string /\ d_name (postfixed p d) = (d_name d ++ "." ++ p)%string /\
  d_value (prefixed p d) = d_value d /\ d_labels (prefixed p d) = d_labels d /\ d_value (postfixed p d) = d_value d /\ d_labels (postfixed p d) = d_labels d.
Proof. exact names_joined. Qed.
Print Assumptions C42_names.
Theorem C42_remove_internals : forall (Lab V : Type) (leqb : Lab -> Lab -> bool), eqb_ok leqb -> forall (hash : string * Lab -> Z) (hp : heap Lab V) s,
  one_per_key hp s -> valid hash hp (remove_internals leqb hash hp s) /\
  forall d, In d (contents hp (remove_internals leqb hash hp s)) <-> In d (contents hp s) /\ d_internal d = false.
Proof. exact remove_internals_ok. Qed.
Print Assumptions C42_remove_internals.
(** strict_eq: the same names and labels with the same values *)
Theorem C42_strict_eq : forall (Lab V : Type) (leqb : Lab -> Lab -> bool), eqb_ok leqb -> forall veqb : V -> V -> bool, eqb_ok veqb -> forall (hp : heap Lab V) a b,
  one_per_key hp a -> one_per_key hp b -> strict_eq leqb veqb hp a b = true <->
  forall k v, (exists d, In d (contents hp a) /\ dkey d = k /\ d_value d = v) <-> (exists d, In d (contents hp b) /\ dkey d = k /\ d_value d = v).
Proof. exact (fun Lab V leqb lok => strict_eq_ok Lab V leqb lok (fun _ => 0%Z)). Qed.
Print Assumptions C42_strict_eq.
(** from_json(to_json(d)) is d, in every field *)
Theorem C42_json : forall d, plain_labels (j_labels d) -> boolean (j_internal d) -> from_json (to_json d) = Ok d.
Proof. exact json_one_ok. Qed.
Print Assumptions C42_json.
(** from_json of any dict: KeyError unless it has a name and a value; otherwise what is not reserved are the labels *)
Theorem C42_from_json : forall x : jdict, NoDup (map fst x) ->
  match dget String.eqb x "_name"%string, dget String.eqb x "_"%string with
  | Some name, Some value =>
    exists d, from_json x = Ok d /\ j_name d = name /\ j_value d = value /\
      j_time d = match dget String.eqb x "_timestamp"%string with Some t => t | None => JNull end /\
      j_internal d = match dget String.eqb x "_internal"%string with Some i => i | None => JBool false end /\
      forall k, dget String.eqb (j_labels d) k = if in_dec string_dec k reserved then None else dget String.eqb x k
  | _, _ => from_json x = Err KeyError
  end.
Proof. exact from_json_ok. Qed.
Print Assumptions C42_from_json.
(** a field that is false is not written *)
Theorem C42_to_json_quiet : forall d, plain_labels (j_labels d) -> j_time d = JNull -> j_internal d = JNull \/ j_internal d = JBool false ->
  to_json d = ("_name"%string, j_name d) :: ("_"%string, j_value d) :: j_labels d.
Proof. exact to_json_quiet. Qed.
Print Assumptions C42_to_json_quiet.

(** ** examples. Labels are numbers; the hash is the length of the name. *)
Definition C42_hash (k : string * nat) : Z := Z.of_nat (String.length (fst k)).
Definition C42_d (n : string) (v : Z) : datum nat Z := {| d_name := n; d_value := v; d_labels := 0%nat; d_time := None; d_internal := false |}.
Definition C42_heap : heap nat Z := fun i => nth i [C42_d "a" 1; C42_d "b" 2; C42_d "b" 3; C42_d "c" 4]%string (C42_d "" 0).
Example C42_example :
  let a := pset_of Nat.eqb C42_hash C42_heap [0; 1]%nat in let b := pset_of Nat.eqb C42_hash C42_heap [2; 3]%nat in
  valid C42_hash C42_heap a /\ valid C42_hash C42_heap b /\ contents C42_heap (add_coll Nat.eqb C42_hash C42_heap a b) = [C42_d "b" 3; C42_d "c" 4; C42_d "a" 1]%string.
Proof.
  split; [|split].
  - split; [intros e H; simpl in H; repeat destruct H as [<-|H]; auto; destruct H|]. vm_compute. repeat constructor; simpl; intuition congruence.
  - split; [intros e H; simpl in H; repeat destruct H as [<-|H]; auto; destruct H|]. vm_compute. repeat constructor; simpl; intuition congruence.
  - vm_compute. auto.
Qed.
Example C42_json_example :
  from_json (to_json {| j_name := JStr "m"; j_value := JNum 5; j_labels := [("k"%string, JStr "v")]; j_time := JNum 7; j_internal := JBool true |}) =
  Ok {| j_name := JStr "m"; j_value := JNum 5; j_labels := [("k"%string, JStr "v")]; j_time := JNum 7; j_internal := JBool true |}.
Proof. vm_compute. auto. Qed.

(** ** refutations *)
Definition C42_full_statement : Prop :=
  forall (hash : string * nat -> Z) (hp : heap nat Z) a p i, valid hash hp a ->
  one_per_key (change_all (prefixed p) hp a) a ->
  one_per_key (change_all (prefixed p) hp a) (add_datum Nat.eqb hash (change_all (prefixed p) hp a) a i).
(** after prefix_with the set looks its elements up by their old hashes: a datum of the same name and labels is added beside
    the old one instead of replacing it, whenever the two hashes differ *)
Theorem C42_stale_hash_refuted : forall hash : string * nat -> Z, hash ("p.a"%string, 0%nat) <> hash ("a"%string, 0%nat) ->
  let hp := fun i => nth i [C42_d "a" 1; C42_d "p.a" 2]%string (C42_d "" 0) in
  let s := pset_of Nat.eqb hash hp [0%nat] in
  let hp' := change_all (prefixed "p") hp s in
  valid hash hp s /\ contents hp' (add_datum Nat.eqb hash hp' s 1%nat) = [C42_d "p.a" 1; C42_d "p.a" 2]%string /\
  contents hp' (add_coll Nat.eqb hash hp' (pset_of Nat.eqb hash hp' [1%nat]) s) = [C42_d "p.a" 1; C42_d "p.a" 2]%string.
Proof.
  intros hash N hp s hp'.
  assert (E : Z.eqb (hash ("a"%string, 0%nat)) (hash ("p.a"%string, 0%nat)) = false) by (apply Z.eqb_neq; congruence).
  split; [|split].
  - split; [intros e [<-|[]]; reflexivity|]. repeat constructor. intros [].
  - assert (P : pin Nat.eqb hash hp' 1%nat s = false). { change ((Z.eqb (hash ("a"%string, 0%nat)) (hash ("p.a"%string, 0%nat)) && true) || false = false)%bool. rewrite E. auto. }
    unfold add_datum. rewrite P. unfold padd. rewrite P. reflexivity.
  - assert (Q : pset_of Nat.eqb hash hp' [1%nat] = [(hash ("p.a"%string, 0%nat), 1%nat)]) by reflexivity. rewrite Q. unfold add_coll. cbn [fold_left snd].
    assert (P : pin Nat.eqb hash hp' 1%nat s = false). { change ((Z.eqb (hash ("a"%string, 0%nat)) (hash ("p.a"%string, 0%nat)) && true) || false = false)%bool. rewrite E. auto. }
    unfold padd. rewrite P. reflexivity.
Qed.
Print Assumptions C42_stale_hash_refuted.
Theorem C42_full_statement_refuted : ~ C42_full_statement.
Proof.
  intros H. specialize (H C42_hash (fun i => nth i [C42_d "a" 1; C42_d "p.a" 2]%string (C42_d "" 0)) [(1%Z, 0%nat)] "p"%string 1%nat).
  assert (X : NoDup [("p.a"%string, 0%nat); ("p.a"%string, 0%nat)]).
  { apply H.
    - split; [intros e [<-|[]]; reflexivity|]. repeat constructor. intros [].
    - repeat constructor. intros []. }
  inversion X as [|? ? NI _]. apply NI. left. auto.
Qed.
Print Assumptions C42_full_statement_refuted.
(** a + b shares its data with a: renaming those of the sum renames those of a, and a's hashes are out of date *)
Theorem C42_shared_refuted :
  let a := pset_of Nat.eqb C42_hash C42_heap [0; 1]%nat in let c := add_coll Nat.eqb C42_hash C42_heap a [] in
  let hp' := change_all (prefixed "p") C42_heap c in
  contents C42_heap a = [C42_d "a" 1; C42_d "b" 2]%string /\ contents hp' a = [C42_d "p.a" 1; C42_d "p.b" 2]%string /\ ~ up_to_date C42_hash hp' a.
Proof.
  split; [vm_compute; auto|]. split; [vm_compute; auto|]. intros U. specialize (U (1%Z, 0%nat) (or_introl eq_refl)). vm_compute in U. discriminate.
Qed.
Print Assumptions C42_shared_refuted.
(** a label with a reserved name replaces the field *)
Theorem C42_json_reserved_refuted :
  from_json (to_json {| j_name := JStr "m"; j_value := JNum 5; j_labels := [("_name"%string, JStr "v")]; j_time := JNull; j_internal := JBool false |}) =
  Ok {| j_name := JStr "v"; j_value := JNum 5; j_labels := []; j_time := JNull; j_internal := JBool false |}.
Proof. vm_compute. auto. Qed.
Print Assumptions C42_json_reserved_refuted.
