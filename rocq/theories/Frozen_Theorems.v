(** Theorems about frozendict, Immutable and OmniHashableMixin *)
From Verif Require Import Prelude MoreFacts Frozen_Model Frozen_Spec Frozen_Proofs.

(** ** C50: frozendict cannot be changed and hashes by content *)
Definition C50_full_statement : Prop := forall (hk : Z -> Z) (hv : Z -> option Z) d ops, snd (frun Z.eqb hk hv d ops) = d.
(** Missing: what frozendict inherits from dict without forbidding it: del, pop, popitem, clear, setdefault, |= *)
Theorem C50_unchanged_partial : forall K V (keqb : K -> K -> bool) hk hv d (ops : list (fop K V)), Forall (@guarded K V) ops -> snd (frun keqb hk hv d ops) = d.
Proof. intros K V keqb hk hv d ops. exact (run_guarded K V keqb hk hv ops d). Qed.
Print Assumptions C50_unchanged_partial.
(** Writing raises TypeError. *)
Theorem C50_writes_raise : forall K V (keqb : K -> K -> bool) hk hv d (op : fop K V), writes op -> fstep keqb hk hv d op = (ORaised TypeError, d).
Proof. intros K V keqb hk hv d op W. destruct op; simpl in W; try contradiction; reflexivity. Qed.
Print Assumptions C50_writes_raise.
(** Equal frozendicts have equal hashes (or none of the two is hashable), in whatever order their items were inserted and whatever the hashes
    of keys and values are, provided that equal values have equal hashes. *)
Theorem C50_equal_hashes : forall K V (keqb : K -> K -> bool) (veqb : V -> V -> bool) hk hv, eqb_ok keqb -> (forall v w, veqb v w = true -> hv v = hv w) ->
  forall d e, dwf d -> dwf e -> dict_eq keqb veqb d e -> fhash hk hv d = fhash hk hv e.
Proof.
  intros K V keqb veqb hk hv kok C d e Wd We E. unfold fhash. rewrite !fhash_hsum, (equal_hash K V keqb veqb kok hk hv C d e Wd We E). reflexivity.
Qed.
Print Assumptions C50_equal_hashes.
Example C50_two_orders : dict_eq Z.eqb Z.eqb [(1, 10); (2, 20); (3, 30)]%Z [(3, 30); (1, 10); (2, 20)]%Z /\
  fhash (fun k => k * 7)%Z (fun v => Some (v * 3))%Z [(1, 10); (2, 20); (3, 30)]%Z = Ok 100%Z /\
  fhash (fun k => k * 7)%Z (fun v => Some (v * 3))%Z [(3, 30); (1, 10); (2, 20)]%Z = Ok 100%Z.
Proof.
  split; [split; [reflexivity|] | split; reflexivity]. intros k v. cbn [dget]. destruct (Z.eqb 1 k) eqn:E1; [|destruct (Z.eqb 2 k) eqn:E2; [|destruct (Z.eqb 3 k) eqn:E3; [|intros H; discriminate H]]]; intros H; inversion H; subst.
  - apply Z.eqb_eq in E1; subst. eexists; split; reflexivity.
  - apply Z.eqb_eq in E2; subst. eexists; split; reflexivity.
  - apply Z.eqb_eq in E3; subst. eexists; split; reflexivity.
Qed.
Theorem C50_full_statement_refuted : ~ C50_full_statement.
Proof. intros H. discriminate (H (fun k => k) (fun v => Some v) [(1, 2)]%Z [FPop 1%Z None]). Qed.
Print Assumptions C50_full_statement_refuted.
(** All of the inherited ones change it, and its hash with it. *)
Theorem C50_inherited_refuted : let d := [(1, 2); (3, 4)]%Z in let run op := snd (fstep Z.eqb (fun k => k) (fun v : Z => Some v) d op) in
  run (FDel 1%Z) = [(3, 4)]%Z /\ run (FPop 1%Z None) = [(3, 4)]%Z /\ run FPopitem = [(1, 2)]%Z /\ run FClear = [] /\
  run (FSetdefault 5 6)%Z = [(1, 2); (3, 4); (5, 6)]%Z /\ run (FIor [(1, 9)]%Z) = [(1, 9); (3, 4)]%Z /\
  fhash (fun k => k) (fun v : Z => Some v) d = Ok 4%Z /\ fhash (fun k => k) (fun v : Z => Some v) (run (FDel 1%Z)) = Ok 7%Z.
Proof. repeat split. Qed.
Print Assumptions C50_inherited_refuted.

(** ** C57: objects of an Immutable class keep the attributes that the constructor gave them *)
Definition C57_full_statement : Prop := forall (init ops : list (iop nat Z)), attrs (snd (irun Nat.eqb (iconstruct Nat.eqb init) ops)) = attrs (iconstruct Nat.eqb init).
(** Missing: an assignment to the attribute that holds the flag. *)
Theorem C57_unchanged_partial : forall A V (aeqb : A -> A -> bool) (init ops : list (iop A V)), Forall (@not_the_flag A V) ops ->
  irun aeqb (iconstruct aeqb init) ops = (repeat (Some TypeError) (length ops), iconstruct aeqb init).
Proof. intros A V aeqb init ops F. exact (locked_run A V aeqb ops _ (constructed_locked A V aeqb init) F). Qed.
Print Assumptions C57_unchanged_partial.
Example C57_an_object : irun Nat.eqb (iconstruct Nat.eqb [SetAttr 1 10%Z; SetAttr 2 20%Z; DelAttr 1]) [SetAttr 2 0%Z; DelAttr 2; DelFlag] =
  ([Some TypeError; Some TypeError; Some TypeError], mk_iobj (Some true) [(2, 20%Z)]).
Proof. reflexivity. Qed.
Theorem C57_full_statement_refuted : ~ C57_full_statement.
Proof. intros H. discriminate (H [SetAttr 1 10%Z] [SetFlag false; SetAttr 1 11%Z]). Qed.
Print Assumptions C57_full_statement_refuted.

(** ** C58: OmniHashableMixin gives an equality that is an equivalence and a hash that agrees with it *)
(** Objects are equal only if they are of the same class; a subclass does not count. *)
Theorem C58_equivalence : forall F V (veqb : V -> V -> bool) subclass (fields : nat -> F + list F), class_order subclass -> equivalence veqb ->
  (forall x, complete fields x -> py_eq veqb subclass fields x x = true) /\
  (forall x y, py_eq veqb subclass fields x y = py_eq veqb subclass fields y x) /\
  (forall x y z, py_eq veqb subclass fields x y = true -> py_eq veqb subclass fields y z = true -> py_eq veqb subclass fields x z = true).
Proof.
  intros F V veqb sub fields O E. repeat split.
  - exact (eq_refl' F V veqb sub fields O E).
  - exact (eq_sym' F V veqb sub fields O E).
  - exact (eq_trans' F V veqb sub fields O E).
Qed.
Print Assumptions C58_equivalence.
Theorem C58_not_equal : forall F V (veqb : V -> V -> bool) subclass (fields : nat -> F + list F) x y,
  py_ne veqb subclass fields x y = negb (py_eq veqb subclass fields x y).
Proof. intros F V veqb sub fields. exact (ne_neg F V veqb sub fields). Qed.
Print Assumptions C58_not_equal.
Theorem C58_equal_hashes : forall F V (veqb : V -> V -> bool) hv subclass (fields : nat -> F + list F), class_order subclass ->
  (forall v w, veqb v w = true -> hv v = hv w) ->
  forall x y, py_eq veqb subclass fields x y = true -> ohash hv fields x = ohash hv fields y /\ ohash hv fields x <> None.
Proof. intros F V veqb hv sub fields O C. exact (eq_same_hash F V veqb hv sub fields O C). Qed.
Print Assumptions C58_equal_hashes.
(** What equal means, independently of how it is computed: same class and each of the fields there and equal. *)
Theorem C58_meaning : forall F V (veqb : V -> V -> bool) subclass (fields : nat -> F + list F), class_order subclass ->
  forall x y, py_eq veqb subclass fields x y = true <->
    cls x = cls y /\ forall f, match fields (cls x) with inl g => f = g | inr l => In f l end ->
      exists v w, attr x f = Some v /\ attr y f = Some w /\ veqb v w = true.
Proof. intros F V veqb sub fields O. exact (eq_meaning F V veqb sub fields O). Qed.
Print Assumptions C58_meaning.
Definition sub3 (a b : nat) : bool := (a =? b) || ((a =? 2) && (b =? 1)).
Definition point (x y : Z) (f : nat) : option Z := match f with 0 => Some x | 1 => Some y | _ => None end.
Definition xy (c : nat) : nat + list nat := inr [0; 1].
Example C58_points : class_order sub3 /\ py_eq Z.eqb sub3 xy (mk_obj 1 (point 3 4)) (mk_obj 1 (point 3 4)) = true /\
  py_eq Z.eqb sub3 xy (mk_obj 1 (point 3 4)) (mk_obj 1 (point 4 3)) = false /\ py_eq Z.eqb sub3 xy (mk_obj 1 (point 3 4)) (mk_obj 2 (point 3 4)) = false /\
  complete xy (mk_obj 1 (point 3 4)).
Proof.
  split.
  - split; intros a; unfold sub3. + now rewrite Nat.eqb_refl.
    + intros b A B. destruct (a =? b) eqn:E1; [now apply Nat.eqb_eq|]. rewrite Nat.eqb_sym, E1 in B. simpl in A, B.
      apply andb_true_iff in A as [A1 A2], B as [B1 B2]. apply Nat.eqb_eq in A1, B2. congruence.
  - repeat split. intros f I. simpl in *. destruct I as [<-|[<-|[]]]; discriminate.
Qed.
