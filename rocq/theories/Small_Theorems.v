(** C80: theorems. *)
From Coq Require Import QArith.Qcanon.
From Verif Require Import Prelude Small_Model Small_Spec Small_Proofs.
Local Open Scope nat_scope.

(** ** Vector *)
(** Addition and subtraction are place by place, for vectors of one length. *)
Theorem C80_add_sub : forall a b, length a = length b -> placewise Qcplus a b (vadd a b) /\ placewise Qcminus a b (vsub a b).
Proof. intros a b L. split; [apply add_placewise; auto|apply sub_placewise; auto]. Qed.
Print Assumptions C80_add_sub.
Theorem C80_mul_div : forall a k, scaled (fun x => x * k)%Qc a (vmul a k) /\
  ((k <> 0)%Qc -> exists c, vdiv a k = Ok c /\ scaled (fun x => x / k)%Qc a c) /\ (a <> [] -> vdiv a 0%Qc = Err ZeroDivision).
Proof. intros a k. split; [apply mul_scaled|]. split; [apply div_scaled|apply div_zero]. Qed.
Print Assumptions C80_mul_div.
(** The laws of vector spaces; for sums without conditions on lengths. *)
Theorem C80_laws : (forall a b, vadd a b = vadd b a) /\ (forall a b c, vadd a (vadd b c) = vadd (vadd a b) c) /\
  (forall a b k, vmul (vadd a b) k = vadd (vmul a k) (vmul b k)) /\ (forall a j k, vmul (vmul a j) k = vmul a (j * k)%Qc) /\
  (forall a k, (k <> 0)%Qc -> vdiv (vmul a k) k = Ok a).
Proof. exact (conj vadd_comm (conj vadd_assoc (conj vmul_vadd (conj vmul_vmul vdiv_vmul)))). Qed.
Print Assumptions C80_laws.
(** Subtraction undoes addition. *)
Definition C80_undo_full_statement : Prop := forall a b, vsub (vadd a b) b = a /\ vadd (vsub a b) b = a.
Theorem C80_undo_partial : forall a b, length a = length b -> vsub (vadd a b) b = a /\ vadd (vsub a b) b = a.
Proof. intros a b L. split; [apply vadd_vsub; auto|apply vsub_vadd; auto]. Qed.
Print Assumptions C80_undo_partial.
(** With vectors of different lengths the places of the longer one are lost, not refused. *)
Theorem C80_lengths_refuted : forall a, vadd a [] = [] /\ vsub [] a = [].
Proof. intros a. split; [destruct a; reflexivity|reflexivity]. Qed.
Print Assumptions C80_lengths_refuted.
Theorem C80_undo_full_statement_refuted : ~ C80_undo_full_statement.
Proof. intros H. destruct (H [1%Qc] []) as [E _]. discriminate E. Qed.
Print Assumptions C80_undo_full_statement_refuted.
(** 2 * a is not a * 2: it is a followed by a. *)
Theorem C80_rmul_refuted : forall a n, length (vrmul n a) = n * length a.
Proof. intros a n. unfold vrmul. induction n; simpl; auto. rewrite app_length, IHn. reflexivity. Qed.
Print Assumptions C80_rmul_refuted.
Example C80_met : let a := [1; 1 + 1]%Qc in let b := [1 + 1 + 1; 1]%Qc in length a = length b /\ vadd a b = [1 + 1 + 1 + 1; 1 + 1 + 1]%Qc /\ vdiv (vmul a (1 + 1)%Qc) (1 + 1)%Qc = Ok a.
Proof.
  intros a b. split; [reflexivity|]. split; [|apply C80_laws; discriminate].
  unfold a, b, vadd. simpl. repeat (apply f_equal2; [apply Qc_is_canon; vm_compute; reflexivity|]). reflexivity.
Qed.

(** ** SetZip *)
(** Membership, iteration and addition of a set are those of the union; the length is how many elements the iteration gives. *)
Theorem C80_union : forall (K : Type) (eqb : K -> K -> bool), eqb_ok eqb -> forall z x,
  (sz_contains eqb z x = true <-> exists s, In s z /\ In x s) /\ (In x (sz_iter z) <-> exists s, In s z /\ In x s) /\ length (sz_iter z) = sz_len z /\
  forall s, sz_contains eqb (sz_iadd z s) x = true <-> sz_contains eqb z x = true \/ In x s.
Proof. intros K eqb ok z x. split; [apply contains_union; auto|]. split; [apply iter_union|]. split; [apply len_iter|]. intros s. apply iadd_union; auto. Qed.
Print Assumptions C80_union.
(** It has as many elements as the union. *)
Definition C80_len_full_statement : Prop := forall (K : Type) (z : setzip K), (forall s, In s z -> NoDup s) -> union_size z (sz_len z) /\ NoDup (sz_iter z).
Theorem C80_len_partial : forall (K : Type) (z : setzip K), (forall s, In s z -> NoDup s) -> disjoint z -> union_size z (sz_len z) /\ NoDup (sz_iter z).
Proof. intros K z W D. split; [apply len_union; auto|apply iter_nodup; auto]. Qed.
Print Assumptions C80_len_partial.
(** An element of two sets is counted and given twice. *)
Theorem C80_len_full_statement_refuted : ~ C80_len_full_statement.
Proof.
  intros H. destruct (H nat [[1]; [1]]) as [_ N]; [intros s [<-|[<-|[]]]; repeat constructor; auto|].
  inversion N as [|? ? NI _]; subst. apply NI. simpl; auto.
Qed.
Print Assumptions C80_len_full_statement_refuted.
Example C80_sets_met : disjoint [[1; 2]; [3]] /\ union_size [[1; 2]; [3]] 3.
Proof.
  assert (D : disjoint [[1; 2]; [3]]).
  { intros [|[|[|i]]] [|[|[|j]]] s t x E1 E2 I J; simpl in *; try discriminate; auto; injection E1 as <-; injection E2 as <-; simpl in I, J; lia. }
  split; auto. apply (C80_len_partial nat [[1; 2]; [3]]); auto. intros s [<-|[<-|[]]]; repeat constructor; simpl; lia.
Qed.

(** ** HashableWrapper *)
(** Wrappers are equal if they wrap the same object, and then hash equal; a wrapper equals what it wraps. [same]: an identity is of one object. *)
Theorem C80_equal_hashes : forall (C : Type) (hash_of : C -> option Z) (a b : obj C), (o_id a = o_id b -> a = b) ->
  (hw_eq a (AWrapper b) = true <-> a = b) /\ (hw_eq a (AnObject b) = true <-> a = b) /\
  (hw_eq a (AWrapper b) = true -> hw_hash hash_of a = hw_hash hash_of b).
Proof.
  intros C hash_of a b S. assert (E : hw_eq a (AWrapper b) = true <-> a = b).
  { simpl. rewrite Z.eqb_eq. split; [auto|intros ->; auto]. }
  split; [exact E|]. split; [exact E|]. intros H. apply E in H as ->. reflexivity.
Qed.
Print Assumptions C80_equal_hashes.
(** An object that can not be hashed has its identity for a hash, and keeps it when its content changes. *)
Theorem C80_hash_stays : forall (C : Type) (hash_of : C -> option Z) i (c d : C), hash_of c = None -> hash_of d = None ->
  hw_hash hash_of (MkObj i c) = i /\ hw_hash hash_of (MkObj i d) = i.
Proof. intros C hash_of i c d E F. unfold hw_hash. simpl. rewrite E, F. auto. Qed.
Print Assumptions C80_hash_stays.
(** != is the negation of ==. *)
Definition C80_not_equal_full_statement : Prop := forall (C : Type) (oeq : C -> C -> bool) a x, hw_ne oeq a x = negb (hw_eq a x).
(** It compares contents: two wrappers of lists with the same elements are neither equal nor unequal. *)
Theorem C80_not_equal_full_statement_refuted : ~ C80_not_equal_full_statement.
Proof. intros H. specialize (H nat Nat.eqb (MkObj 1 5) (AWrapper (MkObj 2 5))). discriminate H. Qed.
Print Assumptions C80_not_equal_full_statement_refuted.
Theorem C80_not_equal_partial : forall (C : Type) (oeq : C -> C -> bool) a b, (oeq (o_content a) (o_content b) = true <-> o_id a = o_id b) ->
  hw_ne oeq a (AWrapper b) = negb (hw_eq a (AWrapper b)) /\ hw_ne oeq a (AnObject b) = negb (hw_eq a (AnObject b)).
Proof.
  intros C oeq a b H. simpl. assert (E : oeq (o_content a) (o_content b) = (o_id a =? o_id b)%Z).
  { destruct (Z.eqb_spec (o_id a) (o_id b)) as [E|N]; [apply H; auto|]. destruct (oeq (o_content a) (o_content b)); auto. exfalso. apply N, H. reflexivity. }
  rewrite E. auto.
Qed.
Print Assumptions C80_not_equal_partial.
