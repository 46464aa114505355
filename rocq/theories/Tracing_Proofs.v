From Coq Require Import String Lia.
From Verif Require Import Prelude PreludeFacts Schema_Proofs Tracing_Model Tracing_Spec.
Set Implicit Arguments.
Open Scope list_scope.

Lemma substring_all s : forall n, String.length s <= n -> substring 0 n s = s.
Proof. induction s as [|c t IH]; intros [|n] H; simpl in *; try reflexivity; [lia|]. rewrite IH; [reflexivity|lia]. Qed.
Lemma substring_rest s : forall n, exists rest, s = (substring 0 n s ++ rest)%string.
Proof.
  induction s as [|c t IH]; intros [|n]; simpl; [exists EmptyString; reflexivity|exists EmptyString; reflexivity|exists (String c t); reflexivity|].
  destruct (IH n) as (r & E). exists r. congruence.
Qed.

Section Facts.
  Variables A V R : Type.
  Lemma find_app T (p : T -> bool) l1 l2 : find p (l1 ++ l2) = match find p l1 with Some x => Some x | None => find p l2 end.
  Proof. induction l1 as [|x t IH]; simpl; [reflexivity|]. destruct (p x); auto. Qed.
  Lemma build_ok (fs : list (string * factory A V)) args : forall d,
    (forall n f, In (n, f) fs -> exists v, spread f args = Ok v) ->
    exists d', build fs args d = Ok d' /\ forall n, dget String.eqb d' n = tag_of fs d args n.
  Proof.
    induction fs as [|[k f] t IH]; intros d H; simpl; [exists d; split; reflexivity|].
    destruct (H k f (or_introl eq_refl)) as (v & E). rewrite E.
    destruct (IH (dset String.eqb d k v) (fun n g Hi => H n g (or_intror Hi))) as (d' & E' & D). exists d'. split; [exact E'|].
    intros n. rewrite D. unfold tag_of. simpl rev. rewrite find_app. destruct (find _ (rev t)) as [[k' f']|]; [reflexivity|]. simpl.
    destruct (String.eqb_spec k n) as [->|Hn]; [rewrite E; apply (dget_dset_eq streqb_ok)|apply (dget_dset_neq streqb_ok); auto].
  Qed.
End Facts.
