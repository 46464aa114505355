From Coq Require Import ZArith Lia.
From Verif Require Import Prelude PySeq_Model Adapter_Model Adapter_Spec.
Set Implicit Arguments.
Section P.
  Variable A : Type.
  Variable eqb : A -> A -> bool.
  Lemma nexts : forall k l os p, run eqb {| iterator := l; list_ := None; pointer := p |} (repeat Next k ++ os) =
    map (element l) (seq 0 k) ++ run eqb {| iterator := skipn k l; list_ := None; pointer := p |} os.
  Proof.
    induction k as [|k IH]; intros l os p; [reflexivity|].
    cbn [repeat app run step list_ iterator]. destruct l as [|a l].
    - rewrite IH. cbn [seq map element nth_error app]. rewrite <- seq_shift, map_map. rewrite skipn_nil. f_equal. f_equal.
      apply map_ext. intros i. unfold element. destruct i; reflexivity.
    - rewrite IH. cbn [seq map element nth_error app]. rewrite <- seq_shift, map_map. reflexivity.
  Qed.
  (** once unfolded *)
  Lemma after : forall os it l p, run eqb {| iterator := it; list_ := Some l; pointer := p |} os =
    (fix go os p := match os with [] => [] | Next :: t => element l p :: go t (S p) | o :: t => list_answer eqb l o :: go t p end) os p.
  Proof.
    induction os as [|o os IH]; intros it l p; [reflexivity|].
    destruct o; cbn [run step list_ unfold_ fst snd iterator pointer]; rewrite IH; reflexivity.
  Qed.
End P.

Lemma nth_error_skipn_ (A : Type) : forall k (l : list A) p, nth_error (skipn k l) p = nth_error l (k + p).
Proof. induction k as [|k IH]; intros [|a l] p; cbn; auto. destruct p; reflexivity. Qed.
Lemma skipn_S_nil (A : Type) : forall k (l : list A), skipn k l = [] -> skipn (S k) l = [].
Proof. induction k as [|k IH]; intros [|a l] H; cbn in *; auto; try discriminate; apply (IH l H). Qed.
Lemma skipn_S_cons (A : Type) : forall k (l : list A) a t, skipn k l = a :: t -> skipn (S k) l = t.
Proof. induction k as [|k IH]; intros [|b l] a t H; cbn in *; try discriminate; [congruence|]. apply (IH l a t H). Qed.
