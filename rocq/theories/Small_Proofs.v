From Coq Require Import QArith.Qcanon.
From Verif Require Import Prelude PreludeFacts MoreFacts Small_Model Small_Spec.
Local Open Scope nat_scope.

Lemma combine_nth_error : forall A B (a : list A) (b : list B) i x y, nth_error a i = Some x -> nth_error b i = Some y -> nth_error (combine a b) i = Some (x, y).
Proof.
  induction a as [|h a IH]; intros b [|i] x y E1 E2; destruct b; simpl in *; try discriminate; [congruence|auto].
Qed.
Lemma placewise_map : forall f a b, length a = length b -> placewise f a b (map (fun p => f (fst p) (snd p)) (combine a b)).
Proof.
  intros f a b L. split; auto. split; [rewrite map_length, combine_length; lia|]. intros i x y E1 E2.
  rewrite nth_error_map, (combine_nth_error _ _ _ _ _ _ _ E1 E2). reflexivity.
Qed.
Lemma add_placewise : forall a b, length a = length b -> placewise Qcplus a b (vadd a b).
Proof. intros. apply placewise_map; auto. Qed.
Lemma sub_placewise : forall a b, length a = length b -> placewise Qcminus a b (vsub a b).
Proof. intros. apply (placewise_map Qcminus); auto. Qed.
Lemma scaled_map : forall f a, scaled f a (map f a).
Proof. intros f a. split; [apply map_length|]. intros i x E. rewrite nth_error_map, E. reflexivity. Qed.
Lemma mul_scaled : forall a k, scaled (fun x => x * k)%Qc a (vmul a k).
Proof. intros. apply scaled_map. Qed.
Lemma div_scaled : forall a k, (k <> 0)%Qc -> exists c, vdiv a k = Ok c /\ scaled (fun x => x / k)%Qc a c.
Proof.
  intros [|x a] k N; simpl; [exists []; split; auto; apply (scaled_map _ [])|]. destruct (Qc_eq_dec k 0) as [->|_]; [congruence|].
  eexists. split; [reflexivity|]. apply (scaled_map (fun x => x / k)%Qc (x :: a)).
Qed.
Lemma div_zero : forall a, a <> [] -> vdiv a 0%Qc = Err ZeroDivision.
Proof. intros [|x a] N; [congruence|]. reflexivity. Qed.

Lemma vadd_comm : forall a b, vadd a b = vadd b a.
Proof. induction a as [|x a IH]; intros [|y b]; auto. unfold vadd in *. simpl. rewrite IH. f_equal. ring. Qed.
Lemma vadd_assoc : forall a b c, vadd a (vadd b c) = vadd (vadd a b) c.
Proof. induction a as [|x a IH]; intros [|y b] [|z c]; auto. unfold vadd in *. simpl. rewrite IH. f_equal. ring. Qed.
Lemma vsub_vadd : forall a b, length a = length b -> vadd (vsub a b) b = a.
Proof. induction a as [|x a IH]; intros [|y b] L; auto; try discriminate. unfold vadd, vsub in *. simpl. rewrite IH by (injection L; auto). f_equal. ring. Qed.
Lemma vadd_vsub : forall a b, length a = length b -> vsub (vadd a b) b = a.
Proof. induction a as [|x a IH]; intros [|y b] L; auto; try discriminate. unfold vadd, vsub in *. simpl. rewrite IH by (injection L; auto). f_equal. ring. Qed.
Lemma vmul_vadd : forall a b k, vmul (vadd a b) k = vadd (vmul a k) (vmul b k).
Proof. induction a as [|x a IH]; intros [|y b] k; auto. unfold vadd, vmul in *. simpl. rewrite IH. f_equal. ring. Qed.
Lemma vmul_vmul : forall a j k, vmul (vmul a j) k = vmul a (j * k)%Qc.
Proof. induction a as [|x a IH]; intros j k; auto. unfold vmul in *. simpl. rewrite IH. f_equal. ring. Qed.
Lemma vdiv_vmul : forall a k, (k <> 0)%Qc -> vdiv (vmul a k) k = Ok a.
Proof.
  intros a k N. assert (H : map (fun x => x / k)%Qc (vmul a k) = a).
  { induction a as [|x a IH]; auto. unfold vmul in *. simpl. rewrite IH. f_equal. unfold Qcdiv. rewrite <- Qcmult_assoc, Qcmult_inv_r by auto. apply Qcmult_1_r. }
  unfold vdiv. destruct (vmul a k) as [|y l] eqn:E; [rewrite <- H; reflexivity|]. destruct (Qc_eq_dec k 0); [congruence|]. rewrite <- E in *. rewrite E. rewrite <- E. f_equal. exact H.
Qed.

Section Z.
  Variable K : Type.
  Variable eqb : K -> K -> bool.
  Hypothesis ok : eqb_ok eqb.
  Lemma contains_union : forall z x, sz_contains eqb z x = true <-> exists s, In s z /\ In x s.
  Proof.
    intros z x. unfold sz_contains. rewrite existsb_exists. split; intros (s & I & J); exists s; split; auto; apply (memb_In ok); auto.
  Qed.
  Lemma iter_union : forall (z : setzip K) x, In x (sz_iter z) <-> exists s, In s z /\ In x s.
  Proof. intros. apply in_concat. Qed.
  Lemma len_iter : forall (z : setzip K), length (sz_iter z) = sz_len z.
  Proof. unfold sz_iter. induction z as [|s z IH]; simpl; auto. rewrite app_length, IH. reflexivity. Qed.
  Lemma iter_nodup : forall (z : setzip K), (forall s, In s z -> NoDup s) -> disjoint z -> NoDup (sz_iter z).
  Proof.
    induction z as [|s z IH]; intros W D; [constructor|]. unfold sz_iter in *. simpl. apply NoDup_app_intro; [apply W; simpl; auto| |].
    - apply IH; [intros; apply W; simpl; auto|]. intros i j a b x E1 E2 I1 I2. specialize (D (S i) (S j) a b x E1 E2 I1 I2). lia.
    - intros x I J. apply in_concat in J as (t & J & L). apply In_nth_error in J as [j J]. specialize (D 0 (S j) s t x eq_refl J I L). discriminate.
  Qed.
  Lemma len_union : forall (z : setzip K), (forall s, In s z -> NoDup s) -> disjoint z -> union_size z (sz_len z).
  Proof.
    intros z W D. exists (sz_iter z). split; [apply iter_nodup; auto|]. split; [apply iter_union|]. apply len_iter.
  Qed.
  Lemma iadd_union : forall (z : setzip K) s x, sz_contains eqb (sz_iadd z s) x = true <-> sz_contains eqb z x = true \/ In x s.
  Proof.
    intros z s x. rewrite !contains_union. unfold sz_iadd. split.
    - intros (t & I & J). apply in_app_or in I as [I|[<-|[]]]; eauto.
    - intros [(t & I & J)|J]; [exists t; split; auto; apply in_or_app; auto|]. exists s. split; auto. apply in_or_app. simpl; auto.
  Qed.
End Z.
