(** More facts about lists, shared by several areas. *)
From Verif Require Import Prelude PreludeFacts.

Lemma zeqb_ok : eqb_ok Z.eqb.
Proof. exact Z.eqb_eq. Qed.

Lemma nateqb_ok : eqb_ok Nat.eqb.
Proof. exact Nat.eqb_eq. Qed.

Lemma NoDup_app_intro {A} (l1 l2 : list A) :
  NoDup l1 -> NoDup l2 -> (forall x, In x l1 -> ~ In x l2) -> NoDup (l1 ++ l2).
Proof.
  induction l1 as [|h t IH]; simpl; intros H1 H2 H3; auto.
  inversion H1; subst. constructor.
  - intros H. apply in_app_or in H. destruct H as [H|H]; [auto|]. exact (H3 h (or_introl eq_refl) H).
  - apply IH; auto.
Qed.

Lemma skipn_nth {A} (l : list A) n : skipn n l = match nth_error l n with Some x => x :: skipn (S n) l | None => [] end.
Proof. revert n. induction l as [|x t IH]; intros [|n]; simpl; auto. apply IH. Qed.

Lemma firstn_snoc {A} (l : list A) n x : nth_error l n = Some x -> firstn (S n) l = firstn n l ++ [x].
Proof.
  revert n. induction l as [|h t IH]; intros [|n] H; simpl in *; try discriminate.
  - congruence.
  - f_equal. auto.
Qed.

Lemma filter_filter {A} (f g : A -> bool) l : filter f (filter g l) = filter (fun x => g x && f x) l.
Proof.
  induction l as [|x t IH]; simpl; auto. destruct (g x); simpl; rewrite IH; reflexivity.
Qed.
