(** C135: b64encode. *)
From Coq Require Import Ascii String.
From Verif Require Import Prelude B64_Model B64_Spec B64_Proofs.
Local Open Scope Z_scope.

(** The text spells the content, whatever it is, and nothing else: *)
Theorem C135_spells : forall content, bytes content -> spells (b64encode content) content.
Proof. intros content B. destruct (encode_spells (le_n (length content)) B) as (c & n & p & T & E). exists c, n, p. unfold b64encode. rewrite T. auto. Qed.
Print Assumptions C135_spells.
Theorem C135_nothing_else : forall content other, bytes content -> bytes other -> spells (b64encode content) other -> other = content.
Proof. intros x y X Y S. eapply spelled_inj; eauto. apply C135_spells. auto. Qed.
Print Assumptions C135_nothing_else.
Example C135_case : bytes [77; 97; 110; 255] /\ b64encode [77; 97; 110; 255] = "TWFu/w=="%string /\ b64encode [0; 16; 131] = "ABCD"%string /\ b64encode [251; 240] = "+/A="%string.
Proof. split; [repeat constructor; lia|]. vm_compute. auto. Qed.
(** so that different contents have different texts, *)
Theorem C135_injective : forall x y, bytes x -> bytes y -> b64encode x = b64encode y -> x = y.
Proof. intros x y X Y E. apply C135_nothing_else; auto. rewrite <- E. apply C135_spells. auto. Qed.
Print Assumptions C135_injective.
(** and its length is that of the content in groups of three bytes, four characters each. *)
Theorem C135_length : forall content, String.length (b64encode content) = (4 * ((length content + 2) / 3))%nat.
Proof. intros content. unfold b64encode. rewrite string_length. eapply encode_length. apply le_n. Qed.
Print Assumptions C135_length.
