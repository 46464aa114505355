From Coq Require Import Ascii String.
From Verif Require Import Prelude B64_Model B64_Spec.
Local Open Scope Z_scope.
Set Implicit Arguments.

Lemma split_bits w k : forall x y, 0 <= y < 2 ^ Z.of_nat k -> bits (w + k) (x * 2 ^ Z.of_nat k + y) = bits w x ++ bits k y.
Proof.
  induction k as [|k IH]; intros x y Y.
  - simpl in *. rewrite Nat.add_0_r, app_nil_r. f_equal. lia.
  - rewrite Nat.add_succ_r. cbn [bits]. rewrite Nat2Z.inj_succ, Z.pow_succ_r in * by lia.
    replace (x * (2 * 2 ^ Z.of_nat k) + y) with (y + (x * 2 ^ Z.of_nat k) * 2) by ring. rewrite Z.div_add by lia.
    replace (y / 2 + x * 2 ^ Z.of_nat k) with (x * 2 ^ Z.of_nat k + y / 2) by ring.
    rewrite IH by (split; [apply Z.div_pos; lia|apply Z.div_lt_upper_bound; lia]). rewrite app_assoc. do 2 f_equal.
    rewrite Z.odd_add, Z.odd_mul. simpl. rewrite andb_false_r, xorb_false_r. reflexivity.
Qed.
Lemma cut (k w : nat) x : bits (w + k) x = bits w (x / 2 ^ Z.of_nat k) ++ bits k (x mod 2 ^ Z.of_nat k).
Proof. rewrite <- split_bits by (apply Z.mod_pos_bound; lia). f_equal. rewrite Z.mul_comm. apply Z.div_mod. lia. Qed.
Lemma zeros k : bits k 0 = repeat false k.
Proof.
  induction k as [|k IH]; auto. cbn [bits]. change (0 / 2) with 0. rewrite IH. change (Z.odd 0) with false. clear. induction k; simpl; auto. f_equal. auto.
Qed.

Lemma table (P : nat -> bool) k : forallb P (seq 0 k) = true -> forall n, (n < k)%nat -> P n = true.
Proof. intros H n L. rewrite forallb_forall in H. apply H. apply in_seq. lia. Qed.
Lemma uppers n : (n < 26)%nat -> nth n alphabet pad = ascii_of_nat (65 + n).
Proof. intros L. apply Ascii.eqb_eq. revert n L. apply (table (fun n => Ascii.eqb (nth n alphabet pad) (ascii_of_nat (65 + n)))). vm_compute. reflexivity. Qed.
Lemma lowers n : (n < 26)%nat -> nth (26 + n) alphabet pad = ascii_of_nat (97 + n).
Proof. intros L. apply Ascii.eqb_eq. revert n L. apply (table (fun n => Ascii.eqb (nth (26 + n) alphabet pad) (ascii_of_nat (97 + n)))). vm_compute. reflexivity. Qed.
Lemma numbers n : (n < 10)%nat -> nth (52 + n) alphabet pad = ascii_of_nat (48 + n).
Proof. intros L. apply Ascii.eqb_eq. revert n L. apply (table (fun n => Ascii.eqb (nth (52 + n) alphabet pad) (ascii_of_nat (48 + n)))). vm_compute. reflexivity. Qed.
Opaque ascii_of_nat alphabet.
Lemma digit_ok n : 0 <= n < 64 -> stands_for (digit n) n.
Proof.
  intros H. assert (X : (Z.to_nat n < 64)%nat) by lia. rewrite <- (Z2Nat.id n) at 2 by lia. unfold digit. revert X. generalize (Z.to_nat n). clear. intros m X.
  destruct (Nat.lt_ge_cases m 26) as [L|G]; [rewrite uppers by auto; constructor; auto|].
  destruct (Nat.lt_ge_cases m 52) as [L|G2].
  { assert (exists q, m = 26 + q)%nat as [q ->] by (exists (m - 26)%nat; lia). rewrite lowers by lia. rewrite Nat2Z.inj_add. apply lower. lia. }
  destruct (Nat.lt_ge_cases m 62) as [L|G3].
  { assert (exists q, m = 52 + q)%nat as [q ->] by (exists (m - 52)%nat; lia). rewrite numbers by lia. rewrite Nat2Z.inj_add. apply number. lia. }
  assert (m = 62 \/ m = 63)%nat as [->| ->] by lia; [exact plus|exact slash].
Qed.
Transparent ascii_of_nat alphabet.
Definition spelled (text : list ascii) (content : list Z) : Prop := exists characters numbers pads,
  text = characters ++ repeat "="%char pads /\ Forall2 stands_for characters numbers /\ (pads <= 2)%nat /\
  flat_map (bits 6) numbers = flat_map (bits 8) content ++ repeat false (2 * pads).
Ltac small := split; [apply Z.div_pos; lia|apply Z.div_lt_upper_bound; lia].
Lemma six_a a : 0 <= a < 256 -> 0 <= a / 4 < 64.
Proof. intros. small. Qed.
Lemma six_b a b : 0 <= b < 256 -> 0 <= a mod 4 * 16 + b / 16 < 64.
Proof. intros. assert (0 <= a mod 4 < 4) by (apply Z.mod_pos_bound; lia). assert (0 <= b / 16 < 16) by small. lia. Qed.
Lemma six_c b c : 0 <= c < 256 -> 0 <= b mod 16 * 4 + c / 64 < 64.
Proof. intros. assert (0 <= b mod 16 < 16) by (apply Z.mod_pos_bound; lia). assert (0 <= c / 64 < 4) by small. lia. Qed.
Lemma join_b a b : 0 <= b < 256 -> bits 6 (a mod 4 * 16 + b / 16) = bits 2 (a mod 4) ++ bits 4 (b / 16).
Proof. intros. apply (@split_bits 2 4). change (2 ^ Z.of_nat 4) with 16. small. Qed.
Lemma join_c b c : 0 <= c < 256 -> bits 6 (b mod 16 * 4 + c / 64) = bits 4 (b mod 16) ++ bits 2 (c / 64).
Proof. intros. apply (@split_bits 4 2). change (2 ^ Z.of_nat 2) with 4. small. Qed.
Lemma cut_a a : bits 8 a = bits 6 (a / 4) ++ bits 2 (a mod 4).
Proof. exact (cut 2 6 a). Qed.
Lemma cut_b b : bits 8 b = bits 4 (b / 16) ++ bits 4 (b mod 16).
Proof. exact (cut 4 4 b). Qed.
Lemma cut_c c : bits 8 c = bits 2 (c / 64) ++ bits 6 (c mod 64).
Proof. exact (cut 6 2 c). Qed.
Lemma encode_spells : forall n content, (length content <= n)%nat -> bytes content -> spelled (encode content) content.
Proof.
  induction n as [|n IH]; intros content L B.
  - destruct content; [|simpl in L; lia]. exists [], [], 0%nat. repeat split; auto.
  - destruct content as [|a [|b [|c r]]].
    + exists [], [], 0%nat. repeat split; auto.
    + inversion B as [|? ? A _]; subst. exists [digit (a / 4); digit (a mod 4 * 16)], [a / 4; a mod 4 * 16], 2%nat.
      assert (J := join_b a (b := 0) ltac:(lia)). assert (S6 := six_b a (b := 0) ltac:(lia)). change (0 / 16) with 0 in *. rewrite Z.add_0_r in *.
      split; [reflexivity|]. split; [repeat constructor; apply digit_ok; auto; apply six_a; auto|]. split; auto.
      cbn [flat_map]. rewrite J, zeros, !app_nil_r. rewrite (cut_a a). rewrite <- app_assoc. reflexivity.
    + inversion B as [|? ? A B1]; subst. inversion B1 as [|? ? A2 _]; subst.
      exists [digit (a / 4); digit (a mod 4 * 16 + b / 16); digit (b mod 16 * 4)], [a / 4; a mod 4 * 16 + b / 16; b mod 16 * 4], 1%nat.
      assert (J := join_c b (c := 0) ltac:(lia)). assert (S6 := six_c b (c := 0) ltac:(lia)). change (0 / 64) with 0 in *. rewrite Z.add_0_r in *.
      split; [reflexivity|]. split; [repeat constructor; apply digit_ok; auto; [apply six_a|apply six_b]; auto|]. split; auto.
      cbn [flat_map]. rewrite J, zeros, join_b, !app_nil_r by auto. rewrite (cut_a a), (cut_b b). rewrite <- !app_assoc. reflexivity.
    + inversion B as [|? ? A B1]; subst. inversion B1 as [|? ? A2 B2]; subst. inversion B2 as [|? ? A3 B3]; subst.
      destruct (IH r) as (ch & nu & p & E1 & E2 & E3 & E4); [simpl in L; lia|auto|].
      exists (digit (a / 4) :: digit (a mod 4 * 16 + b / 16) :: digit (b mod 16 * 4 + c / 64) :: digit (c mod 64) :: ch), (a / 4 :: a mod 4 * 16 + b / 16 :: b mod 16 * 4 + c / 64 :: c mod 64 :: nu), p.
      split; [cbn [encode]; rewrite E1; reflexivity|]. split.
      * repeat constructor; auto; apply digit_ok; auto using six_a, six_b, six_c. apply Z.mod_pos_bound. lia.
      * split; auto. cbn [flat_map]. rewrite E4, join_b, join_c by auto. rewrite (cut_a a), (cut_b b), (cut_c c). rewrite <- !app_assoc. reflexivity.
Qed.

(** *** different contents have different texts *)
Lemma bits_length w : forall n, length (bits w n) = w.
Proof. induction w as [|w IH]; intros n; auto. cbn [bits]. rewrite app_length, IH. simpl. lia. Qed.
Lemma bits_inj w : forall a b, 0 <= a < 2 ^ Z.of_nat w -> 0 <= b < 2 ^ Z.of_nat w -> bits w a = bits w b -> a = b.
Proof.
  induction w as [|w IH]; intros a b A B E; [simpl in *; lia|]. cbn [bits] in E. apply app_inj_tail in E. destruct E as [E O].
  rewrite Nat2Z.inj_succ, Z.pow_succ_r in * by lia.
  assert (a / 2 = b / 2) by (apply IH; auto; split; try (apply Z.div_pos; lia); apply Z.div_lt_upper_bound; lia).
  rewrite (Z.div_mod a 2), (Z.div_mod b 2) by lia. rewrite !Zmod_odd, O. lia.
Qed.
Lemma app_inj {A : Type} (a b c d : list A) : length a = length c -> a ++ b = c ++ d -> a = c /\ b = d.
Proof. revert c. induction a as [|x a IH]; intros [|y c] L E; try discriminate; auto. injection E as -> E. injection L as L. destruct (IH _ L E) as [-> ->]. auto. Qed.
Lemma flat_inj : forall x y, bytes x -> bytes y -> flat_map (bits 8) x = flat_map (bits 8) y -> x = y.
Proof.
  induction x as [|a x IH]; intros [|b y] X Y E; auto; try (apply (f_equal (@length bool)) in E; cbn [flat_map] in E; rewrite app_length, bits_length in E; simpl in E; lia).
  inversion X; inversion Y; subst. cbn [flat_map] in E. apply app_inj in E; [|rewrite !bits_length; auto]. destruct E as [E1 E2]. f_equal; auto. apply (@bits_inj 8); auto.
Qed.
Definition index (c : ascii) : Z :=
  let k := Z.of_nat (nat_of_ascii c) in
  if k =? 43 then 62 else if k =? 47 then 63 else if k =? 61 then -1 else if k <? 60 then k + 4 else if k <? 95 then k - 65 else k - 71.
Lemma index_ok c n : stands_for c n -> index c = n /\ 0 <= n.
Proof.
  intros H. destruct H as [i H|i H|i H| |]; try (split; [reflexivity|lia]); (split; [|lia]); apply Z.eqb_eq; revert i H.
  - apply (table (fun i => index (ascii_of_nat (65 + i)) =? Z.of_nat i)). vm_compute. reflexivity.
  - apply (table (fun i => index (ascii_of_nat (97 + i)) =? 26 + Z.of_nat i)). vm_compute. reflexivity.
  - apply (table (fun i => index (ascii_of_nat (48 + i)) =? 52 + Z.of_nat i)). vm_compute. reflexivity.
Qed.
Lemma stands_pad n : ~ stands_for "=" n.
Proof. intros H. destruct (index_ok H) as [E P]. vm_compute in E. lia. Qed.
Lemma stands_fun c m n : stands_for c m -> stands_for c n -> m = n.
Proof. intros H1 H2. destruct (index_ok H1) as [<- _], (index_ok H2) as [<- _]. reflexivity. Qed.
Lemma texts ch1 : forall ch2 nu1 nu2 p1 p2, ch1 ++ repeat "="%char p1 = ch2 ++ repeat "="%char p2 -> Forall2 stands_for ch1 nu1 -> Forall2 stands_for ch2 nu2 -> nu1 = nu2 /\ p1 = p2.
Proof.
  induction ch1 as [|c ch1 IH]; intros ch2 nu1 nu2 p1 p2 E F1 F2.
  - inversion F1; subst. destruct ch2 as [|c ch2].
    + inversion F2; subst. split; auto. simpl in E. apply (f_equal (@length ascii)) in E. rewrite !repeat_length in E. auto.
    + inversion F2; subst. destruct p1; simpl in E; [discriminate|]. injection E as <- E. exfalso. eapply stands_pad. eauto.
  - inversion F1 as [|? ? ? ? S1 R1]; subst. destruct ch2 as [|c' ch2].
    + destruct p2; simpl in E; [discriminate|]. injection E as -> E. exfalso. eapply stands_pad. eauto.
    + inversion F2 as [|? ? ? ? S2 R2]; subst. simpl in E. injection E as -> E. destruct (IH _ _ _ _ _ E R1 R2) as [-> ->]. split; auto. f_equal. eapply stands_fun; eauto.
Qed.
Lemma spelled_inj t x y : bytes x -> bytes y -> spells t x -> spells t y -> x = y.
Proof.
  intros X Y (c1 & n1 & p1 & A1 & A2 & A3 & A4) (c2 & n2 & p2 & B1 & B2 & B3 & B4). subst t. apply (f_equal list_ascii_of_string) in B1. rewrite !list_ascii_of_string_of_list_ascii in B1.
  destruct (texts _ _ B1 A2 B2) as [-> ->]. rewrite A4 in B4. apply app_inv_tail in B4. apply flat_inj; auto.
Qed.
Lemma encode_length : forall n content, (length content <= n)%nat -> length (encode content) = (4 * ((length content + 2) / 3))%nat.
Proof.
  induction n as [|n IH]; intros content L; [destruct content; [reflexivity|simpl in L; lia]|]. destruct content as [|a [|b [|c r]]]; try reflexivity.
  cbn [encode length] in *. rewrite IH by lia. replace (S (S (S (length r))) + 2)%nat with (length r + 2 + 1 * 3)%nat by lia. rewrite Nat.div_add by lia. lia.
Qed.
Lemma string_length l : String.length (string_of_list_ascii l) = length l.
Proof. induction l; simpl; auto. Qed.
