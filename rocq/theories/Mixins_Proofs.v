(** Proofs about the comparison mix-ins. *)
From Coq Require Import List Bool Arith ZArith Lia.
From Verif Require Import Prelude PreludeFacts MoreFacts Mixins_Model Mixins_Spec.
Import ListNotations.
Open Scope nat_scope.

Lemma str_eqb_eq : forall a b, str_eqb a b = true <-> a = b.
Proof.
  induction a as [|x a IH]; intros [|y b]; cbn; split; intros H; try discriminate; auto.
  - apply andb_true_iff in H. destruct H as [A B]. apply Nat.eqb_eq in A. apply IH in B. congruence.
  - inversion H; subst. rewrite Nat.eqb_refl. apply IH. reflexivity.
Qed.
Lemma str_lt_irrefl : forall a, str_ltb a a = false.
Proof. induction a; cbn; auto. rewrite Nat.eqb_refl. auto. Qed.
Lemma str_lt_trans : forall a b c, str_ltb a b = true -> str_ltb b c = true -> str_ltb a c = true.
Proof.
  induction a as [|x a IH]; intros [|y b] [|z c] A B; cbn in *; try discriminate; auto.
  destruct (Nat.eqb_spec x y), (Nat.eqb_spec y z); subst.
  - rewrite Nat.eqb_refl. eauto.
  - rewrite (proj2 (Nat.eqb_neq _ _)); auto.
  - rewrite (proj2 (Nat.eqb_neq _ _)); auto.
  - apply Nat.ltb_lt in A, B. rewrite (proj2 (Nat.eqb_neq x z)) by lia. apply Nat.ltb_lt. lia.
Qed.
Lemma str_three : forall a b, (str_ltb a b = true /\ str_eqb a b = false /\ str_ltb b a = false) \/
  (str_ltb a b = false /\ str_eqb a b = true /\ str_ltb b a = false) \/ (str_ltb a b = false /\ str_eqb a b = false /\ str_ltb b a = true).
Proof.
  induction a as [|x a IH]; intros [|y b]; cbn; auto.
  rewrite (Nat.eqb_sym y x). destruct (Nat.eqb_spec x y).
  - subst. cbn. apply IH.
  - cbn. destruct (lt_eq_lt_dec x y) as [[L|L]|L]; [left|congruence|right; right]; repeat split; try reflexivity; try (apply Nat.ltb_lt; lia); apply Nat.ltb_ge; lia.
Qed.

(** A lawful order on keys gives one on objects. *)
Section Transfer.
  Context {T K : Type} (P : T -> Prop) (key : T -> K).

  Lemma transfer_eq : forall (Q : K -> Prop) (eq : T -> T -> res bool) hash (keq : K -> K -> res bool) khash,
    (forall a, P a -> Q (key a)) -> (forall a b, P a -> P b -> eq a b = keq (key a) (key b)) -> (forall a, P a -> hash a = khash (key a)) ->
    lawful_equality Q keq khash -> lawful_equality P eq hash.
  Proof.
    intros Q eq hash keq khash QQ E H [A R S Tr Ha]. constructor; intros.
    - rewrite E by auto. auto.
    - rewrite E by auto. auto.
    - rewrite E in * by auto. auto.
    - rewrite E in * by auto. eauto.
    - rewrite E in * by auto. rewrite !H by auto. auto.
  Qed.

  Lemma transfer_order : forall (Q : K -> Prop) (cmp : cmpop -> T -> T -> res bool) kcmp,
    (forall a, P a -> Q (key a)) -> (forall op a b, P a -> P b -> cmp op a b = kcmp op (key a) (key b)) ->
    lawful_order Q kcmp -> lawful_order P cmp.
  Proof.
    intros Q cmp kcmp QQ E [A L O Le G Ge]. constructor; intros.
    - rewrite E by auto. auto.
    - rewrite E in * by auto. eauto.
    - rewrite !E by auto. auto.
    - rewrite !E by auto. auto.
    - rewrite !E by auto. auto.
    - rewrite !E by auto. auto.
  Qed.
End Transfer.

Lemma z_equality : forall h : Z -> Z, lawful_equality (fun _ => True) (fun a b => Ok (zcmp OpEq a b)) (fun a => Ok (h a)).
Proof.
  intros h. constructor; intros; cbn in *; eauto.
  - rewrite Z.eqb_refl. reflexivity.
  - rewrite Z.eqb_sym. exact H1.
  - injection H2 as E1. injection H3 as E2. apply Z.eqb_eq in E1, E2. subst. rewrite Z.eqb_refl. reflexivity.
  - injection H1 as E1. apply Z.eqb_eq in E1. subst. eauto.
Qed.
Lemma z_order : lawful_order (fun _ => True) (fun op (a b : Z) => Ok (zcmp op a b)).
Proof.
  constructor; intros; cbn in *; eauto.
  - injection H2 as E1. injection H3 as E2. f_equal. apply Z.ltb_lt in E1, E2. apply Z.ltb_lt. lia.
  - destruct (Z.compare_spec a b).
    + right. left. subst. rewrite Z.ltb_irrefl, Z.eqb_refl. auto.
    + left. rewrite (proj2 (Z.ltb_lt a b)), (proj2 (Z.eqb_neq a b)), (proj2 (Z.ltb_ge b a)) by lia. auto.
    + right. right. rewrite (proj2 (Z.ltb_ge a b)), (proj2 (Z.eqb_neq a b)), (proj2 (Z.ltb_lt b a)) by lia. auto.
  - split.
    + intros E. injection E as E. apply Z.leb_le in E. destruct (Z.eq_dec a b); [right; subst; rewrite Z.eqb_refl; reflexivity|left; f_equal; apply Z.ltb_lt; lia].
    + intros [E|E]; injection E as E; f_equal; apply Z.leb_le; [apply Z.ltb_lt in E|apply Z.eqb_eq in E]; lia.
Qed.
Lemma s_equality : forall h : str -> Z, lawful_equality (fun _ => True) (fun a b => Ok (scmp OpEq a b)) (fun a => Ok (h a)).
Proof.
  intros h. constructor; intros; cbn in *; eauto.
  - rewrite (proj2 (str_eqb_eq a a)); auto.
  - injection H1 as E. apply str_eqb_eq in E. subst. rewrite (proj2 (str_eqb_eq b b)); auto.
  - injection H2 as E1. injection H3 as E2. apply str_eqb_eq in E1, E2. subst. rewrite (proj2 (str_eqb_eq c c)); auto.
  - injection H1 as E. apply str_eqb_eq in E. subst. eauto.
Qed.
Lemma str_eqb_sym : forall a b, str_eqb a b = str_eqb b a.
Proof. intros a b. destruct (str_eqb a b) eqn:E, (str_eqb b a) eqn:F; auto; [apply str_eqb_eq in E|apply str_eqb_eq in F]; subst; rewrite (proj2 (str_eqb_eq _ _)) in *; congruence. Qed.
Lemma s_order : lawful_order (fun _ => True) (fun op (a b : str) => Ok (scmp op a b)).
Proof.
  constructor; intros; cbn in *; eauto.
  - injection H2 as E1. injection H3 as E2. f_equal. eapply str_lt_trans; eauto.
  - destruct (str_three a b) as [(->&->&->)|[(->&->&->)|(->&->&->)]]; auto.
  - split.
    + intros E. injection E as E. apply orb_true_iff in E. destruct E as [->| ->]; auto.
    + intros [E|E]; injection E as ->; rewrite ?orb_true_r; reflexivity.
  - rewrite (str_eqb_sym b a). reflexivity.
Qed.

Section By.
  Context {F : Type} (vcmp : cmpop -> F -> F -> res bool) (vhash : F -> res Z).
  Lemma by_lawful : forall Q : F -> Prop, lawful_equality Q (vcmp OpEq) vhash -> lawful_order Q vcmp ->
    lawful_equality (fun o => exists n v, comparable_by o = Some n /\ attr o n = Some v /\ Q v) (by_cmp vcmp OpEq) (by_hash vhash) /\
    lawful_order (fun o => exists n v, comparable_by o = Some n /\ attr o n = Some v /\ Q v) (by_cmp vcmp).
  Proof.
    intros Q LE LO.
    assert (K : forall o, (exists n v, comparable_by o = Some n /\ attr o n = Some v /\ Q v) -> exists v, field o = Ok v /\ Q v).
    { intros o (n & v & A & B & C). exists v. unfold field. rewrite A, B. auto. }
    split.
    - destruct LE as [A R S Tr Ha]. constructor; intros; repeat match goal with X : exists n v, _ |- _ => apply K in X; destruct X as (? & ? & ?) end;
        unfold by_cmp, by_hash in *; repeat match goal with X : field _ = Ok _ |- _ => rewrite X in *; clear X end; cbn in *; eauto.
    - destruct LO as [A L O Le G Ge]. constructor; intros; repeat match goal with X : exists n v, _ |- _ => apply K in X; destruct X as (? & ? & ?) end;
        unfold by_cmp in *; repeat match goal with X : field _ = Ok _ |- _ => rewrite X in *; clear X end; cbn in *; eauto.
  Qed.
End By.

Section Vals.
  Variables (parse : str -> option Z) (show : val -> str) (hash_int hash_half : Z -> Z) (hash_str : str -> Z) (hash_none : Z).
  Notation cmp := (py_cmp parse show).
  Notation hash := (py_hash hash_int hash_half hash_str hash_none).

  Definition zkey (v : val) : Z := match v with Int z | ByInt z | IntEnum z => z | _ => 0%Z end.
  Definition skey (v : val) : str := match v with Str s | ByStr s | StrEq s => s | _ => [] end.
  Definition qkey (v : val) : Z := match v with Int z | IntEnum z => (2 * z)%Z | Half z => (2 * z + 1)%Z | _ => 0%Z end.

  Lemma zcmp_swap : forall op a b, zcmp (swap op) b a = zcmp op a b.
  Proof. intros [] a b; cbn; auto. apply Z.eqb_sym. Qed.
  Lemma scmp_swap : forall op a b, scmp (swap op) b a = scmp op a b.
  Proof. intros [] a b; cbn; auto; try apply str_eqb_sym; rewrite (str_eqb_sym b a); auto. Qed.
  Lemma zcmp2 : forall op a b, zcmp op (2 * a) (2 * b) = zcmp op a b.
  Proof.
    intros [] a b; unfold zcmp.
    - destruct (Z.eqb_spec a b); [apply Z.eqb_eq|apply Z.eqb_neq]; lia.
    - destruct (Z.ltb_spec a b); [apply Z.ltb_lt|apply Z.ltb_ge]; lia.
    - destruct (Z.leb_spec a b); [apply Z.leb_le|apply Z.leb_gt]; lia.
    - destruct (Z.ltb_spec b a); [apply Z.ltb_lt|apply Z.ltb_ge]; lia.
    - destruct (Z.leb_spec b a); [apply Z.leb_le|apply Z.leb_gt]; lia.
  Qed.
  Lemma zcmp21 : forall op a b, zcmp op (2 * a + 1) (2 * b + 1) = zcmp op a b.
  Proof.
    intros [] a b; unfold zcmp.
    - destruct (Z.eqb_spec a b); [apply Z.eqb_eq|apply Z.eqb_neq]; lia.
    - destruct (Z.ltb_spec a b); [apply Z.ltb_lt|apply Z.ltb_ge]; lia.
    - destruct (Z.leb_spec a b); [apply Z.leb_le|apply Z.leb_gt]; lia.
    - destruct (Z.ltb_spec b a); [apply Z.ltb_lt|apply Z.ltb_ge]; lia.
    - destruct (Z.leb_spec b a); [apply Z.leb_le|apply Z.leb_gt]; lia.
  Qed.

  Lemma int_key : forall op a b, integral a -> integral b -> cmp op a b = Ok (zcmp op (zkey a) (zkey b)).
  Proof. intros op [] [] A B; try contradiction; cbn -[zcmp swap]; rewrite ?zcmp_swap; reflexivity. Qed.
  Lemma num_key : forall op a b, numeric a -> numeric b -> cmp op a b = Ok (zcmp op (qkey a) (qkey b)).
  Proof. intros op [] [] A B; try contradiction; unfold py_cmp, method, qkey; rewrite ?zcmp2, ?zcmp21; reflexivity. Qed.
  Lemma str_key : forall op a b, stringy a -> stringy b -> cmp op a b = Ok (scmp op (skey a) (skey b)).
  Proof. intros op [] [] A B; try contradiction; cbn -[scmp swap]; rewrite ?scmp_swap; reflexivity. Qed.
  Lemma str_eq_key : forall a b, stringy_eq a -> stringy_eq b -> cmp OpEq a b = Ok (scmp OpEq (skey a) (skey b)).
  Proof.
    intros [] [] A B; try contradiction; cbn; try reflexivity; f_equal; apply str_eqb_sym.
  Qed.

  Lemma integral_lawful : lawful_equality integral (cmp OpEq) hash /\ lawful_order integral cmp.
  Proof.
    split.
    - refine (transfer_eq integral zkey (fun _ => True) _ _ _ _ (fun _ _ => I) _ _ (z_equality hash_int)); [intros; apply int_key; auto|].
      intros [] A; try contradiction; reflexivity.
    - refine (transfer_order integral zkey (fun _ => True) _ _ (fun _ _ => I) _ z_order). intros; apply int_key; auto.
  Qed.
  Lemma qkey_eq : forall a b, numeric a -> numeric b -> qkey a = qkey b -> hash a = hash b.
  Proof. intros [] [] A B E; try contradiction; unfold qkey in E; cbn [py_hash]; try lia; do 2 f_equal; lia. Qed.
  Lemma numeric_lawful : lawful_equality numeric (cmp OpEq) hash /\ lawful_order numeric cmp.
  Proof.
    split.
    - constructor; intros.
      + rewrite num_key by auto. eauto.
      + rewrite num_key by auto. cbn. rewrite Z.eqb_refl. reflexivity.
      + rewrite num_key in * by auto. cbn in *. rewrite Z.eqb_sym. auto.
      + rewrite num_key in * by auto. cbn [zcmp] in *. injection H2 as X. injection H3 as Y. apply Z.eqb_eq in X, Y. rewrite X, Y, Z.eqb_refl. reflexivity.
      + rewrite num_key in H1 by auto. cbn [zcmp] in H1. injection H1 as X. apply Z.eqb_eq in X. apply qkey_eq in X; auto. rewrite X.
        destruct b; try contradiction; cbn; eauto.
    - refine (transfer_order numeric qkey (fun _ => True) _ _ (fun _ _ => I) _ z_order). intros; apply num_key; auto.
  Qed.
  Lemma stringy_lawful : lawful_equality stringy_eq (cmp OpEq) hash /\ lawful_order stringy cmp.
  Proof.
    split.
    - refine (transfer_eq stringy_eq skey (fun _ => True) _ _ _ _ (fun _ _ => I) _ _ (s_equality hash_str)); [intros; apply str_eq_key; auto|].
      intros [] A; try contradiction; reflexivity.
    - refine (transfer_order stringy skey (fun _ => True) _ _ (fun _ _ => I) _ s_order). intros; apply str_key; auto.
  Qed.

  Lemma integral_values : forall a b, integral a -> integral b ->
    (cmp OpLt a b = Ok true <-> (int_value a < int_value b)%Z) /\ (cmp OpEq a b = Ok true <-> int_value a = int_value b).
  Proof.
    intros a b A B. rewrite !int_key by auto. change zkey with int_value. cbn [zcmp]. split.
    - rewrite <- Z.ltb_lt. destruct (_ <? _)%Z; split; congruence.
    - rewrite <- Z.eqb_eq. destruct (_ =? _)%Z; split; congruence.
  Qed.
  Lemma str_ltb_alpha : forall a b, str_ltb a b = true <-> alphabetical a b.
  Proof.
    induction a as [|x a IH]; intros [|y b]; cbn [str_ltb].
    - split; [discriminate|]. intros ([|? ?] & a' & b' & A & B & M); cbn in *; [subst; contradiction|discriminate].
    - split; [intros _; exists [], [], (y :: b); auto|auto].
    - split; [discriminate|]. intros ([|? ?] & a' & b' & A & B & M); cbn in *; [subst; contradiction|discriminate].
    - destruct (Nat.eqb_spec x y).
      + subst y. rewrite IH. split.
        * intros (p & a' & b' & -> & -> & M). exists (x :: p), a', b'. auto.
        * intros ([|z p] & a' & b' & A & B & M); cbn in *.
          -- subst. lia.
          -- inversion A; inversion B; subst. exists p, a', b'. auto.
      + rewrite Nat.ltb_lt. split.
        * intros L. exists [], (x :: a), (y :: b). auto.
        * intros ([|z p] & a' & b' & A & B & M); cbn in *; [subst; exact M|]. inversion A; inversion B; congruence.
  Qed.
  Lemma stringy_values : forall a b, stringy a -> stringy b ->
    (cmp OpLt a b = Ok true <-> alphabetical (str_value a) (str_value b)) /\ (cmp OpEq a b = Ok true <-> str_value a = str_value b).
  Proof.
    intros a b A B. rewrite !str_key by auto. change skey with str_value. cbn [scmp]. split.
    - rewrite <- str_ltb_alpha. destruct (str_ltb _ _); split; congruence.
    - rewrite <- str_eqb_eq. destruct (str_eqb _ _); split; congruence.
  Qed.

  Lemma float_refuted : ~ lawful_equality (fun v => match v with Int _ | Half _ | ByInt _ => True | _ => False end) (cmp OpEq) hash.
  Proof.
    intros [A R S Tr Ha]. specialize (Tr (Int 2) (ByInt 2) (Half 2) I I I eq_refl eq_refl). discriminate.
  Qed.
  Lemma number_refuted : ~ lawful_equality (fun v => match v with Int _ | Str _ | ByStr _ => True | _ => False end) (cmp OpEq) hash.
  Proof.
    intros [A R S Tr Ha]. pose (s := show (Int 5)).
    assert (E : cmp OpEq (Int 5) (ByStr s) = Ok true). { cbn. rewrite (proj2 (str_eqb_eq s (show (Int 5)))); auto. }
    assert (E2 : cmp OpEq (ByStr s) (Str s) = Ok true). { cbn. rewrite (proj2 (str_eqb_eq s s)); auto. }
    specialize (Tr (Int 5) (ByStr s) (Str s) I I I E E2). discriminate.
  Qed.
  Lemma foreign_raises : forall z, cmp OpEq (ByInt z) NoneV = Err TypeError /\ cmp OpEq NoneV (ByInt z) = Err TypeError /\
    cmp OpEq (IntEnum z) NoneV = Err TypeError /\ (forall s, parse s = None -> cmp OpEq (IntEnum z) (Str s) = Err ValueError /\ cmp OpEq (Str s) (ByInt z) = Err ValueError).
  Proof. intros z. repeat split; intros; cbn; auto; rewrite H; auto. Qed.
End Vals.

(** ** ComparableEnum *)

Section Enums.
  Variables (comparable : nat -> bool) (values : nat -> list ev).
  Hypothesis PV : plain_values values.

  Lemma find_plain : forall f c n l i, Forall (fun v => exists m, v = Atom m) l -> NoDup l ->
    (exists j, nth_error l j = Some (Atom n) /\ enum_find comparable (ev_eq comparable values (S f)) c (Atom n) l i = Ok (Mem c (i + j))) \/
    (~ In (Atom n) l /\ enum_find comparable (ev_eq comparable values (S f)) c (Atom n) l i = Err ValueError).
  Proof.
    intros f c n. induction l as [|x t IH]; intros i FA ND.
    - right. split; [intros []|reflexivity].
    - inversion FA as [|? ? [m ->] FT]; subst. inversion ND; subst. cbn [enum_find hashable orb]. change (ev_eq comparable values (S f) (Atom m) (Atom n)) with (@Ok bool (Nat.eqb m n)). cbn [res_bind]. destruct (Nat.eqb_spec m n).
      + subst. left. exists 0. split; [reflexivity|]. rewrite Nat.add_0_r. reflexivity.
      + destruct (IH (S i) FT H2) as [(j & N & E)|[N E]].
        * left. exists (S j). split; [exact N|]. rewrite E. do 2 f_equal. lia.
        * right. split; [intros [X|X]; [congruence|auto]|exact E].
  Qed.

  Lemma enum_plain : forall f c i n, nth_error (values c) i = Some (Atom n) -> forall m,
    match enum_find comparable (ev_eq comparable values (S f)) c (Atom m) (values c) 0 with
    | Ok x => Ok (ev_same x (Mem c i)) | Err ValueError => Ok false | Err e => Err e end = Ok (Nat.eqb n m).
  Proof.
    intros f c i n N m. destruct (PV c) as [ND FA]. destruct (find_plain f c m (values c) 0 FA ND) as [(j & NJ & ->)|[NI ->]].
    - cbn. rewrite Nat.eqb_refl. cbn. f_equal. destruct (Nat.eqb_spec n m).
      + subst. apply Nat.eqb_eq. assert (SE : nth_error (values c) j = nth_error (values c) i) by congruence.
        rewrite NoDup_nth_error in ND. apply ND; [apply nth_error_Some; congruence|exact SE].
      + apply Nat.eqb_neq. intros E. subst. congruence.
    - f_equal. symmetry. apply Nat.eqb_neq. intros E. subst. apply NI. eapply nth_error_In; eauto.
  Qed.

  Lemma member_value : forall c i, i < length (values c) -> exists n, nth_error (values c) i = Some (Atom n).
  Proof.
    intros c i L. destruct (nth_error (values c) i) as [v|] eqn:E; [|apply nth_error_None in E; lia].
    destruct (PV c) as [_ FA]. rewrite Forall_forall in FA. destruct (FA v (nth_error_In _ _ E)) as [n ->]. eauto.
  Qed.

  (** a member of a comparable enumeration on the left *)
  Lemma enum_eq_plain : forall f c i n b m, nth_error (values c) i = Some (Atom n) -> stands_for values b m ->
    enum_eq comparable values (ev_eq comparable values (S f)) c i b = Ok (Nat.eqb n m).
  Proof.
    intros f c i n b m N SB. unfold enum_eq. destruct b as [k|d j]; cbn in SB.
    - subst k. cbn. apply enum_plain. exact N.
    - destruct (Nat.eqb_spec d c).
      + subst d. rewrite Nat.eqb_refl. f_equal. destruct (Nat.eqb_spec n m).
        * subst. apply Nat.eqb_eq. destruct (PV c) as [ND _]. rewrite NoDup_nth_error in ND. apply ND; [apply nth_error_Some; congruence|congruence].
        * apply Nat.eqb_neq. intros E. subst. congruence.
      + cbn [value]. rewrite (nth_error_nth _ _ (Mem d j) SB). apply enum_plain. exact N.
  Qed.

  Lemma stands_exists : forall a, exists_in values a -> exists n, stands_for values a n.
  Proof. intros [k|c i] E; cbn in *; eauto. apply member_value. exact E. Qed.

  Lemma stands_fun : forall a n m, stands_for values a n -> stands_for values a m -> n = m.
  Proof. intros [k|c i] n m A B; cbn in *; congruence. Qed.

  Lemma ev_eq_plain : forall fuel a b, 2 <= fuel -> exists_in values a -> exists_in values b -> comparable_member comparable a \/ comparable_member comparable b ->
    exists r, ev_eq comparable values fuel a b = Ok r /\ (r = true <-> exists n, stands_for values a n /\ stands_for values b n).
  Proof.
    intros fuel a b F A B C. destruct fuel as [|[|f]]; [lia|lia|].
    destruct (stands_exists a A) as [n SA]. destruct (stands_exists b B) as [m SB].
    assert (IFF : Nat.eqb n m = true <-> exists k, stands_for values a k /\ stands_for values b k).
    { rewrite Nat.eqb_eq. split; [intros ->; eauto|]. intros (k & X & Y). rewrite (stands_fun _ _ _ SA X), (stands_fun _ _ _ SB Y). reflexivity. }
    exists (Nat.eqb n m). split; [|exact IFF].
    cbn [ev_eq]. destruct a as [k|c i].
    - destruct b as [l|d j]; cbn in C; [tauto|]. destruct C as [[]|C]. rewrite C. rewrite (Nat.eqb_sym n m). apply enum_eq_plain; auto.
    - cbn in C. destruct (comparable c) eqn:CC.
      + apply enum_eq_plain; auto.
      + destruct b as [l|d j]; cbn in C; [destruct C; [discriminate|tauto]|]. destruct C as [C|C]; [discriminate|]. rewrite C.
        rewrite (Nat.eqb_sym n m). apply enum_eq_plain; auto.
  Qed.
End Enums.

(** Enumeration 0 has a member whose value is a member of enumeration 1. *)
Lemma enum_asymmetric : exists comparable values a b, (forall c, comparable c = true) /\ (forall c, NoDup (values c)) /\ exists_in values a /\ exists_in values b /\
  forall fuel, 3 <= fuel -> ev_eq comparable values fuel a b = Ok false /\ ev_eq comparable values fuel b a = Ok true.
Proof.
  exists (fun _ => true), (fun c => match c with 0 => [Mem 1 0] | 1 => [Atom 7] | _ => [] end), (Mem 0 0), (Mem 1 0). repeat split; try (cbn; lia).
  - intros [|[|c]]; repeat constructor; cbn; tauto.
  - intros; destruct fuel as [|[|[|f]]]; try lia. reflexivity.
  - intros; destruct fuel as [|[|[|f]]]; try lia. reflexivity.
Qed.

(** ** DictionaryEQAble *)

Section DictEq.
  Variables (V : Type) (vne : V -> V -> bool) (class_attr : nat -> nat -> option V).
  Notation deq := (dict_eq vne class_attr).
  Notation dne := (dict_ne vne class_attr).

  Lemma ne_is_not_eq : forall a b, dne a b = negb (deq a b).
  Proof.
    intros a b. unfold dict_ne, dict_eq. destruct (negb (dcls a =? dcls b)); [reflexivity|].
    induction (ddict a) as [|[k v] t IH]; cbn; auto. destruct (attr_ne _ _ v); auto.
  Qed.
  Lemma dict_loop_spec : forall other l, dict_loop vne class_attr other l false true = true <->
    (forall k v, In (k, v) l -> exists u, dgetattr class_attr other k = Some u /\ vne u v = false).
  Proof.
    intros other. induction l as [|[k v] t IH]; cbn.
    - split; [intros _ k v []|auto].
    - destruct (dgetattr class_attr other k) as [u|] eqn:G; cbn.
      + destruct (vne u v) eqn:N.
        * split; [discriminate|]. intros H. destruct (H k v (or_introl eq_refl)) as (u' & G' & N'). congruence.
        * rewrite IH. split.
          -- intros H k' v' [E|I]; [inversion E; subst; eauto|eauto].
          -- intros H k' v' I. apply H. auto.
      + split; [discriminate|]. intros H. destruct (H k v (or_introl eq_refl)) as (u' & G' & N'). congruence.
  Qed.

  Lemma dict_eq_partial : forall a b, dwf (ddict a) -> dwf (ddict b) -> length (ddict b) <= length (ddict a) ->
    (forall c k, In k (dkeys (ddict a)) -> class_attr c k = None) ->
    (deq a b = true <-> dcls a = dcls b /\ same_dict (fun u v => vne u v = false) (ddict a) (ddict b)).
  Proof.
    intros a b WA WB LE CA. unfold dict_eq. destruct (Nat.eqb_spec (dcls a) (dcls b)) as [C|C]; cbn [negb].
    - rewrite dict_loop_spec. split.
      + intros H. split; [exact C|].
        assert (IN : forall k v, In (k, v) (ddict a) -> exists u, In (k, u) (ddict b) /\ vne u v = false).
        { intros k v I. destruct (H k v I) as (u & G & N). exists u. split; [|exact N]. unfold dgetattr in G.
          destruct (dget Nat.eqb (ddict b) k) as [x|] eqn:D.
          - inversion G; subst. eapply (dget_In nateqb_ok); eauto.
          - rewrite CA in G; [discriminate|]. unfold dkeys. apply in_map_iff. exists (k, v). auto. }
        assert (INC : incl (dkeys (ddict a)) (dkeys (ddict b))).
        { intros k I. unfold dkeys in I. apply in_map_iff in I. destruct I as ([k' v] & E & I). cbn in E. subst k'.
          destruct (IN k v I) as (u & I2 & _). unfold dkeys. apply in_map_iff. exists (k, u). auto. }
        assert (BACK : incl (dkeys (ddict b)) (dkeys (ddict a))).
        { apply NoDup_length_incl; auto. unfold dkeys. rewrite !map_length. exact LE. }
        split; [exact IN|]. intros k v I.
        assert (IK : In k (dkeys (ddict a))). { apply BACK. unfold dkeys. apply in_map_iff. exists (k, v). auto. }
        unfold dkeys in IK. apply in_map_iff in IK. destruct IK as ([k' u] & E & IU). cbn in E. subst k'.
        exists u. split; [exact IU|]. destruct (IN k u IU) as (x & IX & N).
        assert (x = v). { apply (In_dget nateqb_ok _ _ WB) in IX. apply (In_dget nateqb_ok _ _ WB) in I. congruence. } subst. exact N.
      + intros [_ [H _]] k v I. destruct (H k v I) as (u & IU & N). exists u. split; [|exact N].
        unfold dgetattr. rewrite (In_dget nateqb_ok _ _ WB IU). reflexivity.
    - split; [discriminate|tauto].
  Qed.
End DictEq.

Lemma dict_asymmetric : exists (a b : dobj nat), dwf (ddict a) /\ dwf (ddict b) /\
  dict_eq (fun x y => negb (Nat.eqb x y)) (fun _ _ => None) a b = true /\ dict_eq (fun x y => negb (Nat.eqb x y)) (fun _ _ => None) b a = false.
Proof.
  exists {| dcls := 0; ddict := [(1, 5)] |}, {| dcls := 0; ddict := [(1, 5); (2, 6)] |}. repeat split; try reflexivity; unfold dwf; repeat constructor; cbn; intuition discriminate.
Qed.
