From Coq Require Import List Bool Arith ZArith Lia.
From Verif Require Import Prelude Exceptions_Model Exceptions_Spec.
Import ListNotations.
Open Scope nat_scope.

Lemma gather_map {A} (l : list A) : gather (map Ok l) = Ok l.
Proof. induction l as [|x l IH]; cbn; [reflexivity|]. now rewrite IH. Qed.
Lemma join_cs l : comma_separated l (join comma l).
Proof. induction l as [|x [|y l] IH]; cbn; constructor. exact IH. Qed.
Lemma join_app a b : a <> [] -> b <> [] -> join comma (a ++ b) = join comma a ++ comma ++ join comma b.
Proof.
  intros A B. induction a as [|x [|y a] IH]; [easy| |].
  - destruct b; [easy|reflexivity].
  - change (join comma ((x :: y :: a) ++ b)) with (x ++ comma ++ join comma ((y :: a) ++ b)). rewrite IH by discriminate.
    change (join comma (x :: y :: a)) with (x ++ comma ++ join comma (y :: a)). now rewrite !app_assoc.
Qed.
Lemma last_short s : short_name s (after_last_dot s).
Proof.
  unfold short_name. induction s as [|c t (N & S)]; [cbn; split; auto|]. cbn [after_last_dot].
  destruct (existsb (Nat.eqb dot) t) eqn:E.
  - split; [exact N|]. right. destruct S as [S|(o & S)].
    + exists [c]. exfalso. apply N. rewrite <- S. apply existsb_exists in E as (d & I & D). apply Nat.eqb_eq in D. subst. exact I.
    + exists (c :: o). rewrite S at 1. reflexivity.
  - assert (N' : ~ In 46 t).
    { intro I. assert (existsb (Nat.eqb dot) t = true) by (apply existsb_exists; exists 46; auto). congruence. }
    destruct (c =? dot) eqn:C.
    + split; [exact N'|]. apply Nat.eqb_eq in C. subst. right. exists []. reflexivity.
    + split; [|now left]. apply Nat.eqb_neq in C. intros [I|I]; [apply C; exact I|now apply N'].
Qed.
Lemma short_unique q a b : short_name q a -> short_name q b -> a = b.
Proof.
  intros (Na & A) (Nb & B).
  assert (K : forall (o1 o2 : text) (x y : text), ~ In 46 x -> ~ In 46 y -> o1 ++ [46] ++ x = o2 ++ [46] ++ y -> x = y).
  { induction o1 as [|c o1 IH]; intros [|d o2] x y Nx Ny E; cbn in E; injection E; intros; subst.
    - reflexivity.
    - exfalso. apply Nx. rewrite in_app_iff. right. now left.
    - exfalso. apply Ny. rewrite in_app_iff. right. now left.
    - eapply IH; eauto. }
  destruct A as [A|(o1 & A)], B as [B|(o2 & B)].
  - congruence.
  - subst a. exfalso. apply Na. rewrite B. apply in_app_iff. right. now left.
  - subst b. exfalso. apply Nb. rewrite A. apply in_app_iff. right. now left.
  - subst q. eapply K; eauto.
Qed.
Lemma comma_fun l a b : comma_separated l a -> comma_separated l b -> a = b.
Proof. intro H. revert b. induction H; intros b B; inversion B; subst; auto. f_equal. f_equal. now apply IHcomma_separated. Qed.

Lemma str_plain x args : x_args x = map Ok args -> (x_kwargs x = None \/ x_kwargs x = Some []) ->
  exception_str x = Ok (after_last_dot (x_qualname x) ++ opening ++ join comma args ++ closing).
Proof. intros A K. unfold exception_str. rewrite A, gather_map. cbn. destruct K as [-> | ->]; now rewrite <- !app_assoc. Qed.
Lemma kwargs_gather kwargs : gather (map (fun kv : text * res text => res_bind (snd kv) (fun r => Ok (fst kv ++ equals ++ r))) (map (fun kv : text * text => (fst kv, Ok (snd kv))) kwargs))
  = Ok (map (fun kv => fst kv ++ [61] ++ snd kv) kwargs).
Proof. rewrite map_map. cbn. rewrite <- (gather_map (map _ kwargs)), map_map. reflexivity. Qed.
Definition name_of (x : exception) : text := (if list_eq_dec Nat.eq_dec (x_module x) builtins then [] else x_module x ++ [dot]) ++ x_qualname x.
Lemma name_of_full x : full_name x (name_of x).
Proof. unfold full_name, name_of. destruct (list_eq_dec _ _ _); [left|right]; split; auto. now rewrite <- app_assoc. Qed.
Lemma repr_kwargs x args kwargs : x_args x = map Ok args -> x_kwargs x = Some (map (fun kv => (fst kv, Ok (snd kv))) kwargs) -> kwargs <> [] ->
  exception_repr x = Ok (name_of x ++ opening ++ join comma args ++ comma ++ join comma (map (fun kv => fst kv ++ [61] ++ snd kv) kwargs) ++ closing).
Proof.
  intros A K N. unfold exception_repr. rewrite A, gather_map. cbn [res_bind]. rewrite K. destruct kwargs as [|kv kwargs]; [easy|].
  rewrite kwargs_gather. fold (name_of x). unfold name_of. cbn [map fst snd]. now rewrite <- !app_assoc.
Qed.
Lemma repr_plain x args : x_args x = map Ok args -> (x_kwargs x = None \/ x_kwargs x = Some []) ->
  exception_repr x = Ok (name_of x ++ opening ++ join comma args ++ closing).
Proof. intros A K. unfold exception_repr, name_of. rewrite A, gather_map. cbn [res_bind]. destruct K as [-> | ->]; now rewrite <- !app_assoc. Qed.

(** ** climbing *)
Lemma list_max_app' a b : list_max (a ++ b) = Nat.max (list_max a) (list_max b).
Proof. apply list_max_app. Qed.
Lemma heights_bases l : l <> [] -> heights (get_base_of_bases l) < heights l.
Proof.
  assert (H : forall l, l = [] \/ heights (get_base_of_bases l) < heights l).
  { clear l. induction l as [|c l IH]; [now left|right]. cbn [get_base_of_bases]. unfold heights in *. rewrite map_app, list_max_app. cbn [map]. change (list_max (height c :: map height l)) with (Nat.max (height c) (list_max (map height l))).
    assert (C : list_max (map height (bases c)) < height c) by (destruct c as [nn kk bs]; cbn [bases height]; lia).
    destruct IH as [->|IH]; [cbn [get_base_of_bases map list_max fold_right]; lia|lia]. }
  destruct (H l); tauto.
Qed.
Lemma climb_ends fuel l : heights l < fuel -> climb fuel l <> None.
Proof.
  revert l. induction fuel as [|f IH]; intros l H; [lia|]. cbn [climb].
  destruct (negb _ && negb _) eqn:E; [|discriminate]. apply IH. apply andb_true_iff in E as (_ & E).
  assert (l <> []) by (destruct l; [discriminate|discriminate]). apply heights_bases in H0. lia.
Qed.
Lemma height_lineage c l : lineage c l -> height c = length l.
Proof. induction 1; cbn [height length map list_max fold_right]; [reflexivity|]. unfold list_max; cbn. rewrite IHlineage. lia. Qed.
Lemma lineage_heights c l : lineage c l -> forall x y, In x l -> In y l -> height x = height y -> x = y.
Proof.
  assert (LE : forall c l, lineage c l -> forall x, In x l -> height x <= height c).
  { induction 1; intros x [<-|I]; try easy; [cbn; lia..|]. apply IHlineage in I. cbn [height]. unfold list_max; cbn. lia. }
  assert (LT : forall n k b l, lineage b l -> forall x, In x l -> height x < height (Cls n k [b])).
  { intros n k b l0 L x I. apply (LE _ _ L) in I. cbn [height]. unfold list_max; cbn. lia. }
  induction 1 as [n k|n k b l L IH]; intros x y [<-|Ix] [<-|Iy] E; try easy; auto.
  - apply (LT n k b l L) in Iy. lia.
  - apply (LT n k b l L) in Ix. lia.
Qed.
Lemma lineage_head c l : lineage c l -> exists l', l = c :: l'. Proof. destruct 1; eauto. Qed.
Lemma lineage_base c l : lineage c l -> forall x b, In x l -> bases x = [b] -> In b l.
Proof.
  induction 1 as [n k|n k b0 l L IH]; intros x b [<-|I] E; try easy; cbn in E.
  - injection E as ->. right. destruct (lineage_head _ _ L) as (l' & ->). now left.
  - right. eapply IH; eauto.
Qed.
Lemma hierarchy_unique c l r r' : lineage c l -> identified l -> hierarchy l r -> hierarchy l r' -> r = r'.
Proof.
  intros L D (I & b & B & N) (I' & b' & B' & N'). apply (lineage_heights c l L); auto.
  assert (b = b') by (apply D; [exact (lineage_base c l L r b I B)|exact (lineage_base c l L r' b' I' B')|congruence]). subst b'. destruct r, r'. cbn in B, B'. subst. reflexivity.
Qed.
(** the class found by the loop *)
Lemma climb_lineage c l : lineage c l -> forall fuel, length l < fuel ->
  (exists r, climb fuel [c] = Some [r] /\ hierarchy l r) \/ (climb fuel [c] = Some [] /\ forall r, ~ hierarchy l r).
Proof.
  induction 1 as [n k|n k b l L IH]; intros fuel F.
  - right. destruct fuel as [|[|f]]; cbn in F; try lia. split; [reflexivity|]. intros r ([<-|[]] & b & B & _). discriminate.
  - destruct fuel as [|f]; cbn in F; [lia|]. cbn [climb get_base_of_bases bases app]. rewrite ?app_nil_r. unfold has_number. cbn [existsb].
    destruct (number b =? coded) eqn:E; cbn [orb negb andb].
    + left. eexists. split; [reflexivity|]. split; [now left|]. exists b. apply Nat.eqb_eq in E. split; [reflexivity|exact E].
    + destruct (IH f ltac:(lia)) as [(r & C & (I & H))|(C & H)].
      * left. exists r. split; [exact C|]. split; [now right|exact H].
      * right. split; [exact C|]. intros r ([<-|I] & b' & B & N).
        -- cbn in B. injection B as <-. apply Nat.eqb_neq in E. now apply E.
        -- apply (H r). split; eauto.
Qed.
Lemma first_code_spec l : match first_code l with Some k => inherited_code l k | None => no_code l end.
Proof.
  unfold first_code. induction l as [|c l IH]; cbn [find]; [easy|]. destruct (own_code c) as [k|] eqn:E.
  - rewrite E. now apply ic_here.
  - destruct (find _ l) as [d|].
    + destruct (own_code d); [now apply ic_later|]. intros x [<-|I]; auto.
    + intros x [<-|I]; auto.
Qed.
Lemma inherited_fun l a b : inherited_code l a -> inherited_code l b -> a = b.
Proof. intro H; revert b; induction H; intros b B; inversion B; subst; try congruence; auto. Qed.
Lemma inherited_not l k : inherited_code l k -> ~ no_code l.
Proof. intros H N. induction H; [specialize (N c (or_introl eq_refl)); congruence|]. apply IHinherited_code. intros x I; apply N; now right. Qed.
Lemma code_eqb_iff a b : code_eqb a b = true <-> a = b.
Proof. destruct a, b; cbn; try rewrite Z.eqb_eq; split; congruence. Qed.
Lemma has_number_In n l : has_number n l = true <-> exists c, In c l /\ number c = n.
Proof. unfold has_number. rewrite existsb_exists. split; intros (c & I & E); exists c; split; auto; now apply Nat.eqb_eq. Qed.

Section Check.
  Variable mro : cls -> list cls.
  Lemma class_code_spec c k : class_code mro c = k <-> code_of_class (mro c) k.
  Proof.
    unfold class_code, code_of_class. assert (H := first_code_spec (mro c)). destruct (first_code (mro c)) as [k'|].
    - split; [intros <-; now left|]. intros [A|(A & _)]; [now apply (inherited_fun _ _ _ H)|]. exfalso. now apply (inherited_not _ _ H).
    - split; [intros <-; now right|]. intros [A|(_ & ->)]; [|reflexivity]. exfalso. now apply (inherited_not _ _ A).
  Qed.
  Lemma instance_code_spec i k : instance_code mro i = Ok k <-> code_of_instance i (mro (i_class i)) k.
  Proof.
    unfold instance_code, code_of_instance. destruct (i_code i) as [k'|].
    - split; [intro E; injection E as <-; now left|]. intros [A|(A & _)]; congruence.
    - assert (H := first_code_spec (mro (i_class i))). destruct (first_code _) as [k'|].
      + split; [intro E; injection E as <-; now right|]. intros [A|(_ & A)]; [discriminate|]. f_equal. now apply (inherited_fun _ _ _ H).
      + split; [discriminate|]. intros [A|(_ & A)]; [discriminate|]. exfalso. now apply (inherited_not _ _ A).
  Qed.
  Lemma check_ends c i : exists b, instance_check mro c i = Some b.
  Proof.
    unfold instance_check. destruct (subclass_check mro c i); eauto. destruct (number c =? coded); eauto.
    assert (A := climb_ends (S (heights [c])) [c] (Nat.lt_succ_diag_r _)). destruct (climb _ [c]); [|easy].
    assert (B := climb_ends (S (heights [i_class i])) [i_class i] (Nat.lt_succ_diag_r _)). destruct (climb _ [i_class i]); [|easy].
    destruct (negb _); eauto. destruct (instance_code mro i); eauto.
  Qed.
  Lemma check_sub c i : subclass_check mro c i = true -> instance_check mro c i = Some true.
  Proof. unfold instance_check. now intros ->. Qed.
  Lemma check_codes c i : instance_check mro c i = Some true -> subclass_check mro c i = true \/ (number c <> 0 /\ exists k, code_of_class (mro c) k /\ code_of_instance i (mro (i_class i)) k).
  Proof.
    unfold instance_check. destruct (subclass_check mro c i) eqn:S; [auto|]. destruct (number c =? coded) eqn:N; [congruence|].
    destruct (climb _ [c]); [|discriminate]. destruct (climb _ [i_class i]); [|discriminate]. destruct (negb _); [discriminate|].
    destruct (instance_code mro i) as [k|e] eqn:K; [|discriminate]. intro H. right. split; [now apply Nat.eqb_neq in N|]. exists k. apply instance_code_spec in K.
    split; [|exact K]. apply class_code_spec. injection H as H. now apply code_eqb_iff.
  Qed.
  Lemma check_single c i l li : lineage c l -> lineage (i_class i) li -> mro c = l -> mro (i_class i) = li -> identified (l ++ li) ->
    (instance_check mro c i = Some true <->
     In c li \/ (number c <> 0 /\ exists r k, hierarchy l r /\ hierarchy li r /\ code_of_class l k /\ code_of_instance i li k)).
  Proof.
    intros L Li M Mi D. destruct (lineage_head _ _ L) as (l0 & El).
    assert (Ic : In c (l ++ li)) by (rewrite El; now left).
    assert (S : subclass_check mro c i = true <-> In c li).
    { unfold subclass_check. rewrite Mi, has_number_In. split; [|eauto]. intros (x & I & E). replace c with x; auto. apply D; auto. apply in_app_iff; now right. }
    assert (Dl : identified l) by (intros a b A B; apply D; apply in_app_iff; now left).
    assert (Dli : identified li) by (intros a b A B; apply D; apply in_app_iff; now right).
    split.
    - intro H. destruct (check_codes c i H) as [A|(N & k & A & B)]; [left; now apply S|]. rewrite M in A. rewrite Mi in B.
      destruct (subclass_check mro c i) eqn:E; [left; now apply S|]. right. split; [exact N|].
      unfold instance_check in H. rewrite E in H. apply Nat.eqb_neq in N. unfold coded in H. rewrite N in H.
      assert (H1 := climb_lineage c l L (Datatypes.S (heights [c]))). assert (H2 := climb_lineage _ _ Li (Datatypes.S (heights [i_class i]))).
      unfold heights in H1, H2, H. cbn [map] in H1, H2, H. rewrite (height_lineage c l L) in H1, H. rewrite (height_lineage _ _ Li) in H2, H.
      change (list_max [length l]) with (Nat.max (length l) 0) in H1, H. change (list_max [length li]) with (Nat.max (length li) 0) in H2, H.
      destruct (H1 ltac:(lia)) as [(r & C1 & R1)|(C1 & _)]; rewrite C1 in H; [|destruct (climb _ [i_class i]); discriminate].
      destruct (H2 ltac:(lia)) as [(r' & C2 & R2)|(C2 & _)]; rewrite C2 in H; [|discriminate].
      unfold has_number in H. cbn [existsb] in H. rewrite !orb_false_r in H. destruct (number r' =? number r) eqn:Q; [|discriminate].
      apply Nat.eqb_eq in Q. assert (r' = r). { apply D; [apply in_app_iff; right; apply R2|apply in_app_iff; left; apply R1|exact Q]. } subst r'.
      exists r, k. auto.
    - intros [H|(N & r & k & R1 & R2 & A & B)]; [apply check_sub, S, H|].
      unfold instance_check. destruct (subclass_check mro c i) eqn:E; [reflexivity|]. apply Nat.eqb_neq in N. unfold coded. rewrite N.
      assert (H1 := climb_lineage c l L (Datatypes.S (heights [c]))). assert (H2 := climb_lineage _ _ Li (Datatypes.S (heights [i_class i]))).
      unfold heights in *. cbn [map] in *. rewrite (height_lineage c l L) in *. rewrite (height_lineage _ _ Li) in *.
      change (list_max [length l]) with (Nat.max (length l) 0) in *. change (list_max [length li]) with (Nat.max (length li) 0) in *.
      destruct (H1 ltac:(lia)) as [(r1 & C1 & Q1)|(C1 & Q1)]; rewrite C1; [|exfalso; eapply Q1; eauto].
      destruct (H2 ltac:(lia)) as [(r2 & C2 & Q2)|(C2 & Q2)]; rewrite C2; [|exfalso; eapply Q2; eauto].
      assert (r1 = r) by exact (hierarchy_unique c l r1 r L Dl Q1 R1). assert (r2 = r) by exact (hierarchy_unique _ li r2 r Li Dli Q2 R2). subst r1 r2.
      unfold has_number. cbn [existsb]. rewrite Nat.eqb_refl. cbn [orb negb].
      rewrite <- Mi in B. rewrite <- M in A. apply instance_code_spec in B. rewrite B. f_equal. apply code_eqb_iff. now apply class_code_spec.
  Qed.
End Check.
