From Coq Require Import Ascii String DecimalString DecimalNat.
From Verif Require Import Prelude PreludeFacts Files_Model Files_Spec.
Import ListNotations.
Open Scope list_scope.

Lemma is_ok : forall c d, is c d = true <-> c = d.
Proof. intros c d. apply Ascii.eqb_eq. Qed.
Lemma is_neq : forall c d, is c d = false <-> c <> d.
Proof. intros c d. apply Ascii.eqb_neq. Qed.
Lemma has_In : forall c p, has c p = true <-> In c p.
Proof. intros c p. unfold has. rewrite existsb_exists. split. - intros (x & I & E). apply is_ok in E. now subst. - intros I. exists c. split; auto. now apply is_ok. Qed.
Lemma has_nIn : forall c p, has c p = false <-> ~ In c p.
Proof. intros c p. rewrite <- has_In. destruct (has c p); split; intros; try discriminate; try congruence; auto. Qed.

(** ** os.path *)
Lemma cut_last_app : forall p, fst (cut_last p) ++ snd (cut_last p) = p.
Proof. induction p as [|c r IH]; simpl; auto. destruct (cut_last r) as [[|a h] t]; simpl in *. - destruct (is c sl); simpl; now rewrite IH. - now rewrite IH. Qed.
Lemma cut_last_tail : forall p, no_slash (snd (cut_last p)).
Proof.
  induction p as [|c r IH]; simpl; [intros []|]. destruct (cut_last r) as [[|a h] t]; simpl in *; auto. destruct (is c sl) eqn:E; simpl; auto. apply is_neq in E. intros [H|H]; [subst; congruence|contradiction].
Qed.
Lemma cut_last_head : forall p, fst (cut_last p) = [] \/ exists h, fst (cut_last p) = h ++ [sl].
Proof.
  induction p as [|c r IH]; simpl; auto. destruct (cut_last r) as [[|a h] t]; simpl in *.
  - destruct (is c sl) eqn:E; simpl; auto. apply is_ok in E; subst. right. exists []. reflexivity.
  - right. destruct IH as [IH|(h' & IH)]; [discriminate|]. exists (c :: h'). rewrite IH. reflexivity.
Qed.
Lemma rstrip_app : forall p, exists k, p = rstrip p ++ repeat sl k.
Proof.
  induction p as [|c r [k IH]]; simpl; [exists 0; auto|]. destruct (rstrip r) as [|a s] eqn:E.
  - destruct (is c sl) eqn:F. + apply is_ok in F; subst c. exists (S k). simpl in *. now rewrite IH at 1. + exists k. simpl in *. now rewrite IH at 1.
  - exists k. simpl. now rewrite IH at 1.
Qed.
Lemma rstrip_end : forall p, rstrip p = [] \/ exists s c, rstrip p = s ++ [c] /\ c <> sl.
Proof.
  induction p as [|c r IH]; simpl; auto. destruct (rstrip r) as [|a s] eqn:E.
  - destruct (is c sl) eqn:F; auto. right. exists [], c. split; auto. now apply is_neq.
  - right. destruct IH as [IH|(s' & d & IH & N)]; [discriminate|]. exists (c :: s'), d. rewrite IH. auto.
Qed.
Lemma ends_snoc : forall s c, ends_with_sl (s ++ [c]) = is c sl.
Proof. intros s c. unfold ends_with_sl. now rewrite rev_app_distr. Qed.
Lemma os_split_tail : forall p, no_slash (snd (os_split p)).
Proof. intros p. unfold os_split. pose proof (cut_last_tail p) as H. destruct (cut_last p) as [h t]. destruct (forallb _ h); exact H. Qed.
(** for relative paths *)
Lemma os_split_relative : forall p, relative p -> let (h, t) := os_split p in
  h = [] /\ t = p /\ no_slash p \/ exists s c k, h = s ++ [c] /\ c <> sl /\ relative h /\ p = h ++ repeat sl (S k) ++ t /\ no_slash t.
Proof.
  intros p R. unfold os_split. pose proof (cut_last_tail p) as T. pose proof (cut_last_app p) as A. pose proof (cut_last_head p) as H.
  destruct (cut_last p) as [h t]. simpl in *. destruct H as [->|(h' & ->)].
  - simpl in *. left. subst. auto.
  - assert (R' : relative (h' ++ [sl])). { rewrite <- A in R. destruct h'; simpl in *; auto. }
    destruct (forallb (fun c => is c sl) (h' ++ [sl])) eqn:F.
    + destruct h' as [|x h']; simpl in *; [congruence|]. apply andb_true_iff in F. destruct F as [F _]. apply is_ok in F. contradiction.
    + right. destruct (rstrip_app (h' ++ [sl])) as [k K]. destruct (rstrip_end (h' ++ [sl])) as [Z|(s & c & Z & N)].
      * rewrite Z in K. simpl in K. rewrite K in F. exfalso. clear -F. assert (forallb (fun c => is c sl) (repeat sl k) = true) by (induction k; simpl; auto). congruence.
      * rewrite Z in *. destruct k as [|k].
        -- simpl in K. rewrite app_nil_r in K. apply app_inj_tail in K. destruct K as [_ K]. congruence.
        -- exists s, c, k. split; auto. split; auto. split. { rewrite K in R'. clear -R'. destruct s; simpl in *; auto. } split; auto. rewrite <- A, K at 1. now rewrite <- app_assoc.
Qed.
Lemma join2_noslash : forall a b, no_slash b -> exists pre, forall b', no_slash b' -> b' <> [] -> join2 a b' = pre ++ b'.
Proof.
  intros a b _. destruct a as [|x a]. - exists []. intros [|c b'] N E; simpl; auto. replace (is c sl) with false; auto. symmetry. apply is_neq. intros ->. apply N. now left.
  - destruct (ends_with_sl (x :: a)) eqn:E.
    + exists (x :: a). intros [|c b'] N E'; [congruence|]. unfold join2. rewrite E. replace (is c sl) with false; auto. symmetry. apply is_neq. intros ->. apply N. now left.
    + exists ((x :: a) ++ [sl]). intros [|c b'] N E'; [congruence|]. unfold join2. rewrite E, <- app_assoc. replace (is c sl) with false; auto. symmetry. apply is_neq. intros ->. apply N. now left.
Qed.

(** ** names *)
Lemma str_of_inj : forall n m, str_of n = str_of m -> n = m.
Proof.
  intros n m E. unfold str_of in E. apply (f_equal string_of_list_ascii) in E. rewrite !string_of_list_ascii_of_string in E.
  apply (f_equal NilEmpty.uint_of_string) in E. rewrite !NilEmpty.usu in E. inversion E. now apply Unsigned.to_uint_inj.
Qed.
Lemma string_digits : forall d, ~ In sl (list_ascii_of_string (NilEmpty.string_of_uint d)).
Proof. induction d; simpl; try (intros [H|H]; [discriminate|contradiction]). auto. Qed.
Lemma str_of_noslash : forall n, no_slash (str_of n).
Proof. intros n. apply string_digits. Qed.
Lemma split_on_ne : forall c p, split_on c p <> [].
Proof. intros c [|d r]; simpl; try discriminate. destruct (is d c); try discriminate. destruct (split_on c r); discriminate. Qed.
Lemma join_split : forall c p, join_on c (split_on c p) = p.
Proof.
  induction p as [|d r IH]; simpl; auto. pose proof (split_on_ne c r) as N. destruct (is d c) eqn:E.
  - apply is_ok in E; subst. destruct (split_on c r) eqn:F; [congruence|]. cbn [join_on app]. now rewrite <- IH.
  - destruct (split_on c r) as [|w [|w' ws]] eqn:F; [congruence| |]; simpl in *; now rewrite <- IH.
Qed.
Lemma split_on_last : forall c p, ~ In c (last (split_on c p) []).
Proof.
  induction p as [|d r IH]; simpl; auto. pose proof (split_on_ne c r) as N. destruct (is d c) eqn:E.
  - destruct (split_on c r) eqn:F; [congruence|]. exact IH.
  - apply is_neq in E. destruct (split_on c r) as [|w [|w' ws]] eqn:F; [congruence| |]; simpl in *; auto. intros [H|H]; [congruence|auto].
Qed.
Lemma join_removelast : forall c l, 2 <= length l -> join_on c l = join_on c (removelast l) ++ c :: last l [].
Proof.
  induction l as [|w [|w' l] IH]; simpl; intros H; try lia. destruct l as [|w'' l]; simpl in *; auto. rewrite <- app_assoc. simpl. f_equal. f_equal. apply IH. lia.
Qed.
Lemma split_on_two : forall c p, In c p -> 2 <= length (split_on c p).
Proof.
  induction p as [|d r IH]; simpl; [contradiction|]. intros H. pose proof (split_on_ne c r) as N. destruct (is d c) eqn:E.
  - destruct (split_on c r); [congruence|]. simpl. lia.
  - apply is_neq in E. destruct H as [H|H]; [congruence|]. specialize (IH H). destruct (split_on c r); simpl in *; lia.
Qed.
(** how the parts of the name are found *)
Definition stem_of (filename : path) : path := if has dot filename then join_on dot (removelast (split_on dot filename)) else filename.
Definition ext_of (filename : path) : path := if has dot filename then dot :: last (split_on dot filename) [] else [].
Lemma parts_ok : forall f, extension_of f (stem_of f) (ext_of f).
Proof.
  intros f. unfold extension_of, stem_of, ext_of. destruct (has dot f) eqn:H.
  - apply has_In in H. split. + rewrite <- (join_split dot f) at 1. apply join_removelast. now apply split_on_two. + right. eexists. split; eauto. apply split_on_last.
  - apply has_nIn in H. split. + now rewrite app_nil_r. + left; auto.
Qed.
Lemma parts_unique : forall f s e s' e', extension_of f s e -> extension_of f s' e' -> s = s' /\ e = e'.
Proof.
  intros f s e s' e' (A & B) (A' & B'). destruct B as [(B & N)|(x & B & N)], B' as [(B' & N')|(x' & B' & N')]; subst; rewrite ?app_nil_r in *; auto.
  - exfalso. apply N. rewrite A'. apply in_or_app. right; now left.
  - exfalso. apply N'. apply in_or_app. right; now left.
  - assert (G : forall (s s' x x' : path), ~ In dot x -> ~ In dot x' -> s ++ dot :: x = s' ++ dot :: x' -> s = s' /\ x = x').
    { induction s0 as [|a s0 IH]; intros [|a' s0'] y y' Ny Ny' E; simpl in E; inversion E; subst; auto.
      - exfalso. apply Ny. apply in_or_app; right; now left.
      - exfalso. apply Ny'. apply in_or_app; right; now left.
      - destruct (IH _ _ _ Ny Ny' H1). subst. auto. }
    destruct (G _ _ _ _ N N' A'). subst. auto.
Qed.
Definition addition (k : nat) : path := match k with O => [] | _ => dot :: str_of k end.
Lemma nc_loop_ok : forall ex fuel dir stem ext k r, nc_loop ex fuel dir stem (addition k) ext k = Some r ->
  exists n, k <= n /\ r = candidate dir stem ext n /\ ex r = false /\ forall j, k <= j < n -> ex (candidate dir stem ext j) = true.
Proof.
  induction fuel as [|fuel IH]; simpl; intros dir stem ext k r E; [discriminate|].
  change (join2 dir (stem ++ addition k ++ ext)) with (candidate dir stem ext k) in *. destruct (ex (candidate dir stem ext k)) eqn:X.
  - replace (dot :: str_of (k + 1)) with (addition (k + 1)) in E by (rewrite Nat.add_1_r; reflexivity). destruct (IH _ _ _ _ _ E) as (n & A & B & C & D).
    exists n. repeat split; auto; try lia. intros j J. destruct (Nat.eq_dec j k) as [->|]; auto. apply D. lia.
  - inversion E; subst. exists k. repeat split; auto. intros; lia.
Qed.
Lemma nc_loop_none : forall ex fuel dir stem ext k, nc_loop ex fuel dir stem (addition k) ext k = None -> forall j, k <= j < k + fuel -> ex (candidate dir stem ext j) = true.
Proof.
  induction fuel as [|fuel IH]; simpl; intros dir stem ext k E j J; [lia|].
  change (join2 dir (stem ++ addition k ++ ext)) with (candidate dir stem ext k) in *. destruct (ex (candidate dir stem ext k)) eqn:X; [|discriminate].
  replace (dot :: str_of (k + 1)) with (addition (k + 1)) in E by (rewrite Nat.add_1_r; reflexivity).
  destruct (Nat.eq_dec j k) as [->|]; auto. apply (IH _ _ _ _ E). lia.
Qed.
Lemma make_unfold : forall ex fuel p, make_noncolliding_name ex fuel p = nc_loop ex fuel (fst (os_split p)) (stem_of (snd (os_split p))) (addition 0) (ext_of (snd (os_split p))) 0.
Proof. intros ex fuel p. unfold make_noncolliding_name, stem_of, ext_of. destruct (os_split p) as [d f]; simpl. destruct (has dot f); reflexivity. Qed.
Lemma nc_ok : forall ex fuel p r dir filename stem ext, os_split p = (dir, filename) -> extension_of filename stem ext -> make_noncolliding_name ex fuel p = Some r ->
  exists n, r = candidate dir stem ext n /\ ex r = false /\ forall j, j < n -> ex (candidate dir stem ext j) = true.
Proof.
  intros ex fuel p r dir filename stem ext S X E. rewrite make_unfold, S in E. cbn [fst snd] in E.
  destruct (parts_unique _ _ _ _ _ X (parts_ok filename)) as [Hs He]. subst stem ext. destruct (nc_loop_ok _ _ _ _ _ _ _ E) as (n & _ & A & B & C). exists n. repeat split; auto. intros; apply C; lia.
Qed.
Lemma candidate_inj : forall dir stem ext, no_slash (stem ++ ext) -> forall j k, 1 <= j -> 1 <= k -> candidate dir stem ext j = candidate dir stem ext k -> j = k.
Proof.
  intros dir stem ext N j k J K E. unfold candidate in E. destruct j as [|j], k as [|k]; try lia.
  destruct (join2_noslash dir (stem ++ ext) N) as [pre P]. 
  assert (Q : forall n, no_slash (stem ++ (dot :: str_of n) ++ ext)).
  { intros n I. apply in_app_or in I. destruct I as [I|I]; [apply N; apply in_or_app; auto|]. apply in_app_or in I. destruct I as [[I|I]|I]; [discriminate|now apply (str_of_noslash n)|]. apply N; apply in_or_app; auto. }
  rewrite !P in E; auto; try (intros H; apply (f_equal (@length ascii)) in H; rewrite !app_length in H; simpl in H; lia).
  apply app_inv_head in E. apply app_inv_head in E. apply app_inv_tail in E. inversion E as [E']. now apply str_of_inj in E'.
Qed.
Lemma nc_ends : forall ex l p, (forall q, ex q = true -> In q l) -> exists r, make_noncolliding_name ex (S (S (length l))) p = Some r.
Proof.
  intros ex l p F. destruct (make_noncolliding_name ex (S (S (length l))) p) eqn:E; eauto. exfalso. rewrite make_unfold in E.
  pose proof (nc_loop_none _ _ _ _ _ _ E) as A. set (d := fst (os_split p)) in *. set (f := snd (os_split p)) in *. 
  assert (NS : no_slash (stem_of f ++ ext_of f)). { destruct (parts_ok f) as [P _]. rewrite <- P. apply os_split_tail. }
  assert (ND : NoDup (map (candidate d (stem_of f) (ext_of f)) (seq 1 (S (length l))))).
  { apply NoDup_nth with (d := []). intros i j Hi Hj Eq. rewrite map_length, seq_length in *.
    rewrite !(nth_indep _ [] (candidate d (stem_of f) (ext_of f) 0)) in Eq by (rewrite map_length, seq_length; lia). rewrite !map_nth, !seq_nth in Eq by lia. apply candidate_inj in Eq; auto; lia. }
  apply NoDup_incl_length with (l' := l) in ND.
  - rewrite map_length, seq_length in ND. lia.
  - intros q I. apply in_map_iff in I. destruct I as (j & <- & I). apply in_seq in I. apply F. apply A. lia.
Qed.

(** ** split *)
Lemma squeeze_no_slash : forall p, no_slash p -> squeeze p = p.
Proof.
  induction p as [|c r IH]; simpl; intros N; auto. destruct r as [|d r]; auto. replace (is c sl) with false. - simpl andb. cbv iota. f_equal. apply IH. intros I; apply N; now right.
  - symmetry. apply is_neq. intros ->. apply N. now left.
Qed.
Lemma squeeze_slashes : forall k t, no_slash t -> squeeze (repeat sl (S k) ++ t) = sl :: t.
Proof.
  induction k as [|k IH]; intros t N; simpl.
  - destruct t as [|d t]; auto. replace (is d sl) with false. + simpl. f_equal. now apply (squeeze_no_slash (d :: t)). + symmetry. apply is_neq. intros ->. apply N. now left.
  - specialize (IH t N). simpl in IH. exact IH.
Qed.
Lemma squeeze_app : forall a c r, c <> sl -> squeeze (a ++ c :: r) = squeeze (a ++ [c]) ++ (match r with [] => [] | _ => squeeze r end).
Proof.
  induction a as [|x a IH]; intros c r N; simpl.
  - destruct r as [|d r]; auto. replace (is c sl) with false by (symmetry; now apply is_neq). reflexivity.
  - destruct a as [|y a]; simpl in *.
    + rewrite (IH c r N). replace (is c sl) with false by (symmetry; now apply is_neq). rewrite andb_false_r. reflexivity.
    + rewrite (IH c r N). destruct (is x sl && is y sl); reflexivity.
Qed.
Lemma squeeze_end : forall s c, c <> sl -> exists s', squeeze (s ++ [c]) = s' ++ [c].
Proof.
  induction s as [|x s IH]; intros c N; simpl. - exists []; auto.
  - destruct (IH c N) as [s' E]. destruct (s ++ [c]) as [|y r] eqn:F. { destruct s; discriminate. } rewrite E. destruct (is x sl && is y sl). + exists s'; auto. + exists (x :: s'). reflexivity.
Qed.
Lemma join2_squeeze : forall s c t, c <> sl -> no_slash t -> join2 (squeeze (s ++ [c])) t = squeeze (s ++ [c]) ++ sl :: t.
Proof.
  intros s c t N T. destruct (squeeze_end s c N) as [s' ->]. unfold join2. rewrite ends_snoc. replace (is c sl) with false by (symmetry; now apply is_neq).
  destruct t as [|d t]. - destruct (s' ++ [c]) eqn:F; auto. destruct s'; discriminate.
  - replace (is d sl) with false by (symmetry; apply is_neq; intros ->; apply T; now left). destruct (s' ++ [c]) eqn:F; auto. destruct s'; discriminate.
Qed.
Lemma step_squeeze : forall p, relative p -> let (a, b) := os_split p in join2 (squeeze a) b = squeeze p.
Proof.
  intros p R. pose proof (os_split_relative p R) as H. destruct (os_split p) as [a b]. destruct H as [(-> & -> & N)|(s & c & k & -> & N & Ra & -> & T)].
  - rewrite (squeeze_no_slash p N). simpl. destruct p as [|d p]; auto. simpl. replace (is d sl) with false by (symmetry; apply is_neq; intros ->; apply N; now left). reflexivity.
  - rewrite join2_squeeze by auto. rewrite <- app_assoc. cbn [app]. rewrite (squeeze_app s c (repeat sl (S k) ++ b) N). f_equal.
    symmetry. apply (squeeze_slashes k b T).
Qed.
Definition calm (p : path) : Prop := relative p /\ (p = [] \/ exists s c, p = s ++ [c] /\ c <> sl).
Lemma not_separated : forall p, calm p -> has_separator p = false -> no_slash p.
Proof.
  intros p (R & E) H I. assert (G : has sl p = true) by (now apply has_In). unfold has_separator in H. destruct p as [|a [|b [|c [|d p]]]]; try (rewrite G in H; discriminate).
  destruct (is b colon && (is c sl || is c bs)) eqn:D; [|rewrite G in H; discriminate]. apply andb_true_iff in D. destruct D as [D1 D2]. apply is_ok in D1; subst.
  destruct E as [E|(s & x & E & N)]; [discriminate|]. destruct s as [|y [|z [|w s]]]; inversion E; subst. 2: { destruct s; discriminate. }
  apply orb_true_iff in D2. destruct D2 as [D|D]; apply is_ok in D; subst; [congruence|]. simpl in R, I. destruct I as [I|[I|[I|[]]]]; try discriminate. subst. apply R. reflexivity.
Qed.
Lemma split_loop_ok : forall n h r fuel, calm h -> length h <= n -> n + 2 <= fuel -> exists l, split_loop fuel (h :: r) = Some l /\ join l = fold_left join2 r (squeeze h).
Proof.
  induction n as [|n IH]; intros h r fuel C L F; destruct fuel as [|fuel]; try lia; simpl.
  - destruct h; simpl in *; [|lia]. eexists; split; eauto.
  - destruct (has_separator h) eqn:S.
    + pose proof (step_squeeze h (proj1 C)) as Q. pose proof (os_split_relative h (proj1 C)) as H. destruct (os_split h) as [a b]. rewrite <- Q.
      destruct H as [(-> & -> & N)|(s & c & k & -> & N & Ra & -> & T)].
      * destruct fuel as [|fuel]; [lia|]. simpl. eexists; split; eauto. 
      * destruct (IH (s ++ [c]) (b :: r) fuel) as (l & A & B).
        -- split; auto. right. eauto.
        -- rewrite !app_length in *. simpl in *. lia.
        -- lia.
        -- exists l. split; auto.
    + eexists; split; eauto. simpl. now rewrite (squeeze_no_slash h (not_separated h C S)).
Qed.
Lemma split_ok : forall p, relative p -> exists l, split (length p + 2) p = Some l /\ join l = squeeze p.
Proof.
  intros p R. unfold split. pose proof (step_squeeze p R) as Q. pose proof (os_split_relative p R) as H. destruct (os_split p) as [a b]. rewrite <- Q.
  destruct H as [(-> & -> & N)|(s & c & k & -> & N & Ra & -> & T)].
  - destruct (split_loop_ok 0 [] [p] (length p + 2)) as (l & A & B); simpl; try lia; eauto. split; simpl; auto.
  - destruct (split_loop_ok (length (s ++ [c])) (s ++ [c]) [b] (length ((s ++ [c]) ++ repeat sl (S k) ++ b) + 2)) as (l & A & B); auto.
    + split; auto. right; eauto. + rewrite (app_length (s ++ [c])). lia. + eauto.
Qed.
Lemma split_loop_more : forall fuel data l, split_loop fuel data = Some l -> split_loop (S fuel) data = Some l.
Proof.
  induction fuel as [|fuel IH]; intros data l E; [discriminate|]. destruct data as [|h r]; auto. cbn [split_loop] in *. destruct (has_separator h) eqn:H; auto.
  destruct (os_split h) as [a b]. exact (IH (a :: b :: r) l E).
Qed.
Lemma split_det : forall k fuel p l, split fuel p = Some l -> split (fuel + k) p = Some l.
Proof.
  induction k as [|k IH]; intros fuel p l E. - now rewrite Nat.add_0_r. - rewrite Nat.add_succ_r. specialize (IH fuel p l E). unfold split in *. destruct (os_split p). now apply split_loop_more.
Qed.
Lemma no_double_squeeze : forall p, no_double p <-> squeeze p = p.
Proof.
  assert (L : forall p, length (squeeze p) <= length p).
  { induction p as [|c [|d r] IH]; simpl; auto. simpl in IH. destruct (is c sl && is d sl); simpl; lia. }
  induction p as [|c r IH]; simpl; [tauto|]. destruct r as [|d r].
  - split; auto. intros _. split; [intros (_ & t & E); discriminate|exact I].
  - destruct (is c sl && is d sl) eqn:E.
    + apply andb_true_iff in E. destruct E as [E1 E2]. apply is_ok in E1, E2; subst. split. * intros [A _]. exfalso. apply A. eauto.
      * intros A. exfalso. specialize (L (sl :: r)). rewrite A in L. simpl in L. lia.
    + rewrite IH. split. * intros [_ A]. now rewrite A. * intros A. split. -- intros (-> & t & Et). inversion Et; subst. discriminate. -- apply (f_equal (@tl ascii)) in A. exact A.
Qed.
Lemma rstrip_absolute : forall r, forallb (fun c => is c sl) (sl :: r) = false -> exists r', rstrip (sl :: r) = sl :: r'.
Proof.
  intros r F. simpl. destruct (rstrip r) as [|a s] eqn:E; eauto. exfalso. destruct (rstrip_app r) as [k K]. rewrite E in K. simpl in K. subst. simpl in F.
  assert (forallb (fun c => is c sl) (repeat sl k) = true) by (clear; induction k; simpl; auto). congruence.
Qed.
Lemma os_split_absolute : forall p, absolute p -> absolute (fst (os_split p)).
Proof.
  intros p [r ->]. unfold os_split. assert (A : exists h, fst (cut_last (sl :: r)) = sl :: h).
  { simpl. destruct (cut_last r) as [[|a h] t]; simpl; eauto. }
  destruct A as [h A]. destruct (cut_last (sl :: r)) as [h' t]. cbn [fst] in A. subst h'. destruct (forallb (fun c => is c sl) (sl :: h)) eqn:F.
  - exists h. reflexivity.
  - destruct (rstrip_absolute h F) as [r' E]. exists r'. exact E.
Qed.
Lemma os_split_sub : forall p c, In c (fst (os_split p)) -> In c p.
Proof.
  intros p c I. unfold os_split in I. pose proof (cut_last_app p) as A. destruct (cut_last p) as [h t]. simpl in A. rewrite <- A. apply in_or_app. left.
  destruct (forallb _ h); simpl in I; auto. destruct (rstrip_app h) as [k K]. rewrite K. apply in_or_app. now left.
Qed.
(** a head that comes out of os.path.split does not end with a slash, unless it is nothing but slashes *)
Definition headlike (p : path) : Prop := forallb (fun c => is c sl) p = true \/ exists s c, p = s ++ [c] /\ c <> sl.
Lemma os_split_headlike : forall p, headlike (fst (os_split p)).
Proof.
  intros p. unfold os_split. destruct (cut_last p) as [h t]. destruct (forallb (fun c => is c sl) h) eqn:F; simpl; [left; auto|]. destruct (rstrip_end h) as [E|(s & c & E & N)].
  - exfalso. destruct (rstrip_app h) as [k K]. rewrite E in K. simpl in K. subst. clear E. assert (forallb (fun c => is c sl) (repeat sl k) = true) by (clear; induction k; simpl; auto). congruence.
  - right. eauto.
Qed.
Lemma absolute_separated : forall p, absolute p -> headlike p -> ~ In bs p -> has_separator p = true.
Proof.
  intros p [r ->] H B. assert (G : has sl (sl :: r) = true) by (apply has_In; now left). unfold has_separator. destruct r as [|b [|c [|d r]]]; try (now rewrite G).
  destruct (is b colon && (is c sl || is c bs)) eqn:D; [|now rewrite G]. exfalso. apply andb_true_iff in D. destruct D as [D1 D2]. apply is_ok in D1; subst.
  apply orb_true_iff in D2. destruct D2 as [D|D]; apply is_ok in D; subst.
  - destruct H as [H|(s & x & E & N)]. + discriminate. + destruct s as [|y [|z [|w s]]]; inversion E; subst; [congruence|]. destruct s; discriminate.
  - apply B. simpl; auto.
Qed.
Lemma split_absolute : forall fuel p, absolute p -> ~ In bs p -> split fuel p = None.
Proof.
  assert (L : forall fuel h r, absolute h -> headlike h -> ~ In bs h -> split_loop fuel (h :: r) = None).
  { induction fuel as [|fuel IH]; intros h r A H B; auto. cbn [split_loop]. rewrite absolute_separated by auto. pose proof (os_split_absolute h A) as A'. pose proof (os_split_headlike h) as H'. pose proof (os_split_sub h bs) as B'.
    destruct (os_split h) as [a b]. simpl in *. apply IH; auto. }
  intros fuel p A B. unfold split. pose proof (os_split_absolute p A) as A'. pose proof (os_split_headlike p) as H'. pose proof (os_split_sub p bs) as B'. destruct (os_split p) as [a b]. simpl in *. apply L; auto.
Qed.

(** ** find_files *)
Section EntryInd.
  Variable Q : entry -> Prop.
  Hypothesis HF : forall n, Q (EFile n).
  Hypothesis HD : forall n es, Forall Q es -> Q (EDir n es).
  Fixpoint entry_ind' (e : entry) : Q e :=
    match e with
    | EFile n => HF n
    | EDir n es => HD n es ((fix go l : Forall Q l := match l with [] => Forall_nil Q | x :: m => Forall_cons x (entry_ind' x) (go m) end) es)
    end.
End EntryInd.
Lemma files_under_ne : forall e names, In names (files_under e) -> names <> [].
Proof. intros [n|n es] names I; simpl in I. - destruct I as [<-|[]]; discriminate. - apply in_map_iff in I. destruct I as (x & <- & _). discriminate. Qed.
Lemma cond_under : forall prefix n, cond_join prefix n = under prefix [n].
Proof. intros [p|] n; reflexivity. Qed.
Lemma under_cons : forall prefix n names, under (Some (cond_join prefix n)) names = under prefix (n :: names).
Proof. intros [p|] n names; reflexivity. Qed.
Lemma filter_map_comm : forall A B (f : A -> B) g l, filter g (map f l) = map f (filter (fun x => g (f x)) l).
Proof. induction l as [|x l IH]; simpl; auto. destruct (g (f x)); simpl; now rewrite IH. Qed.
Lemma filter_ext_in' : forall A (f g : A -> bool) l, (forall x, In x l -> f x = g x) -> filter f l = filter g l.
Proof. induction l as [|x l IH]; simpl; intros H; auto. rewrite H by auto. rewrite IH by auto. reflexivity. Qed.
Lemma filter_flat_map : forall A B (f : A -> list B) g l, filter g (flat_map f l) = flat_map (fun x => filter g (f x)) l.
Proof. induction l as [|x l IH]; simpl; auto. now rewrite filter_app, IH. Qed.
Lemma map_flat_map : forall A B C (f : A -> list B) (g : B -> C) l, map g (flat_map f l) = flat_map (fun x => map g (f x)) l.
Proof. induction l as [|x l IH]; simpl; auto. now rewrite map_app, IH. Qed.
Lemma flat_map_ext_F : forall A B (f g : A -> list B) l, Forall (fun x => f x = g x) l -> flat_map f l = flat_map g l.
Proof. induction 1; simpl; congruence. Qed.
Lemma find_in_ok : forall m e prefix, find_in m true false prefix e = map (under prefix) (filter (fun names => m (last names [])) (files_under e)).
Proof.
  intros m. induction e as [n|n es IH] using entry_ind'; intros prefix; simpl.
  - unfold find_leaf. destruct (m n); simpl; now rewrite ?cond_under.
  - rewrite filter_map_comm, map_map. rewrite (filter_ext_in' _ _ (fun names => m (last names []))).
    + rewrite filter_flat_map, map_flat_map. apply flat_map_ext_F. eapply Forall_impl; [|exact IH]. intros e H. simpl in H. rewrite H. apply map_ext. intros names. apply under_cons.
    + intros names I. apply in_flat_map in I. destruct I as (e & _ & I). apply files_under_ne in I. destruct names; [exfalso; now apply I|]. reflexivity.
Qed.
Lemma wanted_flat : forall m whole prefix es, wanted m whole prefix es = flat_map (fun e => map (under prefix) (filter (fun names => m (if whole then under prefix names else last names [])) (files_under e))) es.
Proof. intros. unfold wanted, files_of. now rewrite filter_flat_map, map_flat_map. Qed.
Lemma find_ok : forall m p es prefix pwp, find_files m p es prefix true false pwp = wanted m false (the_prefix p prefix pwp) es.
Proof.
  intros m p es prefix pwp. rewrite wanted_flat. unfold find_files. replace (if pwp then Some (cond_join prefix p) else prefix) with (the_prefix p prefix pwp) by (destruct pwp, prefix; reflexivity).
  apply flat_map_ext_F. apply Forall_forall. intros e _. apply find_in_ok.
Qed.
Lemma find_flat_ok : forall m p es prefix scan whole pwp, Forall (fun e => match e with EFile _ => True | EDir _ _ => False end) es ->
  find_files m p es prefix scan whole pwp = wanted m whole (the_prefix p prefix pwp) es.
Proof.
  intros m p es prefix scan whole pwp F. rewrite wanted_flat. unfold find_files. replace (if pwp then Some (cond_join prefix p) else prefix) with (the_prefix p prefix pwp) by (destruct pwp, prefix; reflexivity).
  apply flat_map_ext_F. eapply Forall_impl; [|exact F]. intros [n|n es'] H; [|contradiction]. simpl. unfold find_leaf. rewrite cond_under. destruct whole; simpl; match goal with |- (if ?b then _ else _) = _ => destruct b end; reflexivity.
Qed.

(** ** Reading and writing *)
Section RW.
  Variables P B D : Type.
  Variable peqb : P -> P -> bool.
  Hypothesis pok : eqb_ok peqb.
  Variable deqb : D -> D -> bool.
  Hypothesis dok : eqb_ok deqb.
  Variable encode : D -> option (list B).
  Variable decode : list B -> option D.
  Notation fs := (fs P B).
  Notation wofid := (@write_out_file_if_different P B D peqb deqb encode decode).
  Notation wtf := (@write_to_file P B D peqb encode).
  Notation rif := (@read_in_file P B D decode).
  Lemma put_other : forall (f : fs) p x q, q <> p -> put peqb f p x q = f q.
  Proof. intros f p x q N. unfold put. replace (peqb p q) with false; auto. symmetry. apply (eqb_false_iff pok). auto. Qed.
  Lemma put_same : forall (f : fs) p x, put peqb f p x p = x.
  Proof. intros f p x. unfold put. now rewrite (eqb_refl' pok). Qed.
  Lemma write_others : forall cuts (f : fs) p d g q, In g (snd (wtf cuts f p d)) -> q <> p -> g q = f q.
  Proof.
    intros cuts f p d g q I N. unfold write_to_file in I. 
    assert (G : forall r g, In g (snd (match encode d with Some bytes => (FOk tt, put peqb f p (File [] r true) :: map (fun k => put peqb f p (File (firstn k bytes) r true)) cuts ++ [put peqb f p (File bytes r true)]) | None => (FErr EncodeError, [put peqb f p (File [] r true)]) end)) -> g q = f q).
    { intros r g' J. destruct (encode d) as [bytes|]; simpl in J.
      - destruct J as [<-|J]; [now apply put_other|]. apply in_app_or in J. destruct J as [J|[<-|[]]]; [|now apply put_other]. apply in_map_iff in J. destruct J as (k & <- & _). now apply put_other.
      - destruct J as [<-|[]]. now apply put_other. }
    destruct (f p) as [| | |c r [|]]; simpl in I; try contradiction; eapply G; eauto.
  Qed.
  Lemma and_true_states : forall x, snd (@and_true P B x) = snd x.
  Proof. intros [[|] l]; reflexivity. Qed.
  Lemma others_ok : forall cuts (f : fs) p d g q, In g (snd (wofid cuts f p d)) -> q <> p -> g q = f q.
  Proof.
    intros cuts f p d g q I N. unfold write_out_file_if_different in I. destruct (rif f p) as [d'|e].
    - destruct (deqb d' d); [contradiction|]. rewrite and_true_states in I. eapply write_others; eauto.
    - destruct e; simpl in I; try contradiction. rewrite and_true_states in I. eapply write_others; eauto.
  Qed.
  Lemma last_snoc3 : forall S (a : S) l b c, last (a :: l ++ [b]) c = b.
  Proof. intros. change (a :: l ++ [b]) with ((a :: l) ++ [b]). apply last_last. Qed.
  (** what is written over can be written over and read *)
  Definition ready (x : node B) : Prop := x = Absent \/ exists c, x = File c true true /\ decode c <> None.
  Lemma write_ok : forall cuts (f : fs) p d bytes, ready (f p) -> encode d = Some bytes ->
    fst (wtf cuts f p d) = FOk tt /\ last_state f (snd (wtf cuts f p d)) p = File bytes true true.
  Proof.
    intros cuts f p d bytes R E. unfold write_to_file, last_state. destruct R as [R|(c & R & _)]; rewrite R, E; simpl fst; simpl snd; rewrite last_snoc3; split; auto; apply put_same.
  Qed.
  Lemma wofid_ok : forall cuts (f : fs) p d bytes, ready (f p) -> encode d = Some bytes -> decode bytes = Some d ->
    let (r, states) := wofid cuts f p d in
    rif (last_state f states) p = FOk d /\ (r = FOk false /\ rif f p = FOk d /\ states = [] \/ r = FOk true /\ rif f p <> FOk d).
  Proof.
    intros cuts f p d bytes R E Dd. destruct (write_ok cuts f p d bytes R E) as [W1 W2]. unfold write_out_file_if_different. destruct (rif f p) as [d'|e] eqn:Rd.
    - destruct (deqb d' d) eqn:Q.
      + apply dok in Q; subst. simpl. split; auto.
      + destruct (wtf cuts f p d) as [[[]|?] st]; simpl in *; try discriminate. split.
        * unfold read_in_file. rewrite W2, Dd. reflexivity.
        * right. split; auto. intros H. inversion H; subst. rewrite (eqb_refl' dok) in Q. discriminate.
    - assert (e = FileNotFound). { unfold read_in_file in Rd. destruct R as [R|(c & R & N)]; rewrite R in Rd; [congruence|]. destruct (decode c) eqn:Dc; [discriminate|contradiction]. }
      subst. destruct (wtf cuts f p d) as [[[]|?] st]; simpl in *; try discriminate. split.
      + unfold read_in_file. rewrite W2, Dd. reflexivity.
      + right. split; auto. discriminate.
  Qed.
End RW.

(** ** AutoflushFile *)
Section AF.
  Variable B : Type.
  Variable zero : B.
  Lemma auto_ok : forall ops (s : auto B), handle s = None -> map snd (auto_run zero s ops) = auto_expected zero (disk s) (negb (closed s)) ops.
  Proof.
    induction ops as [|op ops IH]; intros s H; simpl; auto. destruct s as [dk h cl cr]; simpl in *; subst h.
    destruct op as [d| |k|[n|]| |c]; unfold auto_step; simpl; destruct cl, cr; simpl; try (f_equal; rewrite IH by reflexivity; reflexivity).
    all: unfold at_pos, open_file; cbn [disk handle]; rewrite firstn_all, Nat.sub_diag; simpl; rewrite app_nil_r; f_equal; rewrite IH by reflexivity; reflexivity.
  Qed.
  Lemma answers_ok : forall ops (s : auto B), handle s = None -> map fst (auto_run zero s ops) = auto_answers zero (can_read s) (disk s) (negb (closed s)) ops.
  Proof.
    induction ops as [|op ops IH]; intros s H; simpl; auto. destruct s as [dk h cl cr]; simpl in *; subst h.
    destruct op as [d| |k|[n|]| |c]; unfold auto_step; simpl; destruct cl, cr; simpl; try (f_equal; rewrite IH by reflexivity; reflexivity).
    all: try (unfold at_pos, open_file; cbn [disk handle]; rewrite firstn_all, Nat.sub_diag; simpl; rewrite app_nil_r; f_equal; rewrite IH by reflexivity; reflexivity).
    all: unfold at_pos, open_file; cbn [disk handle]; rewrite skipn_all; f_equal; rewrite IH by reflexivity; reflexivity.
  Qed.
  (** reading yields nothing, wherever one seeks *)
  Lemma reads_nothing : forall ops (s : auto B) d c, handle s = None -> In (AData d, c) (auto_run zero s ops) -> d = [].
  Proof.
    induction ops as [|op ops IH]; intros s d c H I; simpl in *; [contradiction|]. destruct s as [dk h cl cr]; simpl in *; subst h.
    destruct op as [d'| |k|[n|]| |c']; unfold auto_step in I; simpl in I; destruct cl, cr; simpl in I; destruct I as [I|I]; try discriminate; try (eapply IH; [|exact I]; reflexivity).
    inversion I. apply skipn_all.
  Qed.
End AF.
