From Coq Require Import List Bool Arith Lia.
From Verif Require Import Prelude FileOps_Model FileOps_Spec.
Import ListNotations.
Open Scope nat_scope.

Lemma parts_eqb_iff a b : parts_eqb a b = true <-> a = b.
Proof. unfold parts_eqb. destruct (list_eq_dec _ a b); split; congruence. Qed.
Lemma is_dir_iff w d : is_dir w d = true <-> directory w d.
Proof.
  unfold is_dir, directory. destruct d as [|x d]; [split; auto|]. rewrite existsb_exists. split.
  - intros (e & I & E). apply parts_eqb_iff in E. subst. now right.
  - intros [H|H]; [discriminate|]. exists (x :: d). split; [exact H|now apply parts_eqb_iff].
Qed.
Lemma resolve_target w p : resolve w p = target w p. Proof. reflexivity. Qed.

Section Jump.
  Variable path_of : nat -> path.
  Notation run := (run_cmd path_of).
  Notation runs := (run_cmds path_of).
  Lemma run_jump j body w : run (Jump j body) w = let (r, w1) := jump_enter path_of w j in match r with Err e => (Err e, w1) | Ok _ => let (b, w2) := runs body w1 in jump_exit w2 j b end.
  Proof.
    cbn [run_cmd]. destruct (jump_enter path_of w j) as [[u|e] w1]; [|reflexivity].
    match goal with |- (let (_, _) := ?f body w1 in _) = _ => assert (E : forall l w, f l w = runs l w) end.
    { induction l as [|c l IH]; intro w0; cbn [run_cmds]; [reflexivity|]. destruct (run c w0) as [[|] w'] eqn:R; rewrite ?R; [apply IH|reflexivity]. }
    now rewrite E.
  Qed.
  Fixpoint cmd_ind' (P : cmd -> Prop) (HJ : forall j body, Forall P body -> P (Jump j body)) (HC : forall p, P (Chdir p)) (HM : forall p, P (Makedirs p)) (HR : forall p, P (Rmtree p)) (HE : forall e, P (Raise e)) (c : cmd) : P c.
  Proof.
    destruct c as [j body|p|p|p|e]; [apply HJ|apply HC|apply HM|apply HR|apply HE].
    induction body as [|c body IH]; constructor; [apply cmd_ind'; assumption|exact IH].
  Defined.
  (** an object not used keeps what it holds *)
  Lemma prev_kept c : forall i w, ~ In i (uses c) -> prev_of (snd (run c w)) i = prev_of w i.
  Proof.
    induction c as [j body IH|p|p|p|e] using cmd_ind'; intros i w N.
    - cbn [uses] in N. rewrite run_jump. unfold jump_enter. assert (Nij : i <> j) by (intro; subst; apply N; now left). apply Nat.eqb_neq in Nij.
      assert (P1 : prev_of (set_prev w j (cwd w)) i = prev_of w i) by (cbn; now rewrite Nij).
      unfold chdir at 1. destruct (is_dir _ _); [|exact P1].
      set (w1 := {| cwd := _; dirs := _; prev_of := _ |}). assert (P2 : prev_of w1 i = prev_of w i) by exact P1.
      assert (B : prev_of (snd (runs body w1)) i = prev_of w i).
      { rewrite <- P2. generalize w1. assert (NB : ~ In i (flat_map uses body)) by (intro; apply N; now right).
        clear - IH NB. induction IH as [|c l Hc _ IHl]; intro w1; [reflexivity|]. cbn [run_cmds]. cbn [flat_map] in NB. rewrite in_app_iff in NB.
        specialize (Hc i w1 ltac:(tauto)). destruct (run c w1) as [[|] w']; cbn [snd] in *; [rewrite IHl by tauto|]; exact Hc. }
      destruct (runs body w1) as [b w2]. cbn [snd] in B. unfold jump_exit. destruct (prev_of w2 j); [|exact B]. unfold chdir. destruct (is_dir w2 _); exact B.
    - cbn [run_cmd]. unfold chdir. destruct (is_dir _ _); reflexivity.
    - reflexivity.
    - reflexivity.
    - reflexivity.
  Qed.
  Lemma prevs_kept l : forall i w, ~ In i (flat_map uses l) -> prev_of (snd (runs l w)) i = prev_of w i.
  Proof.
    induction l as [|c l IH]; intros i w N; [reflexivity|]. cbn [run_cmds]. cbn [flat_map] in N. rewrite in_app_iff in N.
    assert (Hc := prev_kept c i w ltac:(tauto)). destruct (run c w) as [[|] w']; cbn [snd] in *; [rewrite IH by tauto|]; exact Hc.
  Qed.
  Lemma jump_inside j body w : ~ In j (flat_map uses body) ->
    (~ directory w (target w (path_of j)) /\ fst (run (Jump j body) w) = Err FileNotFound /\ cwd (snd (run (Jump j body) w)) = cwd w /\ dirs (snd (run (Jump j body) w)) = dirs w) \/
    (directory w (target w (path_of j)) /\ exists w1, cwd w1 = target w (path_of j) /\ dirs w1 = dirs w /\
       let (b, w2) := runs body w1 in
       dirs (snd (run (Jump j body) w)) = dirs w2 /\
       (directory w2 (cwd w) -> fst (run (Jump j body) w) = b /\ cwd (snd (run (Jump j body) w)) = cwd w) /\
       (~ directory w2 (cwd w) -> fst (run (Jump j body) w) = Err FileNotFound /\ cwd (snd (run (Jump j body) w)) = cwd w2)).
  Proof.
    intro N. rewrite run_jump. unfold jump_enter.
    assert (D : is_dir (set_prev w j (cwd w)) (resolve (set_prev w j (cwd w)) (path_of j)) = true <-> directory w (target w (path_of j))).
    { rewrite is_dir_iff. reflexivity. }
    unfold chdir. destruct (is_dir (set_prev w j (cwd w)) _) eqn:E.
    - right. split; [now apply D|]. set (w1 := {| cwd := _; dirs := _; prev_of := _ |}). exists w1. split; [reflexivity|]. split; [reflexivity|].
      assert (P := prevs_kept body j w1 N). destruct (runs body w1) as [b w2]. cbn [snd] in P. unfold jump_exit. rewrite P.
      assert (P1 : prev_of w1 j = Some (cwd w)) by (cbn; now rewrite Nat.eqb_refl). rewrite P1. unfold chdir.
      destruct (is_dir w2 (cwd w)) eqn:E2.
      + apply is_dir_iff in E2. cbn. split; [reflexivity|]. split; [auto|tauto].
      + assert (~ directory w2 (cwd w)) by (intro K; apply is_dir_iff in K; congruence). cbn. split; [reflexivity|]. split; [tauto|auto].
    - left. split; [intro K; apply D in K; congruence|]. cbn. auto.
  Qed.
  (** tame programs *)
  Lemma tame_kept c : tame c -> forall w, directory w (cwd w) -> cwd (snd (run c w)) = cwd w /\ (forall d, directory w d -> directory (snd (run c w)) d).
  Proof.
    induction c as [j body IH|p|p|p|e] using cmd_ind'; intros T w D; inversion T; subst.
    - destruct (jump_inside j body w) as [(_ & _ & C & Ds)|(Dt & w1 & C1 & Ds1 & H)]; [assumption| |].
      + split; [exact C|]. intros d [->|I]; [now left|right]. now rewrite Ds.
      + assert (K : forall d, directory w d -> directory (snd (runs body w1)) d).
        { assert (D1 : directory w1 (cwd w1)) by (rewrite C1; destruct Dt as [E|I]; [left; exact E|right; now rewrite Ds1]).
          assert (G : forall d, directory w1 d -> directory (snd (runs body w1)) d).
          { clear - IH H2 D1. revert w1 D1. induction IH as [|c l Hc _ IHl]; intros w1 D1 d Dd; [exact Dd|]. inversion H2; subst. cbn [run_cmds].
            destruct (Hc H1 w1 D1) as (A & B). destruct (run c w1) as [[|] w'] eqn:R; cbn [snd] in *; [|now apply B].
            apply IHl; [assumption| |now apply B]. rewrite A. now apply B. }
          intros d [->|I]; apply G; [now left|right; now rewrite Ds1]. }
        destruct (runs body w1) as [b w2]. cbn [snd] in K. destruct H as (E1 & E2 & _). split; [apply E2; now apply K|].
        intros d Dd. specialize (K d Dd). destruct K as [->|I]; [now left|right]. now rewrite E1.
    - cbn. split; [reflexivity|]. intros d [->|I]; [now left|right]. cbn. apply in_app_iff. now right.
    - cbn. auto.
  Qed.
  Lemma tame_runs l : Forall tame l -> forall w, directory w (cwd w) -> cwd (snd (runs l w)) = cwd w.
  Proof.
    induction 1 as [|c l T _ IH]; intros w D; [reflexivity|]. cbn [run_cmds]. destruct (tame_kept c T w D) as (A & B).
    destruct (run c w) as [[|] w']; cbn [snd] in *; [|exact A]. rewrite IH; [exact A|]. rewrite A. now apply B.
  Qed.
End Jump.
Lemma beginnings_last b d : d <> [] -> In (b ++ d) (beginnings b d).
Proof.
  revert b. induction d as [|x d IH]; intros b N; [easy|]. cbn [beginnings]. destruct d as [|y d]; [now left|right].
  replace (b ++ x :: y :: d) with ((b ++ [x]) ++ y :: d) by now rewrite <- app_assoc. apply IH. discriminate.
Qed.
Lemma made_directory w d : directory (makedirs w d) d.
Proof. destruct d as [|x d]; [now left|right]. cbn [makedirs dirs]. apply in_app_iff. left. apply (beginnings_last [] (x :: d)). discriminate. Qed.

(** ** /dev/null *)
Lemma null_closed_stays f ops i o : is_closed f = true -> nth_error ops i = Some o -> ~ closes o -> nth_error (null_run f ops) i = Some (NRaise ValueError).
Proof.
  revert f i. induction ops as [|p ops IH]; intros f [|i] C E N; cbn in E; try discriminate.
  - injection E as ->. cbn. destruct o; cbn; unfold when_open; rewrite ?C; try reflexivity; exfalso; apply N; red; auto.
  - cbn [null_run]. assert (C' : is_closed (fst (null_step f p)) = true) by (destruct p; cbn; unfold when_open; rewrite ?C; auto).
    destruct (null_step f p) as [f' out]. cbn in *. now apply IH.
Qed.
Lemma null_close_out f ops i o : nth_error ops i = Some o -> closes o -> nth_error (null_run f ops) i = Some NNone.
Proof.
  revert f i. induction ops as [|p ops IH]; intros f [|i] E N; cbn in E; try discriminate.
  - injection E as ->. destruct N as [-> | ->]; reflexivity.
  - cbn [null_run]. destruct (null_step f p). now apply IH.
Qed.
Lemma null_open_answer f o : is_closed f = false -> null_answer (binary f) o (snd (null_step f o)).
Proof.
  intro C. destruct f as [c b]. cbn in C. subst c. destruct o as [| | | | |n|d| | |]; cbn; try constructor.
  - destruct b; constructor; reflexivity.
  - destruct b, d; cbn; constructor; try reflexivity; intros; congruence.
Qed.
Lemma null_answer_fun b o x y : null_answer b o x -> null_answer b o y -> x = y.
Proof.
  intros A B. destruct A; inversion B; subst; try reflexivity; try congruence;
  repeat match goal with H : _ -> forall _, _ <> _ |- _ => first [exfalso; now apply (H eq_refl _ eq_refl)|clear H] end.
Qed.
Lemma null_run_open f ops i o : is_closed f = false -> (forall k p, k < i -> nth_error ops k = Some p -> ~ closes p) -> nth_error ops i = Some o ->
  exists out, nth_error (null_run f ops) i = Some out /\ null_answer (binary f) o out.
Proof.
  revert f i. induction ops as [|p ops IH]; intros f [|i] C N E; cbn in E; try discriminate.
  - injection E as ->. cbn [null_run]. assert (A := null_open_answer f o C). destruct (null_step f o). eexists. split; [reflexivity|exact A].
  - cbn [null_run]. assert (Np : ~ closes p) by (apply (N 0 p); [lia|reflexivity]).
    assert (S : is_closed (fst (null_step f p)) = false /\ binary (fst (null_step f p)) = binary f).
    { destruct f as [c b]. cbn in C. subst c. destruct p; cbn; auto; exfalso; apply Np; red; auto. }
    destruct (null_step f p) as [f' out]. cbn [fst] in S. destruct S as (S1 & S2). rewrite <- S2. apply IH; auto. intros k q L Q. apply (N (S k) q); [lia|exact Q].
Qed.
Lemma null_run_closed f ops i k o p : k < i -> nth_error ops k = Some p -> closes p -> nth_error ops i = Some o -> ~ closes o -> nth_error (null_run f ops) i = Some (NRaise ValueError).
Proof.
  revert f i k. induction ops as [|q ops IH]; intros f [|i] [|k] L P Cp E N; cbn in P, E; try discriminate; try lia.
  - injection P as ->. cbn [null_run]. assert (C : is_closed (fst (null_step f p)) = true) by (destruct Cp as [-> | ->]; reflexivity).
    destruct (null_step f p) as [f' out]. cbn [fst] in C. eapply null_closed_stays; eauto.
  - cbn [null_run]. destruct (null_step f q). eapply (IH _ i k); eauto. lia.
Qed.

(** ** lines *)
Section Lines.
  Variables (is_space is_break : nat -> bool).
  Notation sl := (splitlines is_break).
  Lemma splitlines_spec n : forall t cur, length t <= n -> unbroken is_break cur -> lines is_break (rev cur ++ t) (sl cur t).
  Proof.
    induction n as [|n IH]; intros t cur L U.
    - destruct t; [|cbn in L; lia]. cbn [splitlines]. rewrite app_nil_r. destruct cur as [|c cur]; [constructor|].
      apply l_last; [intro E; apply (f_equal (@length nat)) in E; rewrite rev_length in E; discriminate|]. intros x I. apply U. now apply in_rev.
    - destruct t as [|c t].
      { apply (IH [] cur); [cbn; lia|exact U]. }
      assert (U' : unbroken is_break (rev cur)) by (intros x I; apply U; now apply in_rev).
      cbn [splitlines]. destruct (is_break c) eqn:B.
      + destruct t as [|d t].
        * apply l_break; auto; [|constructor]. intros (_ & r & E). discriminate.
        * destruct ((c =? 13) && (d =? 10)) eqn:CR.
          -- apply andb_true_iff in CR as (E1 & E2). apply Nat.eqb_eq in E1, E2. subst. apply l_crlf; auto. apply (IH t []); [cbn in L; lia|easy].
          -- apply l_break; auto.
             ++ intros (-> & r & E). injection E as -> ->. discriminate.
             ++ apply (IH (d :: t) []); [cbn in L |- *; lia|easy].
      + replace (rev cur ++ c :: t) with (rev (c :: cur) ++ t) by (cbn; now rewrite <- app_assoc). apply IH; [cbn in L; lia|]. intros x [<-|I]; auto.
  Qed.
  Lemma lines_exist t : lines is_break t (sl [] t).
  Proof. apply (splitlines_spec (length t) t []); [lia|easy]. Qed.
  Lemma split_at_break l1 c1 r1 l2 c2 r2 : unbroken is_break l1 -> unbroken is_break l2 -> is_break c1 = true -> is_break c2 = true -> l1 ++ c1 :: r1 = l2 ++ c2 :: r2 -> l1 = l2 /\ c1 = c2 /\ r1 = r2.
  Proof.
    revert l2. induction l1 as [|x l1 IH]; intros [|y l2] U1 U2 B1 B2 E; cbn in E; injection E as E1 E2.
    - auto.
    - specialize (U2 y (or_introl eq_refl)). congruence.
    - specialize (U1 x (or_introl eq_refl)). congruence.
    - destruct (IH l2) as (-> & A); auto; [intros z I; apply U1; now right|intros z I; apply U2; now right|]. now subst.
  Qed.
  Lemma unbroken_not l c r : unbroken is_break (l ++ c :: r) -> is_break c = true -> False.
  Proof. intros U B. specialize (U c). rewrite U in B; [discriminate|]. apply in_app_iff. right. now left. Qed.
  Lemma inv_unbroken l b : unbroken is_break l -> lines is_break l b -> b = match l with [] => [] | _ => [l] end.
  Proof.
    intros U L. destruct L as [|l N U2|l rest ls U2 B L|l c rest ls U2 B NC L].
    - reflexivity.
    - now destruct l.
    - exfalso. now apply (unbroken_not l 13 (10 :: rest)).
    - exfalso. now apply (unbroken_not l c rest).
  Qed.
  Lemma inv_break l c r b : unbroken is_break l -> is_break c = true -> lines is_break (l ++ c :: r) b ->
    exists ls, b = l :: ls /\ ((c = 13 /\ exists r', r = 10 :: r' /\ lines is_break r' ls) \/ (~ (c = 13 /\ exists r', r = 10 :: r') /\ lines is_break r ls)).
  Proof.
    intros U B L. remember (l ++ c :: r) as t eqn:E. destruct L as [|m N U2|m rest ls U2 B2 L|m d rest ls U2 B2 NC L].
    - exfalso. exact (app_cons_not_nil _ _ _ E).
    - exfalso. subst m. now apply (unbroken_not l c r).
    - apply split_at_break in E as (-> & <- & <-); auto. exists ls. split; [reflexivity|]. left. split; [reflexivity|]. eauto.
    - apply split_at_break in E as (-> & <- & <-); auto. exists ls. split; [reflexivity|]. right. auto.
  Qed.
  Lemma lines_fun t a : lines is_break t a -> forall b, lines is_break t b -> a = b.
  Proof.
    induction 1 as [|l N U|l rest ls U B _ IH|l c rest ls U B NC _ IH]; intros b L.
    - now rewrite (inv_unbroken [] b).
    - rewrite (inv_unbroken l b U L). now destruct l.
    - apply inv_break in L as (ls' & -> & [(_ & r' & E & L)|(NC & _)]); auto; [injection E as <-; f_equal; now apply IH|exfalso; eauto].
    - apply inv_break in L as (ls' & -> & [(E & r' & E2 & _)|(_ & L)]); auto; [exfalso; eauto|f_equal; now apply IH].
  Qed.
  Lemma lstrip_spec t : exists a, t = a ++ lstrip is_space t /\ blank is_space a /\ forall c r, lstrip is_space t = c :: r -> is_space c = false.
  Proof.
    induction t as [|c t (a & E & B & F)]; [exists []; repeat split; [easy|discriminate]|]. cbn [lstrip]. destruct (is_space c) eqn:S.
    - exists (c :: a). split; [cbn; now rewrite <- E|]. split; [|exact F]. intros x [<-|I]; auto.
    - exists []. split; [reflexivity|]. split; [easy|]. intros d r Q. injection Q as <- <-. exact S.
  Qed.
  Lemma strip_spec t : stripped is_space t (strip is_space t).
  Proof.
    unfold strip, stripped. destruct (lstrip_spec t) as (a & E & B & F). destruct (lstrip_spec (rev (lstrip is_space t))) as (b & E2 & B2 & F2).
    set (u := lstrip is_space (rev (lstrip is_space t))) in *. assert (E3 : lstrip is_space t = rev u ++ rev b) by (rewrite <- rev_app_distr, <- E2; symmetry; apply rev_involutive).
    split; [|split].
    - exists a, (rev b). split; [rewrite E at 1; now rewrite E3|]. split; [exact B|]. intros c I. apply B2. now apply in_rev.
    - intros c r Q. apply (F c (r ++ rev b)). rewrite E3, Q. reflexivity.
    - intros r c Q. apply (F2 c (rev r)). fold u. rewrite <- (rev_involutive u), Q, rev_app_distr. reflexivity.
  Qed.
  Lemma stripped_fun t s1 s2 : stripped is_space t s1 -> stripped is_space t s2 -> s1 = s2.
  Proof.
    assert (K : forall a1 a2 x y : list nat, blank is_space a1 -> blank is_space a2 -> (forall c r, x = c :: r -> is_space c = false) -> (forall c r, y = c :: r -> is_space c = false) -> a1 ++ x = a2 ++ y -> x = y).
    { induction a1 as [|u a1 IH]; intros [|v a2] x y B1 B2 F1 F2 E; cbn in E.
      - exact E.
      - subst x. specialize (F1 v _ eq_refl). specialize (B2 v (or_introl eq_refl)). congruence.
      - subst y. specialize (F2 u _ eq_refl). specialize (B1 u (or_introl eq_refl)). congruence.
      - injection E as -> E. apply (IH a2); auto; [intros z I; apply B1; now right|intros z I; apply B2; now right]. }
    intros ((a1 & b1 & E1 & A1 & B1) & F1 & G1) ((a2 & b2 & E2 & A2 & B2) & F2 & G2). subst t.
    destruct s1 as [|c1 s1], s2 as [|c2 s2].
    - reflexivity.
    - exfalso. assert (is_space c2 = true); [|specialize (F2 c2 _ eq_refl); congruence].
      assert (I : In c2 (a1 ++ [] ++ b1)) by (rewrite E2; apply in_app_iff; right; now left). apply in_app_iff in I as [I|I]; auto.
    - exfalso. assert (is_space c1 = true); [|specialize (F1 c1 _ eq_refl); congruence].
      assert (I : In c1 (a2 ++ [] ++ b2)) by (rewrite <- E2; apply in_app_iff; right; now left). apply in_app_iff in I as [I|I]; auto.
    - assert (E3 : (c1 :: s1) ++ b1 = (c2 :: s2) ++ b2).
      { apply (K a1 a2); auto; intros c r Q; cbn in Q; injection Q as -> _; [now apply (F1 c s1)|now apply (F2 c s2)]. }
      apply (f_equal (@rev nat)) in E3. rewrite !rev_app_distr in E3.
      assert (E4 : rev (c1 :: s1) = rev (c2 :: s2)).
      { eapply (K (rev b1) (rev b2)); eauto.
        - intros z I. apply B1. now apply in_rev.
        - intros z I. apply B2. now apply in_rev.
        - intros c r Q. apply (G1 (rev r) c). rewrite <- (rev_involutive (c1 :: s1)), Q. reflexivity.
        - intros c r Q. apply (G2 (rev r) c). rewrite <- (rev_involutive (c2 :: s2)), Q. reflexivity. }
      apply (f_equal (@rev nat)) in E4. now rewrite !rev_involutive in E4.
  Qed.
End Lines.
Lemma newlines_same n : forall t, length t <= n -> ~ In 13 t -> universal_newlines t = t.
Proof.
  induction n as [|n IH]; intros [|c t] L N; try reflexivity; cbn in L; [lia|]. cbn [universal_newlines]. destruct (c =? 13) eqn:E.
  - apply Nat.eqb_eq in E. subst. exfalso. apply N. now left.
  - f_equal. apply IH; [lia|]. intro I. apply N. now right.
Qed.

(** ** removing *)
Fixpoint rm_list (w : bool) (l : list (nat * node)) : res unit * list (nat * node) :=
  match l with
  | [] => (Ok tt, [])
  | (name, m) :: t => match rm w m with
                      | (Ok _, _) => rm_list w t
                      | (Err e, None) => (Err e, t)
                      | (Err e, Some m') => (Err e, (name, m') :: t)
                      end
  end.
Lemma rm_dir pw w l : rm pw (NDir w l) = match rm_list w l with
    | (Ok _, _) => if pw then (Ok tt, None) else (Err OSErrorExn, Some (NDir w []))
    | (Err e, r) => (Err e, Some (NDir w r)) end.
Proof.
  cbn [rm]. match goal with |- match ?f l with _ => _ end = _ => assert (E : forall k, f k = rm_list w k) end.
  { induction k as [|[name m] k IH]; cbn [rm_list]; [reflexivity|]. destruct (rm w m) as [[|] [|]]; try reflexivity; apply IH. }
  now rewrite E.
Qed.
Fixpoint node_ind' (P : node -> Prop) (HF : forall c, P (NFile c)) (HL : forall d, P (NLink d)) (HD : forall w l, Forall (fun nm => P (snd nm)) l -> P (NDir w l)) (n : node) : P n.
Proof.
  destruct n as [c|d|w l]; [apply HF|apply HL|apply HD]. induction l as [|[k m] l IH]; constructor; [cbn; apply node_ind'; assumption|exact IH].
Defined.
Lemma rm_spec n : forall pw, (pw = true /\ removable n /\ rm pw n = (Ok tt, None)) \/ (~ (pw = true /\ removable n) /\ exists m, rm pw n = (Err OSErrorExn, Some m)).
Proof.
  induction n as [c|d|w l IH] using node_ind'; intro pw.
  - destruct pw; [left; repeat split; constructor|right]. split; [intros (? & _); discriminate|]. eexists; reflexivity.
  - destruct pw; [left; repeat split; constructor|right]. split; [intros (? & _); discriminate|]. eexists; reflexivity.
  - rewrite rm_dir.
    assert (G : ((l = [] \/ w = true) /\ (forall name m, In (name, m) l -> removable m) /\ exists r, rm_list w l = (Ok tt, r)) \/
                (~ ((l = [] \/ w = true) /\ (forall name m, In (name, m) l -> removable m)) /\ exists r, rm_list w l = (Err OSErrorExn, r))).
    { clear pw. induction IH as [|[k m] l Hm _ IHl]; [left; split; [now left|]; split; [intros name m []|eexists; reflexivity]|]. cbn [snd] in Hm. cbn [rm_list].
      destruct (Hm w) as [(W & R & E)|(NR & m' & E)]; rewrite E.
      - subst w. destruct IHl as [(_ & A & r & B)|(A & r & B)].
        + left. split; [now right|]. split; [|eauto]. intros name x [I|I]; [injection I as <- <-; exact R|eauto].
        + right. split; [|eauto]. intros (_ & H). apply A. split; [now right|]. intros name x I. apply (H name). now right.
      - right. split; [|eauto]. intros ([H|H] & K); [discriminate|]. apply NR. split; [exact H|]. apply (K k). now left. }
    destruct G as [(A & B & r & E)|(A & r & E)]; rewrite E.
    + destruct pw; [left|right].
      * repeat split. now constructor.
      * split; [intros (? & _); discriminate|eauto].
    + right. split; [|eauto]. intros (_ & H). inversion H; subst. apply A. split; assumption.
Qed.
