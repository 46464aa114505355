From Verif Require Import Prelude PreludeFacts MoreFacts Queue_Model Queue_Spec.

Section QueueProofs.
  Variable A : Type.
  Notation thr := (qthread A).
  Notation st := (qstate A).

  Lemma nth_upd_cases (l : list thr) i x t th : nth_error (upd l i x) t = Some th ->
    (t = i /\ th = x) \/ (t <> i /\ nth_error l t = Some th).
  Proof.
    intros H. destruct (Nat.eq_dec t i) as [->|N].
    - left. split; auto. assert (i < length l) by (rewrite <- (upd_length l i x); apply nth_error_Some; rewrite H; discriminate).
      rewrite nth_error_upd_eq in H by auto. congruence.
    - right. split; auto. rewrite nth_error_upd_neq in H; auto.
  Qed.
  Lemma nth_lt {X} (l : list X) t x : nth_error l t = Some x -> t < length l.
  Proof. intros H. apply nth_error_Some. rewrite H. discriminate. Qed.

  Lemma wake_wake (th : thr) : wake (wake th) = wake th.
  Proof. unfold wake. destruct (at_ th) eqn:E; try rewrite E; auto. Qed.

  Lemma wake_all_nth who : forall (ths : list thr) t,
    nth_error (wake_all who ths) t = match nth_error ths t with Some th => Some (if memb Nat.eqb t who then wake th else th) | None => None end.
  Proof.
    induction who as [|w who IH]; intros ths t; unfold wake_all; cbn [fold_left memb existsb].
    - destruct (nth_error ths t); auto.
    - fold (wake_all who (match nth_error ths w with Some th => upd ths w (wake th) | None => ths end)). rewrite IH.
      destruct (nth_error ths w) as [th|] eqn:E.
      + destruct (Nat.eq_dec t w) as [->|N].
        * rewrite nth_error_upd_eq by (eapply nth_lt; eauto). rewrite E. rewrite Nat.eqb_refl. simpl. f_equal.
          destruct (memb Nat.eqb w who); auto. apply wake_wake.
        * rewrite nth_error_upd_neq by auto. assert (Nat.eqb w t = false) as -> by (apply Nat.eqb_neq; auto). reflexivity.
      + destruct (Nat.eq_dec t w) as [->|N]; [rewrite E; reflexivity|].
        assert (Nat.eqb w t = false) as -> by (apply Nat.eqb_neq; auto). reflexivity.
  Qed.
  Lemma wake_all_length who : forall ths : list thr, length (wake_all who ths) = length ths.
  Proof.
    induction who as [|w who IH]; intros ths; auto. unfold wake_all. cbn [fold_left]. fold (wake_all who (match nth_error ths w with Some th => upd ths w (wake th) | None => ths end)).
    rewrite IH. destruct (nth_error ths w); auto. apply upd_length.
  Qed.

  (** ** FIFO *)
  Definition holds (p : place A) : bool := match p with Adding _ _ | Checking | Looping => true | _ => false end.
  Definition payload (th : thr) : option (list A) :=
    match qtodo th with Put x :: _ => Some [x] | PutMany l :: _ => Some l | _ => None end.
  Definition putting (p : place A) : bool := match p with Adding _ _ | Notifying _ | WithCondition _ => true | _ => false end.
  Definition getting (th : thr) : Prop := match qtodo th with Get _ :: _ | Peek _ :: _ => True | _ => False end.
  Definition past (p : place A) : bool := match p with Notifying _ | WithCondition _ => true | _ => false end.
  Definition Thread_ok (t : nat) (log : list (entry A)) (program : list (qop A)) (th : thr) : Prop :=
    (putting (at_ th) = true -> payload th <> None) /\
    (putting (at_ th) = false -> at_ th <> Outside -> getting th) /\
    (at_ th = Expired -> timed th = true) /\
    program = map fst (of_thread t log) ++ (if past (at_ th) then tl (qtodo th) else qtodo th) /\
    map snd (of_thread t log) = qresults th ++ (if past (at_ th) then [Done] else []).
  Definition content (q its : list A) (th : thr) : Prop :=
    match at_ th with
    | Adding rest n => exists added, payload th = Some (added ++ rest) /\ its = q ++ added
    | _ => its = q
    end.
  Definition QInv (programs : list (list (qop A))) (log : list (entry A)) (q : list A) (c : st) : Prop :=
    length (qthreads c) = length programs /\
    (forall t p th, nth_error programs t = Some p -> nth_error (qthreads c) t = Some th -> Thread_ok t log p th) /\
    (forall t th, nth_error (qthreads c) t = Some th -> (holds (at_ th) = true <-> qlock c = Some t)) /\
    (forall t, qlock c = Some t -> t < length (qthreads c)) /\
    fifo_history [] log q /\
    (match qlock c with None => items c = q | Some t => forall th, nth_error (qthreads c) t = Some th -> content q (items c) th end).

  Lemma of_thread_app t (l l2 : list (entry A)) : of_thread t (l ++ l2) = of_thread t l ++ of_thread t l2.
  Proof. unfold of_thread. rewrite filter_app, map_app. reflexivity. Qed.
  Lemma of_thread_one t (o : qop A) r : of_thread t [(t, o, r)] = [(o, r)].
  Proof. unfold of_thread. simpl. rewrite Nat.eqb_refl. reflexivity. Qed.
  Lemma of_thread_other t u (o : qop A) r : t <> u -> of_thread u [(t, o, r)] = [].
  Proof. intros H. unfold of_thread. simpl. apply Nat.eqb_neq in H. rewrite H. reflexivity. Qed.
  Lemma history_app q l q1 l2 (q2 : list A) : fifo_history q l q1 -> fifo_history q1 l2 q2 -> fifo_history q (l ++ l2) q2.
  Proof. induction 1; simpl; intros; auto. econstructor; eauto. Qed.
  Lemma history_one q t o r (q1 : list A) : fifo q o r q1 -> fifo_history q [(t, o, r)] q1.
  Proof. intros. econstructor; eauto. constructor. Qed.

  (** replacing one thread *)
  Lemma inv_upd programs log q (c : st) t th th' its' L' C' W' ext q' :
    QInv programs log q c -> nth_error (qthreads c) t = Some th ->
    (ext = [] \/ exists o r, ext = [(t, o, r)]) ->
    (forall p, Thread_ok t log p th -> Thread_ok t (log ++ ext) p th') ->
    ((holds (at_ th') = holds (at_ th) /\ L' = qlock c) \/ (holds (at_ th) = true /\ holds (at_ th') = false /\ L' = None) \/
     (qlock c = None /\ holds (at_ th') = true /\ L' = Some t)) ->
    fifo_history q ext q' ->
    (if holds (at_ th') then content q' its' th' else
     if holds (at_ th) then its' = q' else q' = q /\ its' = items c) ->
    QInv programs (log ++ ext) q' (mk_qstate its' L' C' W' (upd (qthreads c) t th')).
  Proof.
    intros (Hl & Ht & Hh & Hb & Hf & Hc) E Hext Hok HL Hq Hcont.
    assert (t < length (qthreads c)) as Hlt by (eapply nth_lt; eauto).
    split; [|split; [|split; [|split; [|split]]]]; simpl.
    - rewrite upd_length. auto.
    - intros u p uth Ep Eu. apply nth_upd_cases in Eu. destruct Eu as [[-> ->]|[N Eu]]; [apply Hok, (Ht _ _ _ Ep E)|].
      specialize (Ht _ _ _ Ep Eu). unfold Thread_ok in *. rewrite of_thread_app.
      assert (of_thread u ext = []) as ->. { destruct Hext as [->|(o & r & ->)]; auto. apply of_thread_other. auto. }
      rewrite app_nil_r. auto.
    - pose proof (Hh _ _ E) as HhE. intros u uth Eu. apply nth_upd_cases in Eu. destruct Eu as [[-> ->]|[N Eu]].
      + destruct HL as [[-> ->]|[(H1 & H2 & ->)|(H1 & H2 & ->)]]; auto; rewrite H2; split; congruence.
      + specialize (Hh _ _ Eu). destruct HL as [[H1 ->]|[(H1 & H2 & ->)|(H1 & H2 & ->)]]; auto.
        * apply HhE in H1. split; [intros K; apply Hh in K; congruence|congruence].
        * split; [intros K; apply Hh in K; congruence|congruence].
    - rewrite upd_length. intros u Hu. destruct HL as [[H1 ->]|[(H1 & H2 & ->)|(H1 & H2 & ->)]]; auto; try congruence.
    - eapply history_app; eauto.
    - pose proof (Hh _ _ E) as HhE. destruct HL as [[H1 ->]|[(H1 & H2 & ->)|(H1 & H2 & ->)]].
      + rewrite H1 in Hcont. destruct (holds (at_ th)) eqn:Eh.
        * rewrite (proj1 HhE eq_refl). intros uth Eu. rewrite nth_error_upd_eq in Eu by auto. congruence.
        * destruct Hcont as [-> ->]. destruct (qlock c) as [u|]; auto. intros uth Eu. apply Hc.
          rewrite nth_error_upd_neq in Eu; auto. intros <-. destruct HhE as [_ HhE]. discriminate (HhE eq_refl).
      + rewrite H1, H2 in Hcont. auto.
      + rewrite H2 in Hcont. intros uth Eu. rewrite nth_error_upd_eq in Eu by auto. congruence.
  Qed.

  Ltac fin := repeat split; auto; try discriminate; try (intros _ HH; destruct (HH eq_refl); fail); try (intros; congruence);
    try (intros; match goal with K : _ = false -> _ |- _ => apply K; [auto|congruence] end).
  Lemma inv_wake programs log q (c : st) its L C W W' who ths :
    QInv programs log q (mk_qstate its L C W ths) -> QInv programs log q (mk_qstate its L C W' (wake_all who ths)).
  Proof.
    assert (forall th : thr, qtodo (wake th) = qtodo th /\ qresults (wake th) = qresults th /\ holds (at_ (wake th)) = holds (at_ th) /\
      putting (at_ (wake th)) = putting (at_ th) /\ past (at_ (wake th)) = past (at_ th) /\ (at_ (wake th) <> Outside -> at_ th <> Outside) /\
      (holds (at_ th) = true -> wake th = th)) as Hw.
    { intros th. unfold wake. destruct (at_ th) eqn:E; simpl; rewrite ?E; fin. }
    assert (forall t th', nth_error (wake_all who ths) t = Some th' -> exists th, nth_error ths t = Some th /\ (th' = th \/ th' = wake th)) as Hn.
    { intros t th' H. rewrite wake_all_nth in H. destruct (nth_error ths t) as [th|]; [|discriminate]. injection H as <-. exists th.
      destruct (memb Nat.eqb t who); auto. }
    intros (Hl & Ht & Hh & Hb & Hf & Hc). simpl in *. split; [|split; [|split; [|split; [|split]]]]; simpl.
    - rewrite wake_all_length. auto.
    - intros t p th' Ep Et. destruct (Hn _ _ Et) as (th & E & D). specialize (Ht _ _ _ Ep E). destruct D as [->| ->]; auto.
      destruct (Hw th) as (W1 & W2 & W3 & W4 & W5 & W6 & W7). unfold Thread_ok, payload, getting, timed in *. rewrite W1, W2, W4, W5. destruct Ht as (T1 & T2 & T3 & T4). repeat split; try tauto.
      intros K. apply T3. unfold wake in K. destruct (at_ th) eqn:Ea; simpl in K; congruence.
    - intros t th' Et. destruct (Hn _ _ Et) as (th & E & D). specialize (Hh _ _ E). destruct D as [->| ->]; auto.
      destruct (Hw th) as (W1 & W2 & W3 & W4 & W5 & W6 & W7). rewrite W3. auto.
    - rewrite wake_all_length. auto.
    - auto.
    - destruct L as [t|]; auto. intros th' Et. destruct (Hn _ _ Et) as (th & E & D).
      assert (th' = th) as ->; auto. destruct D as [->| ->]; auto. apply Hw. apply (Hh _ _ E). reflexivity.
  Qed.

  Ltac tok := let pp := fresh "pp" in intros pp; unfold Thread_ok, payload, getting, goto, finish; simpl; rewrite ?app_nil_r;
    repeat match goal with H : at_ _ = _ |- _ => rewrite H end; simpl; intros (K1 & K2 & K5 & K3 & K4).

  Lemma inv_event programs log q (c : st) e : QInv programs log q c -> exists ext q', QInv programs (log ++ ext) q' (qevent c e).
  Proof.
    intros HI.
    assert (exists ext q', QInv programs (log ++ ext) q' c) as Hsame by (exists [], q; rewrite app_nil_r; auto).
    destruct e as [t late|t]; simpl.
    - unfold qturn. destruct (nth_error (qthreads c) t) as [th|] eqn:E; auto.
      assert (holds (at_ th) = true <-> qlock c = Some t) as HhE by (apply HI; auto).
      assert (exists p, Thread_ok t log p th) as [p0 Hp0].
      { destruct HI as (Hl & Ht & _). destruct (nth_error programs t) as [p|] eqn:Ep; [eauto|].
        apply nth_error_None in Ep. apply nth_lt in E. lia. }
      destruct (at_ th) as [|rest n|n|n| | | | | | ] eqn:Ea.
      + destruct (qtodo th) as [|o ops] eqn:Et; auto. destruct (qlock c) as [u|] eqn:El; [destruct o; auto|].
        assert (items c = q) as Hq by (destruct HI as (_ & _ & _ & _ & _ & Hc); rewrite El in Hc; auto).
        destruct o as [x|l|b|b]; exists [], q; (eapply inv_upd; [exact HI|exact E|left; reflexivity| |right; right; auto|apply FH_nil|]).
        1,3,5,7: tok; rewrite Et in *; rewrite app_nil_r in K4; simpl; rewrite ?app_nil_r; fin.
        all: unfold content; simpl; auto; exists []; unfold payload; simpl; rewrite Et, app_nil_r; auto.
      + assert (El : qlock c = Some t) by (apply HhE; reflexivity).
        assert (content q (items c) th) as Hcont by (destruct HI as (_ & _ & _ & _ & _ & Hc); rewrite El in Hc; auto).
        unfold content in Hcont. rewrite Ea in Hcont. destruct Hcont as (added & Hp & Hi).
        destruct rest as [|x rest].
        * rewrite app_nil_r in Hp. destruct (qtodo th) as [|o ops] eqn:Et; [unfold payload in Hp; rewrite Et in Hp; discriminate|].
          exists [(t, o, Done)], (q ++ added). eapply inv_upd; [exact HI|exact E|right; eauto| |right; left; rewrite Ea; auto| |].
          -- tok. rewrite of_thread_app, of_thread_one, !map_app. simpl. rewrite Et in *. simpl. rewrite <- app_assoc. simpl.
             rewrite app_nil_r in K4. rewrite K4. fin.
          -- apply history_one. unfold payload in Hp. rewrite Et in Hp. destruct o; try discriminate; injection Hp as <-; constructor.
          -- simpl. rewrite Ea. simpl. auto.
        * exists [], q. eapply inv_upd; [exact HI|exact E|left; auto| |left; rewrite Ea; auto|apply FH_nil|].
          -- tok. rewrite app_nil_r in K4. fin.
          -- simpl. exists (added ++ [x]). unfold payload in *. simpl. rewrite <- app_assoc. simpl. split; auto. rewrite Hi, app_assoc. reflexivity.
      + destruct (clock c) as [u|] eqn:Ec; auto. exists [], q.
        eapply inv_upd; [exact HI|exact E|left; auto| |left; rewrite Ea; auto|apply FH_nil|simpl; rewrite Ea; simpl; auto].
        tok. fin.
      + exists [], q. unfold put_thread. eapply inv_wake; [exact c|].
        eapply (inv_upd programs log q c t th (finish th Done) (items c) (qlock c) None (waiters c) [] q); [exact HI|exact E|left; auto| |left; rewrite Ea; auto|apply FH_nil|simpl; rewrite Ea; simpl; auto].
        tok. fin.
      + assert (El : qlock c = Some t) by (apply HhE; reflexivity).
        assert (items c = q) as Hq. { destruct HI as (_ & _ & _ & _ & _ & Hc). rewrite El in Hc. specialize (Hc _ E). unfold content in Hc. rewrite Ea in Hc. auto. }
        destruct (items c) as [|x its] eqn:Ei.
        * exists [], q. eapply inv_upd; [exact HI|exact E|left; auto| |left; rewrite Ea; auto|apply FH_nil|simpl; auto].
          tok. rewrite app_nil_r in K4. fin.
        * destruct Hp0 as (_ & Hg & _). rewrite Ea in Hg. specialize (Hg eq_refl ltac:(discriminate)). unfold getting in Hg.
          destruct (qtodo th) as [|o ops] eqn:Et; [destruct Hg|]. exists [(t, o, Got x)], (match o with Get _ => its | _ => x :: its end).
          eapply inv_upd; [exact HI|exact E|right; eauto| |right; left; rewrite Ea; auto| |].
          -- tok. rewrite of_thread_app, of_thread_one, !map_app. simpl. rewrite Et in *. simpl. rewrite <- app_assoc. simpl.
             rewrite app_nil_r in K4. rewrite K4. rewrite ?app_nil_r. fin.
          -- apply history_one. rewrite <- Hq. destruct o; try destruct Hg; econstructor; eauto.
          -- simpl. rewrite Ea. simpl. destruct o; auto.
      + assert (El : qlock c = Some t) by (apply HhE; reflexivity).
        assert (items c = q) as Hq. { destruct HI as (_ & _ & _ & _ & _ & Hc). rewrite El in Hc. specialize (Hc _ E). unfold content in Hc. rewrite Ea in Hc. auto. }
        destruct (timed th && late) eqn:Etl.
        * destruct (qtodo th) as [|o ops] eqn:Et; [unfold timed in Etl; rewrite Et in Etl; discriminate|].
          exists [(t, o, RaisedEmpty)], q.
          eapply inv_upd; [exact HI|exact E|right; eauto| |right; left; rewrite Ea; auto| |].
          -- tok. rewrite of_thread_app, of_thread_one, !map_app. simpl. rewrite Et in *. simpl. rewrite <- app_assoc. simpl.
             rewrite app_nil_r in K4. rewrite K4. rewrite ?app_nil_r. fin.
          -- apply history_one. unfold timed in Etl. rewrite Et in Etl. apply andb_prop in Etl. destruct Etl as [Etl _].
             destruct o as [| |[]|[]]; try discriminate; constructor.
          -- simpl. rewrite Ea. simpl. auto.
        * exists [], q. eapply inv_upd; [exact HI|exact E|left; auto| |right; left; rewrite Ea; auto|apply FH_nil|simpl; rewrite Ea; auto].
          tok. rewrite app_nil_r in K4. fin.
      + destruct (clock c) as [u|] eqn:Ec; auto. exists [], q.
        eapply inv_upd; [exact HI|exact E|left; auto| |left; rewrite Ea; auto|apply FH_nil|simpl; rewrite Ea; simpl; auto].
        tok. rewrite app_nil_r in K4. fin.
      + auto.
      + destruct Hp0 as (_ & Hg & Etm & _). rewrite Ea in Hg. specialize (Hg eq_refl ltac:(discriminate)). specialize (Etm Ea). unfold getting in Hg.
        destruct (qtodo th) as [|o ops] eqn:Et; [destruct Hg|]. exists [(t, o, RaisedEmpty)], q.
        eapply inv_upd; [exact HI|exact E|right; eauto| |left; rewrite Ea; auto| |simpl; rewrite Ea; simpl; auto].
        -- tok. rewrite of_thread_app, of_thread_one, !map_app. simpl. rewrite Et in *. simpl. rewrite <- app_assoc. simpl.
           rewrite app_nil_r in K4. rewrite K4. rewrite ?app_nil_r. fin.
        -- apply history_one. unfold timed in Etm. rewrite Et in Etm. destruct o as [| |[]|[]]; try discriminate; constructor.
      + destruct (qlock c) as [u|] eqn:El; auto. exists [], q.
        assert (items c = q) as Hq by (destruct HI as (_ & _ & _ & _ & _ & Hc); rewrite El in Hc; auto).
        eapply inv_upd; [exact HI|exact E|left; auto| |right; right; auto|apply FH_nil|simpl; auto].
        tok. rewrite app_nil_r in K4. fin.
    - unfold qexpire. destruct (nth_error (qthreads c) t) as [th|] eqn:E; auto. destruct (timed th) eqn:Etm; auto.
      destruct (at_ th) as [|rest n|n|n| | | | | | ] eqn:Ea; auto.
      + destruct (clock c) as [u|] eqn:Ec; auto.
        destruct (qtodo th) as [|o ops] eqn:Et; [unfold timed in Etm; rewrite Et in Etm; discriminate|]. exists [(t, o, RaisedLocked)], q.
        eapply inv_upd; [exact HI|exact E|right; eauto| |left; rewrite Ea; auto| |simpl; rewrite Ea; simpl; auto].
        -- tok. rewrite of_thread_app, of_thread_one, !map_app. simpl. rewrite Et in *. simpl. rewrite <- app_assoc. simpl.
           rewrite app_nil_r in K4. rewrite K4. rewrite ?app_nil_r. fin.
        -- apply history_one. unfold timed in Etm. rewrite Et in Etm. destruct o as [| |[]|[]]; try discriminate; constructor.
      + exists [], q. eapply inv_upd; [exact HI|exact E|left; auto| |left; rewrite Ea; auto|apply FH_nil|simpl; rewrite Ea; simpl; auto].
        tok. rewrite app_nil_r in K4. fin.
  Qed.

  Lemma QInv_start programs : QInv programs [] [] (qstart programs).
  Proof.
    unfold QInv, qstart. simpl. split; [apply map_length|]. split; [|split; [|split; [|split; [apply FH_nil|reflexivity]]]].
    - intros t p th Ep Et. rewrite nth_error_map, Ep in Et. injection Et as <-. unfold Thread_ok, of_thread. simpl. fin.
    - intros t th H. rewrite nth_error_map in H. destruct (nth_error programs t); [|discriminate]. injection H as <-. simpl. split; discriminate.
    - discriminate.
  Qed.

  Lemma QInv_exec programs es : forall log q (c : st), QInv programs log q c -> exists ext q', QInv programs (log ++ ext) q' (qexec c es).
  Proof.
    induction es as [|e es IH]; intros log q c H; simpl.
    - exists [], q. rewrite app_nil_r. auto.
    - destruct (inv_event _ _ _ _ e H) as (x1 & q1 & H1). destruct (IH _ _ _ H1) as (x2 & q2 & H2). exists (x1 ++ x2), q2. rewrite app_assoc. auto.
  Qed.
  Lemma qexec_app (c : st) a b : qexec c (a ++ b) = qexec (qexec c a) b.
  Proof. revert c; induction a; simpl; auto. Qed.
  Lemma QInv_reach (programs : list (list (qop A))) es : exists log q, QInv programs log q (qexec (qstart programs) es).
  Proof. destruct (QInv_exec programs es [] [] _ (QInv_start programs)) as (l & q & H). exists l, q. exact H. Qed.

  Lemma QInv_explains programs log q (c : st) : QInv programs log q c -> explains log programs c.
  Proof.
    intros (Hl & Ht & Hh & Hb & Hf & Hc). split.
    - intros t p th Ep Et. destruct (Ht _ _ _ Ep Et) as (T1 & T2 & T3 & T4 & T5). split; [eauto|].
      eexists. split; [|split; [exact T5|]].
      + destruct (past (at_ th)); simpl; lia.
      + intros E. destruct (past (at_ th)) eqn:Ep'; auto. destruct T1; [|unfold payload; rewrite E; auto].
        destruct (at_ th); try discriminate; auto.
    - exists q. split; auto. intros E. rewrite E in Hc. auto.
  Qed.

  Lemma over_time (programs : list (list (qop A))) es1 es2 : exists log since,
    explains log programs (qexec (qstart programs) es1) /\ explains (log ++ since) programs (qexec (qstart programs) (es1 ++ es2)).
  Proof.
    destruct (QInv_reach programs es1) as (log & q & H). rewrite qexec_app. destruct (QInv_exec programs es2 _ _ _ H) as (ext & q' & H').
    exists log, ext. split; eapply QInv_explains; eauto.
  Qed.

  Lemma history_order q log q' : @fifo_history A q log q' -> q ++ puts log = gets log ++ q'.
  Proof.
    induction 1 as [q|q t o r q1 log q' Hf H IH].
    - unfold puts, gets. simpl. rewrite app_nil_r. auto.
    - unfold puts, gets in *. simpl. inversion Hf; subst; simpl; auto; try (rewrite <- IH; try (rewrite <- app_assoc); reflexivity).
  Qed.
  Lemma order (programs : list (list (qop A))) es : let c := qexec (qstart programs) es in
    exists log, accounts_for log programs c /\ (exists waiting, puts log = gets log ++ waiting /\ (qlock c = None -> items c = waiting)).
  Proof.
    destruct (QInv_reach programs es) as (log & q & H). apply QInv_explains in H. destruct H as (HA & q' & Hf & Hl).
    exists log. split; auto. exists q'. split; auto. apply history_order in Hf. exact Hf.
  Qed.

  (** ** giving up *)
  Definition afterfail (p : place A) : bool := match p with Looping | ToWait | Waiting | Expired | Woken => true | _ => false end.
  Definition gives_up (r : qresult A) : Prop := r = RaisedEmpty \/ r = RaisedLocked.
  Inductive tstep (c : st) (th : thr) : thr -> Prop :=
  | ts_same : tstep c th th
  | ts_look : items c = [] -> at_ th = Checking -> tstep c th (goto th Looping)
  | ts_on p : afterfail (at_ th) = true -> afterfail p = true -> tstep c th (goto th p)
  | ts_neutral p : afterfail p = false -> tstep c th (goto th p)
  | ts_finish r : ~ gives_up r -> tstep c th (finish th r)
  | ts_give_up r : afterfail (at_ th) = true -> tstep c th (finish th r).

  Lemma not_gives_up_done : ~ gives_up Done. Proof. intros [H|H]; discriminate. Qed.
  Lemma not_gives_up_got x : ~ gives_up (Got x). Proof. intros [H|H]; discriminate. Qed.

  Lemma event_tstep (c : st) e t th' : nth_error (qthreads (qevent c e)) t = Some th' ->
    exists th, nth_error (qthreads c) t = Some th /\ tstep c th th'.
  Proof.
    assert (forall th', nth_error (qthreads c) t = Some th' -> exists th, nth_error (qthreads c) t = Some th /\ tstep c th th') as Hs.
    { intros x Hx. exists x. split; auto. constructor. }
    assert (forall u uth uth' x, nth_error (qthreads c) u = Some uth -> tstep c uth uth' -> nth_error (upd (qthreads c) u uth') t = Some x ->
      exists th, nth_error (qthreads c) t = Some th /\ tstep c th x) as Hu.
    { intros u uth uth' x Eu Hst Hx. apply nth_upd_cases in Hx. destruct Hx as [[-> ->]|[N Hx]]; eauto. }
    destruct e as [u late|u]; simpl.
    - unfold qturn. destruct (nth_error (qthreads c) u) as [uth|] eqn:E; auto.
      destruct (at_ uth) as [|rest n|n|n| | | | | | ] eqn:Ea; auto.
      + destruct (qtodo uth) as [|[]]; auto; destruct (qlock c); auto; simpl; apply (Hu _ _ _ _ E); apply ts_neutral; reflexivity.
      + destruct rest; simpl; apply (Hu _ _ _ _ E); apply ts_neutral; reflexivity.
      + destruct (clock c); auto; simpl; apply (Hu _ _ _ _ E); apply ts_neutral; reflexivity.
      + simpl. rewrite wake_all_nth. unfold put_thread. intros H. destruct (nth_error (upd (qthreads c) u (finish uth Done)) t) as [x|] eqn:Ex; [|discriminate].
        injection H as <-. destruct (memb Nat.eqb t (firstn n (waiters c))); [|apply (Hu _ _ _ _ E (ts_finish _ _ _ not_gives_up_done) Ex)].
        apply nth_upd_cases in Ex. destruct Ex as [[-> ->]|[N Ex]].
        * exists uth. split; auto. unfold wake. simpl. apply ts_finish, not_gives_up_done.
        * exists x. split; auto. unfold wake. destruct (at_ x) eqn:Ex'; try constructor; rewrite ?Ex'; auto.
      + destruct (items c) as [|x its] eqn:Ei; simpl; apply (Hu _ _ _ _ E); [apply ts_look; auto|apply ts_finish, not_gives_up_got].
      + destruct (timed uth && late); simpl; apply (Hu _ _ _ _ E); [apply ts_give_up|apply ts_on]; rewrite ?Ea; auto.
      + destruct (clock c); auto; simpl; apply (Hu _ _ _ _ E); apply ts_on; rewrite ?Ea; auto.
      + simpl; apply (Hu _ _ _ _ E); apply ts_give_up; rewrite Ea; auto.
      + destruct (qlock c); auto; simpl; apply (Hu _ _ _ _ E); apply ts_neutral; auto.
    - unfold qexpire. destruct (nth_error (qthreads c) u) as [uth|] eqn:E; auto. destruct (timed uth); auto.
      destruct (at_ uth) as [|rest n|n|n| | | | | | ] eqn:Ea; auto.
      + destruct (clock c); auto; simpl; apply (Hu _ _ _ _ E); apply ts_give_up; rewrite ?Ea; auto.
      + simpl; apply (Hu _ _ _ _ E); apply ts_on; rewrite ?Ea; auto.
  Qed.

  Lemma was_empty (programs : list (list (qop A))) es t th :
    nth_error (qthreads (qexec (qstart programs) es)) t = Some th ->
    let seen k := exists before after, es = before ++ after /\ items (qexec (qstart programs) before) = [] /\
        calls_over (qexec (qstart programs) before) t = k /\ is_inside (qexec (qstart programs) before) t in
    (afterfail (at_ th) = true -> seen (length (qresults th))) /\
    (forall k r, nth_error (qresults th) k = Some r -> gives_up r -> seen k).
  Proof.
    revert th. induction es as [|e es IH] using rev_ind; intros th E seen.
    - simpl in E. rewrite nth_error_map in E. destruct (nth_error programs t); [|discriminate]. injection E as <-. simpl.
      split; [discriminate|]. intros [|k] r H; discriminate.
    - rewrite qexec_app in E. simpl in E. destruct (event_tstep _ _ _ _ E) as (th0 & E0 & Hst). specialize (IH _ E0). simpl in IH.
      destruct IH as [I1 I2].
      assert (forall k, (exists before after, es = before ++ after /\ items (qexec (qstart programs) before) = [] /\
        calls_over (qexec (qstart programs) before) t = k /\ is_inside (qexec (qstart programs) before) t) -> seen k) as Hup.
      { intros k (b & a & H1 & H2). exists b, (a ++ [e]). rewrite H1, app_assoc. auto. }
      inversion Hst; subst; simpl.
      + split; eauto.
      + split; [|eauto]. intros _. apply Hup. exists es, []. rewrite app_nil_r. split; auto. split; auto.
        unfold calls_over, is_inside. rewrite E0. split; auto. congruence.
      + split; eauto.
      + split; [congruence|eauto].
      + split; [discriminate|]. intros k r' Hk Hr. destruct (Nat.lt_ge_cases k (length (qresults th0))) as [L|L].
        * rewrite nth_error_app1 in Hk by auto. eauto.
        * rewrite nth_error_app2 in Hk by auto. destruct (k - length (qresults th0)) as [|[|j]]; simpl in Hk; congruence.
      + split; [discriminate|]. intros k r' Hk Hr. destruct (Nat.lt_ge_cases k (length (qresults th0))) as [L|L].
        * rewrite nth_error_app1 in Hk by auto. eauto.
        * rewrite nth_error_app2 in Hk by auto. destruct (k - length (qresults th0)) as [|[|j]] eqn:Ek; simpl in Hk; try congruence.
          assert (k = length (qresults th0)) as -> by lia. auto.
  Qed.
  Lemma gave_up (programs : list (list (qop A))) es t th k :
    nth_error (qthreads (qexec (qstart programs) es)) t = Some th ->
    nth_error (qresults th) k = Some RaisedEmpty \/ nth_error (qresults th) k = Some RaisedLocked ->
    exists before after, es = before ++ after /\ items (qexec (qstart programs) before) = [] /\
        calls_over (qexec (qstart programs) before) t = k /\ is_inside (qexec (qstart programs) before) t.
  Proof.
    intros E H. destruct (was_empty programs es t th E) as [_ W]. destruct H as [H|H]; apply (W k _ H); unfold gives_up; auto.
  Qed.

  (** ** sums over threads *)
  Definition sumf (f : thr -> nat) (l : list thr) : nat := list_sum (map f l).
  Lemma sumf_upd f l : forall i x y, nth_error l i = Some x -> sumf f (upd l i y) + f x = sumf f l + f y.
  Proof.
    unfold sumf. induction l as [|h l IH]; intros [|i] x y H; simpl in *; try discriminate.
    - injection H as ->. lia.
    - specialize (IH _ _ y H). lia.
  Qed.

  (** ** with timeouts everything can finish *)
  Definition opw (o : qop A) : nat := match o with Put _ => 6 | PutMany l => length l + 5 | _ => 8 end.
  Definition opsw (l : list (qop A)) : nat := list_sum (map opw l).
  Definition placew (p : place A) : nat :=
    match p with
    | Outside => 0 | Adding rest _ => length rest + 4 | Notifying _ => 3 | WithCondition _ => 2 | Checking => 3 | Looping => 2
    | ToWait => 7 | Waiting => 6 | Expired => 1 | Woken => 4
    end.
  Definition w (th : thr) : nat := match at_ th with Outside => opsw (qtodo th) | p => placew p + opsw (tl (qtodo th)) end.
  Definition W (c : st) : nat := sumf w (qthreads c).

  Lemma w_wake th : w (wake th) <= w th.
  Proof. unfold wake, w, goto. destruct (at_ th) eqn:E; simpl; rewrite ?E; simpl; lia. Qed.
  Lemma sumf_wake who : forall ths, sumf w (wake_all who ths) <= sumf w ths.
  Proof.
    induction who as [|u who IH]; intros ths; auto. unfold wake_all. cbn [fold_left].
    fold (wake_all who (match nth_error ths u with Some th => upd ths u (wake th) | None => ths end)).
    etransitivity; [apply IH|]. destruct (nth_error ths u) as [th|] eqn:E; auto.
    pose proof (sumf_upd w ths u th (wake th) E). pose proof (w_wake th). lia.
  Qed.

  Definition CInv (c : st) : Prop := forall t, clock c = Some t -> exists th n, nth_error (qthreads c) t = Some th /\ at_ th = WithCondition n.
  Lemma CInv_event (c : st) e : CInv c -> CInv (qevent c e).
  Proof.
    intros HC.
    assert (forall its L Ws u uth uth', nth_error (qthreads c) u = Some uth -> (forall n, at_ uth <> WithCondition n) ->
      CInv (mk_qstate its L (clock c) Ws (upd (qthreads c) u uth'))) as Hk.
    { intros its L Ws u uth uth' E Hn t Ht. simpl in *. destruct (HC _ Ht) as (th & n & E1 & E2). exists th, n. split; auto.
      rewrite nth_error_upd_neq; auto. intros ->. rewrite E1 in E. injection E as <-. destruct (Hn _ E2). }
    destruct e as [u late|u]; simpl.
    - unfold qturn. destruct (nth_error (qthreads c) u) as [uth|] eqn:E; auto.
      destruct (at_ uth) as [|rest n|n|n| | | | | | ] eqn:Ea; auto.
      + destruct (qtodo uth) as [|[]]; auto; destruct (qlock c); auto; apply (Hk _ _ _ _ _ _ E); rewrite Ea; discriminate.
      + destruct rest; apply (Hk _ _ _ _ _ _ E); rewrite Ea; discriminate.
      + destruct (clock c) eqn:Ec; auto. intros t Ht. simpl in *. injection Ht as <-. eexists. exists n. unfold put_thread. rewrite nth_error_upd_eq by (eapply nth_lt; eauto). split; reflexivity.
      + intros t Ht. discriminate.
      + destruct (items c); apply (Hk _ _ _ _ _ _ E); rewrite Ea; discriminate.
      + destruct (timed uth && late); apply (Hk _ _ _ _ _ _ E); rewrite Ea; discriminate.
      + destruct (clock c) eqn:Ec; auto; apply (Hk _ _ _ _ _ _ E); rewrite Ea; discriminate.
      + apply (Hk _ _ _ _ _ _ E); rewrite Ea; discriminate.
      + destruct (qlock c); auto; apply (Hk _ _ _ _ _ _ E); rewrite Ea; discriminate.
    - unfold qexpire. destruct (nth_error (qthreads c) u) as [uth|] eqn:E; auto. destruct (timed uth); auto.
      destruct (at_ uth) as [|rest n|n|n| | | | | | ] eqn:Ea; auto.
      + destruct (clock c) eqn:Ec; auto; apply (Hk _ _ _ _ _ _ E); rewrite Ea; discriminate.
      + apply (Hk _ _ _ _ _ _ E); rewrite Ea; discriminate.
  Qed.

  Lemma todo_event (P : qop A -> Prop) (c : st) e : Forall (fun th => Forall P (qtodo th)) (qthreads c) ->
    Forall (fun th => Forall P (qtodo th)) (qthreads (qevent c e)).
  Proof.
    rewrite !Forall_forall. intros H th' Hin. apply In_nth_error in Hin. destruct Hin as [t Et].
    destruct (event_tstep _ _ _ _ Et) as (th & E & Hst). apply nth_error_In in E. specialize (H _ E).
    inversion Hst; subst; simpl; auto; destruct (qtodo th); simpl; auto; inversion H; auto.
  Qed.
  Lemma todo_start (P : qop A -> Prop) programs : Forall (Forall P) programs -> Forall (fun th => Forall P (qtodo th)) (qthreads (qstart programs)).
  Proof. intros H. unfold qstart. simpl. apply Forall_map. simpl. exact H. Qed.

  Lemma progress programs log q (c : st) : QInv programs log q c -> CInv c -> Forall (fun th => Forall (@gives_timeout A) (qtodo th)) (qthreads c) ->
    ~ all_over c -> exists e, W (qevent c e) < W c.
  Proof.
    intros HQ HC HT Hn.
    assert (forall t th, nth_error (qthreads c) t = Some th -> at_ th <> Outside -> exists o ops, qtodo th = o :: ops) as Hne.
    { intros t th E Ha. destruct HQ as (Hl & Ht & _). destruct (nth_error programs t) as [p|] eqn:Ep; [|apply nth_error_None in Ep; apply nth_lt in E; lia].
      destruct (Ht _ _ _ Ep E) as (T1 & T2 & _). unfold payload, getting in *. destruct (qtodo th) as [|o ops]; [|eauto].
      destruct (putting (at_ th)); [destruct (T1 eq_refl eq_refl)|destruct (T2 eq_refl Ha)]. }
    assert (forall t th, nth_error (qthreads c) t = Some th -> putting (at_ th) = false -> at_ th <> Outside -> timed th = true) as Htm.
    { intros t th E Hp Ha. pose proof (nth_error_In _ _ E) as Hin. rewrite Forall_forall in HT. specialize (HT _ Hin).
      destruct HQ as (Hl & Ht & _). destruct (nth_error programs t) as [p|] eqn:Ep; [|apply nth_error_None in Ep; apply nth_lt in E; lia].
      destruct (Ht _ _ _ Ep E) as (_ & T2 & _). specialize (T2 Hp Ha). unfold getting, timed in *.
      destruct (qtodo th) as [|o ops]; [destruct T2|]. inversion HT; subst. destruct o as [| |[]|[]]; auto; simpl in *; tauto. }
    assert (forall t th th' its L C Ws, nth_error (qthreads c) t = Some th -> w th' < w th -> W (mk_qstate its L C Ws (upd (qthreads c) t th')) < W c) as Hw.
    { intros t th th' its L C Ws E Hlt. unfold W. simpl. pose proof (sumf_upd w _ _ _ th' E). lia. }
    assert (forall t, clock c = Some t -> exists e, W (qevent c e) < W c) as Hclock.
    { intros t Ht. destruct (HC _ Ht) as (th & n & E & Ea). exists (Turn t true). simpl. unfold qturn. rewrite E, Ea.
      unfold W. simpl. eapply Nat.le_lt_trans; [apply sumf_wake|]. unfold put_thread. pose proof (sumf_upd w _ _ _ (finish th Done) E) as K.
      assert (w (finish th Done) < w th) by (unfold w; simpl; rewrite Ea; simpl; lia). lia. }
    destruct (qlock c) as [t|] eqn:El.
    - destruct HQ as (_ & _ & Hh & Hb & _). specialize (Hb _ El). apply nth_error_Some in Hb. destruct (nth_error (qthreads c) t) as [th|] eqn:E; [|tauto].
      apply (Hh _ _ E) in El. exists (Turn t true). simpl. unfold qturn. rewrite E. destruct (at_ th) as [|rest n|n|n| | | | | | ] eqn:Ea; try discriminate.
      + destruct rest; apply (Hw _ _ _ _ _ _ _ E); unfold w; simpl; rewrite Ea; simpl; lia.
      + destruct (items c); apply (Hw _ _ _ _ _ _ _ E); unfold w; simpl; rewrite Ea; simpl; lia.
      + assert (timed th = true) as Etm by (apply (Htm _ _ E); rewrite Ea; [reflexivity|discriminate]). rewrite Etm. simpl. apply (Hw _ _ _ _ _ _ _ E); unfold w; simpl; rewrite Ea; simpl; lia.
    - assert (exists t th, nth_error (qthreads c) t = Some th /\ qtodo th <> []) as (t & th & E & Hnil).
      { unfold all_over in Hn. clear -Hn. induction (qthreads c) as [|h l IH]; [destruct Hn; constructor|].
        destruct (qtodo h) eqn:Eh; [|exists 0, h; simpl; rewrite Eh; split; [reflexivity|discriminate]].
        destruct IH as (t & th & E & H); [|exists (S t), th; auto]. intros K. apply Hn. constructor; auto. }
      destruct (at_ th) as [|rest n|n|n| | | | | | ] eqn:Ea.
      + exists (Turn t true). simpl. unfold qturn. rewrite E, Ea. destruct (qtodo th) as [|o ops] eqn:Eo; [tauto|]. rewrite El.
        destruct o; apply (Hw _ _ _ _ _ _ _ E); unfold w; simpl; rewrite Ea, Eo; unfold opsw; simpl; lia.
      + exfalso. destruct HQ as (_ & _ & Hh & _). specialize (Hh _ _ E). rewrite Ea, El in Hh. destruct Hh as [Hh _]. discriminate (Hh eq_refl).
      + destruct (clock c) eqn:Ec; [eapply Hclock; eauto|]. exists (Turn t true). simpl. unfold qturn. rewrite E, Ea, Ec.
        apply (Hw _ _ _ _ _ _ _ E); unfold w; simpl; rewrite Ea; simpl; lia.
      + exists (Turn t true). simpl. unfold qturn. rewrite E, Ea.
        unfold W. simpl. eapply Nat.le_lt_trans; [apply sumf_wake|]. unfold put_thread. pose proof (sumf_upd w _ _ _ (finish th Done) E) as K.
        assert (w (finish th Done) < w th) by (unfold w; simpl; rewrite Ea; simpl; lia). lia.
      + exfalso. destruct HQ as (_ & _ & Hh & _). specialize (Hh _ _ E). rewrite Ea, El in Hh. destruct Hh as [Hh _]. discriminate (Hh eq_refl).
      + exfalso. destruct HQ as (_ & _ & Hh & _). specialize (Hh _ _ E). rewrite Ea, El in Hh. destruct Hh as [Hh _]. discriminate (Hh eq_refl).
      + destruct (clock c) eqn:Ec; [eapply Hclock; eauto|]. exists (Turn t true). simpl. unfold qturn. rewrite E, Ea, Ec.
        apply (Hw _ _ _ _ _ _ _ E); unfold w; simpl; rewrite Ea; simpl; lia.
      + exists (Expire t). simpl. unfold qexpire. rewrite E. assert (timed th = true) as Etm by (apply (Htm _ _ E); rewrite Ea; [reflexivity|discriminate]). rewrite Etm. rewrite Ea.
        apply (Hw _ _ _ _ _ _ _ E); unfold w; simpl; rewrite Ea; simpl; lia.
      + exists (Turn t true). simpl. unfold qturn. rewrite E, Ea. apply (Hw _ _ _ _ _ _ _ E); unfold w; simpl; rewrite Ea; simpl; lia.
      + exists (Turn t true). simpl. unfold qturn. rewrite E, Ea, El. apply (Hw _ _ _ _ _ _ _ E); unfold w; simpl; rewrite Ea; simpl; lia.
  Qed.

  Lemma over_dec (c : st) : {all_over c} + {~ all_over c}.
  Proof. unfold all_over. apply Forall_dec. intros x. destruct (qtodo x); [left; auto|right; discriminate]. Defined.
  Lemma can_finish programs es : Forall (Forall (@gives_timeout A)) programs ->
    exists more, all_over (qexec (qstart programs) (es ++ more)).
  Proof.
    intros HT.
    assert (forall n log q (c : st), W c <= n -> QInv programs log q c -> CInv c -> Forall (fun th => Forall (@gives_timeout A) (qtodo th)) (qthreads c) ->
      exists more, all_over (qexec c more)) as G.
    { induction n as [|n IH]; intros log q c Hn HQ HC HT'.
      - destruct (over_dec c) as [D|D];
          [exists []; exact D|]. destruct (progress _ _ _ _ HQ HC HT' D) as [e He]. lia.
      - destruct (over_dec c) as [D|D];
          [exists []; exact D|]. destruct (progress _ _ _ _ HQ HC HT' D) as [e He].
        destruct (inv_event _ _ _ _ e HQ) as (ext & q' & HQ'). destruct (IH _ _ (qevent c e) ltac:(lia) HQ' (CInv_event _ _ HC) (todo_event _ _ _ HT')) as [more Hm].
        exists (e :: more). exact Hm. }
    destruct (QInv_reach programs es) as (log & q & HQ).
    assert (CInv (qexec (qstart programs) es) /\ Forall (fun th => Forall (@gives_timeout A) (qtodo th)) (qthreads (qexec (qstart programs) es))) as [HC HT'].
    { assert (CInv (qstart programs)) as H1 by (intros t Ht; discriminate). pose proof (todo_start _ _ HT) as H2. clear HQ.
      revert H1 H2. generalize (qstart programs). induction es as [|e es IH]; intros c H1 H2; simpl; auto.
      apply IH; [apply CInv_event|apply todo_event]; auto. }
    destruct (G _ _ _ _ (le_n _) HQ HC HT') as [more Hm]. exists more. rewrite qexec_app. exact Hm.
  Qed.

  (** ** nobody sleeps next to an item, if waiting starts at once *)
  Definition ready (th : thr) : nat :=
    match at_ th with Adding _ n | Notifying n | WithCondition n => n | Checking | Woken => 1 | _ => 0 end.
  Definition LInv (c : st) : Prop :=
    (forall t th, nth_error (qthreads c) t = Some th -> at_ th = ToWait \/ at_ th = Looping -> items c = []) /\
    NoDup (waiters c) /\ (forall t, In t (waiters c) <-> asleep c t) /\
    (forall t th, nth_error (qthreads c) t = Some th -> at_ th <> Expired) /\
    (waiters c <> [] -> length (items c) <= sumf ready (qthreads c)).

  Lemma sumf_ready_wake who : forall ths : list thr, NoDup who -> (forall t, In t who -> exists th, nth_error ths t = Some th /\ at_ th = Waiting) ->
    sumf ready (wake_all who ths) = sumf ready ths + length who.
  Proof.
    induction who as [|u who IH]; intros ths Hd Hin.
    - unfold wake_all. simpl. lia.
    - unfold wake_all. cbn [fold_left]. fold (wake_all who (match nth_error ths u with Some th => upd ths u (wake th) | None => ths end)).
      inversion Hd; subst. destruct (Hin u (or_introl eq_refl)) as (th & E & Ea). rewrite E. rewrite IH; auto.
      + pose proof (sumf_upd ready ths u th (wake th) E) as K. assert (ready th = 0 /\ ready (wake th) = 1) by (unfold wake, ready; rewrite Ea; auto). simpl length. lia.
      + intros t Ht. destruct (Hin t (or_intror Ht)) as (th' & E' & Ea'). exists th'. split; auto. rewrite nth_error_upd_neq; auto. intros ->; auto.
  Qed.
  Ltac one Ea := unfold ready; rewrite ?Ea; simpl; rewrite ?app_length; simpl; auto; try discriminate; try (left; lia);
    try (let K := fresh in intros [K|K]; discriminate); try (right; split; [reflexivity|match goal with Hg : holds _ = true -> _ |- _ => exact (Hg eq_refl) end]).
  Lemma LInv_event programs log q (c : st) e : QInv programs log q c -> Forall (fun th => Forall (@plain A) (qtodo th)) (qthreads c) ->
    no_gap c e -> LInv c -> LInv (qevent c e).
  Proof.
    intros HQ HP HG (H1 & H2 & H3 & H4 & H5).
    assert (LInv c) as Hsame by (repeat split; auto; apply H3).
    assert (forall t th, nth_error (qthreads c) t = Some th -> Forall (@plain A) (qtodo th)) as HP'.
    { intros t th E. rewrite Forall_forall in HP. apply HP. eapply nth_error_In; eauto. }
    assert (forall t th, nth_error (qthreads c) t = Some th -> (holds (at_ th) = true <-> qlock c = Some t)) as Hh by apply HQ.
    (* one thread changes, which neither was nor becomes a waiting one *)
    assert (forall u uth uth' its L C, nth_error (qthreads c) u = Some uth -> at_ uth <> Waiting -> at_ uth' <> Waiting -> at_ uth' <> Expired ->
       (at_ uth' = ToWait \/ at_ uth' = Looping -> its = []) -> (its = items c \/ (holds (at_ uth) = true /\ forall t th, nth_error (qthreads c) t = Some th -> at_ th = ToWait -> t = u)) ->
       length its + ready uth <= length (items c) + ready uth' \/ its = [] ->
       LInv (mk_qstate its L C (waiters c) (upd (qthreads c) u uth'))) as Hone.
    { intros u uth uth' its L C E N1 N2 N3 N4 N5 N6. unfold LInv. simpl. repeat split; auto.
      - intros t th Et Ha. apply nth_upd_cases in Et. destruct Et as [[-> ->]|[N Et]]; auto.
        destruct N5 as [->|[Hhu Hnl]]; [eapply H1; eauto|]. exfalso. destruct Ha as [Ha|Ha].
        + apply N, (Hnl _ _ Et Ha).
        + apply Hh in E. apply Hh in Et. rewrite Ha in Et. simpl in Et. destruct E as [E _], Et as [Et _]. specialize (E Hhu). specialize (Et eq_refl). congruence.
      - intros Hin. apply H3 in Hin. destruct Hin as (th & Et & Ha). exists th. simpl. split; auto. rewrite nth_error_upd_neq; auto. intros <-. congruence.
      - intros (th & Et & Ha). simpl in Et. apply nth_upd_cases in Et. destruct Et as [[-> ->]|[N Et]]; [congruence|]. apply H3. exists th. auto.
      - intros t th Et. apply nth_upd_cases in Et. destruct Et as [[-> ->]|[N Et]]; eauto.
      - intros Hw. specialize (H5 Hw). pose proof (sumf_upd ready _ _ _ uth' E) as K. destruct N6 as [N6| ->]; simpl; lia. }
    assert (forall u uth late, e = Turn u late -> nth_error (qthreads c) u = Some uth -> holds (at_ uth) = true ->
       forall t th, nth_error (qthreads c) t = Some th -> at_ th = ToWait -> t = u) as Hgap.
    { intros u uth late -> E Hhu t th Et Ha. destruct (HG _ _ Et Ha) as [|(uth2 & n & E2 & Ea2)]; auto.
      rewrite E in E2. injection E2 as <-. rewrite Ea2 in Hhu. discriminate. }
    assert (forall t th, nth_error (qthreads c) t = Some th -> timed th = false) as Hntm.
    { intros t th E. specialize (HP' _ _ E). unfold timed. destruct (qtodo th) as [|o ops]; auto. inversion HP'; subst. destruct o as [| |[]|[]]; simpl in *; auto; tauto. }
    destruct e as [u late|u]; simpl.
    - unfold qturn. destruct (nth_error (qthreads c) u) as [uth|] eqn:E; auto. pose proof (Hgap u uth late eq_refl E) as Hg.
      destruct (at_ uth) as [|rest n|n|n| | | | | | ] eqn:Ea; auto.
      + destruct (qtodo uth) as [|[]] eqn:Et; auto; destruct (qlock c); auto; apply (Hone _ _ _ _ _ _ E); one Ea.
      + destruct rest as [|x rest]; apply (Hone _ _ _ _ _ _ E); one Ea.
      + destruct (clock c); auto; apply (Hone _ _ _ _ _ _ E); one Ea.
      + assert (Hfs : waiters c = firstn n (waiters c) ++ skipn n (waiters c)) by (symmetry; apply firstn_skipn).
        assert (forall t, In t (waiters c) -> exists th, nth_error (upd (qthreads c) u (finish uth Done)) t = Some th /\ at_ th = Waiting) as Hwt.
        { intros t Ht. apply H3 in Ht. destruct Ht as (th & Et & Ha). exists th. split; auto. rewrite nth_error_upd_neq; auto. intros ->. congruence. }
        assert (NoDup (firstn n (waiters c)) /\ NoDup (skipn n (waiters c)) /\ forall t, In t (firstn n (waiters c)) -> ~ In t (skipn n (waiters c))) as (D1 & D2 & D3).
        { rewrite Hfs in H2. clear -H2. induction (firstn n (waiters c)) as [|h l IH]; simpl in *; [repeat split; auto; constructor|].
          inversion H2; subst. destruct (IH H3) as (I1 & I2 & I3). rewrite in_app_iff in H1. split; [constructor; auto|]. split; auto. intros t [->|Ht]; auto. }
        unfold put_thread.
        assert (forall t th, nth_error (wake_all (firstn n (waiters c)) (upd (qthreads c) u (finish uth Done))) t = Some th ->
          (t = u /\ at_ th = Outside) \/ (t <> u /\ exists th0, nth_error (qthreads c) t = Some th0 /\ at_ th = (if memb Nat.eqb t (firstn n (waiters c)) then Woken else at_ th0))) as Hth.
        { intros t th Et. rewrite wake_all_nth in Et. destruct (nth_error (upd (qthreads c) u (finish uth Done)) t) as [x|] eqn:Ex; [|discriminate]. injection Et as <-.
          apply nth_upd_cases in Ex. destruct Ex as [[-> ->]|[N Ex]].
          - left. split; auto. destruct (memb _ _ _); reflexivity.
          - right. split; auto. exists x. split; auto. destruct (memb Nat.eqb t (firstn n (waiters c))) eqn:Em; auto.
            assert (In t (waiters c)) as Hin by (rewrite Hfs; apply in_or_app; left; apply (memb_In nateqb_ok); auto).
            apply H3 in Hin. destruct Hin as (th0 & Et0 & Ha0). rewrite Ex in Et0. injection Et0 as <-. unfold wake. rewrite Ha0. reflexivity. }
        unfold LInv. simpl. split; [|split; [|split; [|split]]].
        * intros t th Et Ha. destruct (Hth _ _ Et) as [[-> K]|[N (th0 & Et0 & K)]]; rewrite K in Ha; [destruct Ha; discriminate|].
          destruct (memb _ _ _); [destruct Ha; discriminate|eauto].
        * auto.
        * intros t. split.
          -- intros Hin. assert (In t (waiters c)) as Hin' by (rewrite Hfs; apply in_or_app; auto).
             destruct (Hwt _ Hin') as (th & Et & Ha). exists th. simpl. rewrite wake_all_nth, Et. split; auto.
             destruct (memb Nat.eqb t (firstn n (waiters c))) eqn:Em; auto. apply (memb_In nateqb_ok) in Em. destruct (D3 _ Em Hin).
          -- intros (th & Et & Ha). simpl in Et. destruct (Hth _ _ Et) as [[-> K]|[N (th0 & Et0 & K)]]; [congruence|].
             destruct (memb Nat.eqb t (firstn n (waiters c))) eqn:Em; [congruence|].
             assert (In t (waiters c)) as Hin by (apply H3; exists th0; split; congruence). rewrite Hfs in Hin. apply in_app_or in Hin. destruct Hin as [Hin|]; auto.
             apply (memb_In nateqb_ok) in Hin. congruence.
        * intros t th Et. destruct (Hth _ _ Et) as [[-> K]|[N (th0 & Et0 & K)]]; rewrite K; [discriminate|]. destruct (memb _ _ _); [discriminate|eauto].
        * intros Hne. assert (n < length (waiters c)) as Hlt by (destruct (Nat.lt_ge_cases n (length (waiters c))); auto; rewrite skipn_all2 in Hne by auto; tauto).
          rewrite sumf_ready_wake; auto.
          -- pose proof (sumf_upd ready _ _ _ (finish uth Done) E) as K. assert (ready uth = n /\ ready (finish uth Done) = 0) by (unfold ready; rewrite Ea; auto).
             rewrite firstn_length_le by lia. assert (waiters c <> []) as Hw by (intros K2; rewrite K2 in Hlt; simpl in Hlt; lia). specialize (H5 Hw). lia.
          -- intros t Ht. apply Hwt. rewrite Hfs. apply in_or_app. auto.
      + destruct (items c) as [|x its] eqn:Ei.
        * apply (Hone _ _ _ _ _ _ E); one Ea.
        * assert (getting uth) as Hgt.
          { destruct HQ as (Hl & Ht & _). destruct (nth_error programs u) as [p|] eqn:Ep; [|apply nth_error_None in Ep; apply nth_lt in E; lia].
            destruct (Ht _ _ _ Ep E) as (_ & T2 & _). rewrite Ea in T2. apply T2; auto; discriminate. }
          unfold getting in Hgt. specialize (HP' _ _ E). destruct (qtodo uth) as [|o ops] eqn:Et; [destruct Hgt|]. inversion HP'; subst.
          destruct o as [| |[]|[]]; simpl in *; try tauto.
          apply (Hone _ _ _ _ _ _ E); one Ea. right. split; [reflexivity|exact (Hg eq_refl)].
      + rewrite (Hntm _ _ E). simpl. apply (Hone _ _ _ _ _ _ E); unfold ready; rewrite ?Ea; simpl; auto; try discriminate. intros _. eapply H1; eauto.
      + destruct (clock c); auto. assert (items c = []) as Hi by eauto. unfold put_thread. unfold LInv. simpl. split; [|split; [|split; [|split]]].
        * auto.
        * apply NoDup_app_intro; auto; [constructor; auto; constructor|]. intros t Ht [<-|[]]. apply H3 in Ht. destruct Ht as (th & Et & Ha). congruence.
        * intros t. rewrite in_app_iff. simpl. rewrite (H3 t). unfold asleep. simpl. destruct (Nat.eq_dec t u) as [->|N].
          -- split; [|tauto]. intros _. eexists. rewrite nth_error_upd_eq by (eapply nth_lt; eauto). split; reflexivity.
          -- rewrite nth_error_upd_neq by auto. split; [intros [K|[K|[]]]; [auto|congruence]|auto].
        * intros t th Et. apply nth_upd_cases in Et. destruct Et as [[-> ->]|[N Et]]; [discriminate|eauto].
        * rewrite Hi. simpl. lia.
      + destruct (H4 _ _ E Ea).
      + destruct (qlock c); auto; apply (Hone _ _ _ _ _ _ E); one Ea.
    - unfold qexpire. destruct (nth_error (qthreads c) u) as [uth|] eqn:E; auto. rewrite (Hntm _ _ E). auto.
  Qed.

  Lemma LInv_start programs : LInv (@qstart A programs).
  Proof.
    assert (forall t th, nth_error (qthreads (@qstart A programs)) t = Some th -> at_ th = Outside) as Hs.
    { intros t th H. unfold qstart in H. simpl in H. rewrite nth_error_map in H. destruct (nth_error programs t); [|discriminate]. injection H as <-. reflexivity. }
    unfold LInv. split; [|split; [|split; [|split]]]; auto.
    - constructor.
    - intros t. split; [intros []|]. intros (th & E & Ha). rewrite (Hs _ _ E) in Ha. discriminate.
    - intros t th E Ha. rewrite (Hs _ _ E) in Ha. discriminate.
    - intros K. destruct (K eq_refl).
  Qed.

  Lemma LInv_exec programs es : Forall (Forall (@plain A)) programs -> no_gaps (qstart programs) es -> LInv (qexec (qstart programs) es).
  Proof.
    intros HP. assert (forall log q (c : st), QInv programs log q c -> Forall (fun th => Forall (@plain A) (qtodo th)) (qthreads c) -> LInv c -> no_gaps c es -> LInv (qexec c es)) as G.
    { clear. induction es as [|e es IH]; simpl; intros log q c HQ HP HL HG; auto. destruct HG as [HG HG']. destruct (inv_event _ _ _ _ e HQ) as (ext & q' & HQ').
      eapply IH; eauto; [apply todo_event; auto|eapply LInv_event; eauto]. }
    intros HG. apply (G [] [] (qstart programs) (QInv_start programs) (todo_start _ _ HP) (LInv_start programs) HG).
  Qed.

  Lemma rest_places programs log q (c : st) : QInv programs log q c -> CInv c -> at_rest c ->
    forall t th, nth_error (qthreads c) t = Some th -> at_ th = Outside \/ at_ th = Waiting.
  Proof.
    intros HQ HC HR.
    assert (forall t th p, nth_error (qthreads c) t = Some th -> upd (qthreads c) t (goto th p) = qthreads c -> at_ th = p) as Hgo.
    { intros t th p E K. assert (nth_error (upd (qthreads c) t (goto th p)) t = Some th) as K2 by (rewrite K; auto).
      rewrite nth_error_upd_eq in K2 by (eapply nth_lt; eauto). injection K2 as K2. rewrite <- K2. reflexivity. }
    assert (forall t th r, nth_error (qthreads c) t = Some th -> upd (qthreads c) t (finish th r) = qthreads c -> False) as Hfi.
    { intros t th r E K. assert (nth_error (upd (qthreads c) t (finish th r)) t = Some th) as K2 by (rewrite K; auto).
      rewrite nth_error_upd_eq in K2 by (eapply nth_lt; eauto). injection K2 as K2. apply (f_equal (fun x => length (qresults x))) in K2. simpl in K2.
      rewrite app_length in K2. simpl in K2. lia. }
    assert (forall t th n, nth_error (qthreads c) t = Some th -> at_ th <> WithCondition n) as Hwc.
    { intros t th n E Ea. specialize (HR (Turn t false)). simpl in HR. unfold qturn in HR. rewrite E, Ea in HR.
      apply (f_equal (fun c => nth_error (qthreads c) t)) in HR. simpl in HR. rewrite wake_all_nth in HR. unfold put_thread in HR.
      rewrite nth_error_upd_eq in HR by (eapply nth_lt; eauto). rewrite E in HR. injection HR as HR.
      apply (f_equal (fun x => at_ x)) in HR. rewrite Ea in HR. destruct (memb _ _ _); discriminate. }
    assert (clock c = None) as Hc.
    { destruct (clock c) as [t|] eqn:Ec; auto. destruct (HC _ Ec) as (th & n & E & Ea). destruct (Hwc _ _ _ E Ea). }
    assert (forall t th, nth_error (qthreads c) t = Some th -> holds (at_ th) = false) as Hno.
    { intros t th E. pose proof (HR (Turn t false)) as K. simpl in K. unfold qturn in K. rewrite E in K. destruct (at_ th) as [|rest n|n|n| | | | | | ] eqn:Ea; auto.
      - destruct rest as [|x rest]; apply (f_equal (@qthreads A)) in K; simpl in K; apply (Hgo _ _ _ E) in K; rewrite Ea in K; try discriminate.
        injection K as K _. apply (f_equal (@length A)) in K. simpl in K. lia.
      - destruct (items c); apply (f_equal (@qthreads A)) in K; simpl in K; [apply (Hgo _ _ _ E) in K; congruence|destruct (Hfi _ _ _ E K)].
      - rewrite andb_false_r in K. apply (f_equal (@qthreads A)) in K; simpl in K; apply (Hgo _ _ _ E) in K; congruence. }
    assert (qlock c = None) as Hl.
    { destruct (qlock c) as [t|] eqn:El; auto. destruct HQ as (_ & _ & Hh & Hb & _). specialize (Hb _ El). apply nth_error_Some in Hb.
      destruct (nth_error (qthreads c) t) as [th|] eqn:E; [|tauto]. apply (Hh _ _ E) in El. rewrite (Hno _ _ E) in El. discriminate. }
    intros t th E. specialize (Hno _ _ E). pose proof (HR (Turn t false)) as K. simpl in K. unfold qturn in K. rewrite E in K.
    destruct (at_ th) as [|rest n|n|n| | | | | | ] eqn:Ea; auto; try discriminate.
    - rewrite Hc in K. apply (f_equal (@qthreads A)) in K; simpl in K; apply (Hgo _ _ _ E) in K; congruence.
    - destruct (Hwc _ _ _ E Ea).
    - rewrite Hc in K. apply (f_equal (@qthreads A)) in K; simpl in K; apply (Hgo _ _ _ E) in K; congruence.
    - apply (f_equal (@qthreads A)) in K; simpl in K; destruct (Hfi _ _ _ E K).
    - rewrite Hl in K. apply (f_equal (@qthreads A)) in K; simpl in K; apply (Hgo _ _ _ E) in K; congruence.
  Qed.

  Lemma nobody_sleeps programs es : Forall (Forall (@plain A)) programs -> no_gaps (qstart programs) es ->
    let c := qexec (qstart programs) es in at_rest c -> forall t, asleep c t -> items c = [].
  Proof.
    intros HP HG c HR t Hs. destruct (LInv_exec programs es HP HG) as (_ & _ & H3 & _ & H5). fold c in H3, H5.
    destruct (QInv_reach programs es) as (log & q & HQ). fold c in HQ.
    assert (CInv c) as HC.
    { unfold c. assert (CInv (qstart programs)) as H1 by (intros u Hu; discriminate). clear -H1. revert H1. generalize (qstart programs).
      induction es as [|e es IH]; intros c H1; simpl; auto. apply IH, CInv_event; auto. }
    pose proof (rest_places _ _ _ _ HQ HC HR) as Hp.
    assert (sumf ready (qthreads c) = 0) as H0.
    { clear -Hp. unfold sumf. induction (qthreads c) as [|h l IH]; auto. simpl. rewrite IH by (intros t th E; apply (Hp (S t) th E)).
      unfold ready. destruct (Hp 0 h eq_refl) as [-> | ->]; reflexivity. }
    assert (waiters c <> []) as Hw by (apply H3 in Hs; intros K; rewrite K in Hs; destruct Hs).
    specialize (H5 Hw). destruct (items c); auto. simpl in H5. lia.
  Qed.

  (** ** checks that compute *)
  Definition done_or_asleep (th : thr) : bool :=
    match at_ th with Outside => match qtodo th with [] => true | _ => false end | Waiting => negb (timed th) | _ => false end.
  Lemma at_rest_check (c : st) : forallb done_or_asleep (qthreads c) = true -> at_rest c.
  Proof.
    intros H. rewrite forallb_forall in H. intros [t late|t]; simpl; unfold qturn, qexpire; destruct (nth_error (qthreads c) t) as [th|] eqn:E; auto;
      specialize (H _ (nth_error_In _ _ E)); unfold done_or_asleep in H; destruct (at_ th) eqn:Ea; try discriminate; auto.
    - destruct (qtodo th); [auto|discriminate].
    - destruct (timed th); auto.
    - destruct (timed th); [discriminate|auto].
  Qed.
  Definition no_gapb (c : st) (e : event) : bool :=
    forallb (fun p => match at_ (snd p) with
                      | ToWait => match e with
                                  | Turn u _ => Nat.eqb u (fst p) || match nth_error (qthreads c) u with
                                                                     | Some uth => match at_ uth with WithCondition _ => true | _ => false end
                                                                     | None => false end
                                  | Expire _ => false end
                      | _ => true end) (combine (seq 0 (length (qthreads c))) (qthreads c)).
  Fixpoint no_gapsb (c : st) (es : list event) : bool :=
    match es with [] => true | e :: rest => no_gapb c e && no_gapsb (qevent c e) rest end.
  Lemma In_numbered {X} (l : list X) : forall k t x, nth_error l t = Some x -> In (k + t, x) (combine (seq k (length l)) l).
  Proof.
    induction l as [|h l IH]; intros k [|t] x H; simpl in *; try discriminate.
    - injection H as ->. left. f_equal. lia.
    - right. replace (k + S t) with (S k + t) by lia. apply IH. auto.
  Qed.
  Lemma no_gaps_check es : forall c : st, no_gapsb c es = true -> no_gaps c es.
  Proof.
    induction es as [|e es IH]; simpl; intros c H; auto. apply andb_prop in H. destruct H as [H1 H2]. split; auto.
    intros t th E Ea. unfold no_gapb in H1. rewrite forallb_forall in H1. specialize (H1 _ (In_numbered _ 0 _ _ E)). simpl in H1. rewrite Ea in H1.
    destruct e as [u late|u]; [|discriminate]. apply orb_prop in H1. destruct H1 as [H1|H1]; [left; apply Nat.eqb_eq; auto|right].
    destruct (nth_error (qthreads c) u) as [uth|]; [|discriminate]. destruct (at_ uth) eqn:Eu; try discriminate. eauto.
  Qed.
End QueueProofs.
