From Verif Require Import Prelude PreludeFacts Writeback_Model Writeback_Spec.

Section WritebackProofs.
  Context {K V : Type}.
  Variable eqb : K -> K -> bool.
  Hypothesis Heqb : eqb_ok eqb.
  Variable ske del : bool.
  Local Notation dg := (dget eqb).

  Definition same (a b : dict K V) : Prop := forall k, dg a k = dg b k.

  Definition wInv (s : wb K V) (m : dict K V) : Prop :=
    dwf m /\ dwf (wb_store s) /\ dwf (wb_cache s) /\
    same (fold_left (run_job eqb) (wb_jobs s) (wb_store s)) m /\
    (forall k v, dg (wb_cache s) k = Some v -> dg m k = Some v) /\
    (forall k, In k (wb_in s) -> dg (wb_cache s) k = None -> dg m k = None).

  Lemma run_job_wf (d : dict K V) j : dwf d -> dwf (run_job eqb d j).
  Proof. destruct j; simpl; [apply dset_wf|apply ddel_wf]; auto. Qed.
  Lemma run_jobs_wf l : forall d : dict K V, dwf d -> dwf (fold_left (run_job eqb) l d).
  Proof. induction l as [|j l IH]; simpl; auto. intros d W. apply IH. apply run_job_wf; auto. Qed.

  Lemma dget_dset_if (d : dict K V) k v k' : dg (dset eqb d k v) k' = if eqb k k' then Some v else dg d k'.
  Proof.
    destruct (eqb k k') eqn:E.
    - apply Heqb in E. subst. apply (dget_dset_eq Heqb).
    - apply (eqb_false_iff Heqb) in E. apply (dget_dset_neq Heqb). congruence.
  Qed.
  Lemma dget_ddel_if (d : dict K V) k k' : dwf d -> dg (ddel eqb d k) k' = if eqb k k' then None else dg d k'.
  Proof.
    intros W. destruct (eqb k k') eqn:E.
    - apply Heqb in E. subst. apply (dget_ddel_eq Heqb); auto.
    - apply (eqb_false_iff Heqb) in E. apply (dget_ddel_neq Heqb). congruence.
  Qed.

  Lemma In_add l k x : In x (add_in eqb l k) <-> x = k \/ In x l.
  Proof.
    unfold add_in. destruct (memb eqb k l) eqn:E.
    - apply (memb_In Heqb) in E. split; [auto|]. intros [->|H]; auto.
    - rewrite in_app_iff. simpl. intuition.
  Qed.

  Lemma operate_inv s m : wInv s m -> wInv (wb_operate s) m.
  Proof.
    intros (A & B & C & D & E & F). unfold wb_operate. destruct (Nat.ltb 100 (S (wb_ops s))); unfold wInv; simpl.
    - split; [auto|]. split; [auto|]. split; [auto|]. split; [auto|]. split; [auto|].
      intros k Hk Hn. apply (dget_None Heqb) in Hn. contradiction.
    - split; auto.
  Qed.

  Lemma run_all_inv s m : wInv s m -> wInv (wb_run_all eqb s) m.
  Proof.
    intros (A & B & C & D & E & F). unfold wInv; simpl.
    split; [auto|]. split; [apply run_jobs_wf; auto|]. auto.
  Qed.

  Lemma run_0_inv s m : wInv s m -> wInv (wb_run_nth eqb s 0) m.
  Proof.
    intros I. unfold wb_run_nth. destruct (wb_jobs s) as [|j l] eqn:Ej; simpl; auto.
    destruct I as (A & B & C & D & E & F). unfold wInv; simpl. rewrite Ej in D. simpl in D.
    split; [auto|]. split; [apply run_job_wf; auto|]. auto.
  Qed.

  Lemma wb_step_ok s m o : wInv s m -> in_order o = true ->
    let '(s', out) := wb_step eqb ske del s o in
    wb_answer eqb del m o out /\ wInv s' (wb_after eqb del m o).
  Proof.
    intros I Ho. destruct o as [k sched|k v|k|i|]; cbn beta iota delta [wb_step wb_answer wb_after].
    - destruct sched; [discriminate|]. unfold wb_getitem, wb_before.
      apply operate_inv in I. remember (wb_operate s) as s0 eqn:E0. clear E0.
      destruct (memb eqb k (wb_in s0)) eqn:Em; simpl negb; cbv iota.
      + apply (memb_In Heqb) in Em. pose proof I as (A & B & C & D & E & F).
        destruct (dg (wb_cache s0) k) as [v|] eqn:Ec.
        * rewrite (E _ _ Ec). auto.
        * rewrite (F _ Em Ec). auto.
      + apply run_all_inv in I. pose proof I as (A & B & C & D & E & F).
        remember (wb_run_all eqb s0) as s1 eqn:E1.
        assert (Ej : wb_jobs s1 = []) by (subst; reflexivity).
        pose proof (D k) as Dk. rewrite Ej in Dk. simpl in Dk. rewrite <- Dk.
        destruct (dg (wb_store s1) k) as [v|] eqn:Es.
        * split; auto. unfold wInv; simpl. split; [auto|]. split; [auto|]. split; [apply dset_wf; auto|].
          split; [auto|]. split.
          -- intros k' v'. rewrite dget_dset_if. destruct (eqb k k') eqn:Ek; auto.
             apply Heqb in Ek. subst. congruence.
          -- intros k'. rewrite In_add, dget_dset_if. destruct (eqb k k') eqn:Ek; [discriminate|].
             apply (eqb_false_iff Heqb) in Ek. intros [->|H]; [congruence|auto].
        * destruct ske; [|auto]. split; auto. unfold wInv; simpl. split; [auto|]. split; [auto|]. split; [auto|].
          split; [auto|]. split; [auto|]. intros k'. rewrite In_add. intros [->|H]; auto.
    - split; auto. unfold wb_setitem. apply operate_inv. destruct I as (A & B & C & D & E & F).
      unfold wInv; simpl. split; [apply dset_wf; auto|]. split; [auto|]. split; [apply dset_wf; auto|]. split.
      { intros k'. rewrite fold_left_app. simpl. rewrite !dget_dset_if, D. auto. }
      split.
      + intros k' v'. rewrite !dget_dset_if. destruct (eqb k k'); auto.
      + intros k'. rewrite In_add, !dget_dset_if. destruct (eqb k k') eqn:Ek; [discriminate|].
        apply (eqb_false_iff Heqb) in Ek. intros [->|H]; [congruence|auto].
    - unfold wb_delitem. destruct del; [|auto]. split; auto. apply operate_inv.
      destruct I as (A & B & C & D & E & F).
      unfold wInv; simpl. split; [apply ddel_wf; auto|]. split; [auto|]. split; [apply ddel_wf; auto|]. split.
      { intros k'. rewrite fold_left_app. simpl. rewrite !dget_ddel_if by (auto using run_jobs_wf). rewrite D. auto. }
      split.
      + intros k' v'. rewrite !dget_ddel_if by auto. destruct (eqb k k'); auto.
      + intros k'. rewrite !dget_ddel_if by auto. destruct (eqb k k') eqn:Ek; auto.
        apply (eqb_false_iff Heqb) in Ek. destruct ske; auto. rewrite In_add. intros [->|H]; [congruence|auto].
    - destruct i; [|discriminate]. split; auto. apply run_0_inv; auto.
    - apply run_all_inv in I. split; auto. eexists; split; [reflexivity|]. apply I.
  Qed.

  Lemma wb_run_ok ops : forall s m, wInv s m -> forallb in_order ops = true ->
    wb_session eqb del m ops (fst (wb_run eqb ske del s ops)).
  Proof.
    induction ops as [|o t IH]; intros s m I Ho; simpl in *; [constructor|].
    apply andb_true_iff in Ho. destruct Ho as [Ho1 Ho2].
    pose proof (wb_step_ok s m o I Ho1) as Hs. destruct (wb_step eqb ske del s o) as [s1 out].
    destruct Hs as [A I1]. specialize (IH s1 _ I1 Ho2). destruct (wb_run eqb ske del s1 t) as [outs s2].
    simpl. constructor; auto.
  Qed.

  Lemma wb_session_ok (store : dict K V) ops : dwf store -> forallb in_order ops = true ->
    wb_session eqb del store ops (fst (wb_run eqb ske del (wb_init store) ops)).
  Proof.
    intros W Ho. apply wb_run_ok; auto. unfold wInv; simpl.
    split; [auto|]. split; [auto|]. split; [constructor|]. split; [intros k; auto|]. split; [discriminate|tauto].
  Qed.
End WritebackProofs.
