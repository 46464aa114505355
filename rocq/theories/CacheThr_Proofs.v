From Coq Require Import Lia.
From Verif Require Import Prelude PreludeFacts CacheDict_Model CacheThr_Model CacheThr_Spec.
Set Implicit Arguments.

Section P.
  Context {K V : Type}.
  Variable eqb : K -> K -> bool.
  Hypothesis ok : eqb_ok eqb.
  Variable c : cfg V.
  Notation step := (step eqb c).
  Notation exec := (exec eqb c).
  Notation adv := (advance eqb c).

  Lemma exec_snoc w l e : exec w (l ++ [e]) = step (exec w l) e.
  Proof. unfold exec. now rewrite fold_left_app. Qed.
  Lemma put_eq (f : nat -> option (op K V * pc V)) t x : put f t x t = x.
  Proof. unfold put. now rewrite Nat.eqb_refl. Qed.
  Lemma put_cases (f : nat -> option (op K V * pc V)) t x u y : put f t x u = y -> (u = t /\ x = y) \/ (u <> t /\ f u = y).
  Proof. unfold put. destruct (Nat.eqb_spec u t); auto. Qed.
  Lemma put_same (f : nat -> option (op K V * pc V)) t x y u : put (put f t x) t y u = put f t y u.
  Proof. unfold put. destruct (Nat.eqb_spec u t); auto. Qed.

  Lemma In_dset (d : dict K V) k v x u : In (x, u) (dset eqb d k v) -> (x = k /\ u = v) \/ In (x, u) d.
  Proof.
    induction d as [|[k' v'] t IH]; simpl; [intros [[= <- <-]|[]]; auto|].
    destruct (eqb k' k) eqn:E; simpl; intros [[= <- <-]|H]; auto; [apply ok in E; auto|]. destruct (IH H); auto.
  Qed.
  Lemma In_ddel (d : dict K V) k x : In x (ddel eqb d k) -> In x d.
  Proof. induction d as [|[k' v'] t IH]; simpl; auto. destruct (eqb k' k); simpl; intuition. Qed.

  (** ** values *)
  Section Values.
    Variable src : K -> V -> Prop.
    Definition fine_pc (k : K) (p : pc V) : Prop :=
      match p with
      | Store1 v a => src k v /\ (forall u, a = Return u -> src k u)
      | Store2 a | Store3 a => forall u, a = Return u -> src k u
      | _ => True
      end.
    Record VI (w : world K V) : Prop := {
      v_data : forall k v, In (k, v) (cd_data (cache w)) -> src k v;
      v_pc : forall t o p, threads w t = Some (o, p) -> fine_pc (key_of o) p;
      v_log : forall t o v, In (t, o, RValue v) (log w) -> src (key_of o) v \/ c_default c = Some v }.
    Definition fine_next k (n : next V) : Prop := match n with Go p => fine_pc k p | End r => forall v, r = RValue v -> src k v \/ c_default c = Some v end.
    Lemma missing_fine k b : fine_next k (missing c b).
    Proof. unfold missing. destruct b; [discriminate|]. destruct (c_default c) eqn:E; simpl; [|discriminate]. intros u [= <-]. auto. Qed.
    Lemma deleted_fine k a : fine_next k (deleted c a).
    Proof. destruct a; simpl; try discriminate. unfold failed. destruct (c_fail c); simpl; auto. apply missing_fine. Qed.
    Lemma not_there_fine k a : fine_next k (not_there c a).
    Proof. destruct a; [discriminate| |]; apply deleted_fine. Qed.
    Lemma adv_fine k p s g m now s' n : (forall k v, In (k, v) (cd_data s) -> src k v) -> fine_pc k p ->
      (forall b, p = Waiting b -> forall v, g = Ok v -> src k v) -> adv k p s g m now = (s', n) ->
      (forall k v, In (k, v) (cd_data s') -> src k v) /\ fine_next k n.
    Proof.
      intros D F G. destruct p; simpl; try (intros [= <- <-]; split; [exact D|]).
      - destruct (dmem eqb (cd_data s) k); simpl; auto.
      - destruct (memb eqb k (cd_missed s)); simpl; auto.
      - destruct (dget eqb (cd_ts s) k); simpl; [auto|discriminate].
      - simpl; auto.
      - destruct (memb eqb k (cd_missed s)); [intros [= <- <-]; split; simpl; auto|].
        destruct (Z.ltb _ _); [intros [= <- <-]; split; simpl; auto|]. destruct (Z.ltb _ _); intros [= <- <-]; split; simpl; auto.
      - destruct (memb eqb k (cd_missed s)); [|discriminate]. destruct (c_fail c); [|discriminate]. destruct (Z.ltb _ _); [simpl; auto|apply (missing_fine k false)].
      - destruct (dget eqb (cd_data s) k) eqn:E; simpl; [|discriminate]. intros u [= <-]. left. apply D. apply (dget_In ok). exact E.
      - destruct g as [v|e]; simpl.
        + specialize (G _ eq_refl _ eq_refl). split; [exact G|]. destruct background; intros u; [discriminate|intros [= <-]; exact G].
        + destruct e; simpl; auto; destruct background; discriminate.
      - intros [= <- <-]. destruct F as [F1 F2]. split; [|exact F2]. intros k' v' H. cbn [cd_data set_data] in H.
        apply In_dset in H as [[-> ->]|H]; auto.
      - simpl. exact F.
      - destruct a; simpl; [|discriminate]. intros u [= <-]. left. apply F. reflexivity.
      - destruct (dmem eqb (cd_data s) k); intros [= <- <-].
        + split; [|exact I]. intros k' v' H. apply In_ddel in H. auto.
        + split; [exact D|apply not_there_fine].
      - destruct (dmem eqb (cd_ts s) k); intros [= <- <-]; (split; [exact D|]); [exact I|apply not_there_fine].
      - apply deleted_fine.
      - simpl; auto.
      - apply missing_fine.
    Qed.
    Lemma enter_VI w t o s : VI w -> cd_data s = cd_data (cache w) -> fine_pc (key_of o) (begin o) -> VI (enter w t o s).
    Proof.
      intros [D P L] E F. unfold enter. destruct (threads w t) eqn:T; [constructor; auto|]. constructor; cbn [cache threads log].
      - rewrite E. exact D.
      - intros u o' p' H. apply put_cases in H as [[-> H]|[_ H]]; [injection H as <- <-; exact F|eauto].
      - exact L.
    Qed.
    Lemma step_VI w e : VI w -> (forall t k v, e = Call t (OSet k v) -> src k v) -> (forall k v, In (k, Ok v) (asked (step w e)) -> src k v) -> VI (step w e).
    Proof.
      intros I C A. destruct e as [t o|t i|t g m now]; cbn [step] in *.
      - destruct o as [k|k v|k|k|k]; try exact I; apply enter_VI; auto; simpl; auto. specialize (C t k v eq_refl). split; [exact C|discriminate].
      - destruct (nth_error _ _) as [k|]; [|exact I]. apply enter_VI; simpl; auto.
      - destruct (threads w t) as [[o p]|] eqn:T; [|exact I]. destruct I as [D P L].
        destruct (adv (key_of o) p (cache w) g m now) as [s n] eqn:E. cbn [asked] in A.
        assert (G : forall b, p = Waiting b -> forall v, g = Ok v -> src (key_of o) v).
        { intros b -> v ->. apply A. apply in_or_app. right. left. reflexivity. }
        destruct (@adv_fine _ _ _ _ _ _ _ _ D (P _ _ _ T) G E) as [D' F].
        constructor; cbn [cache threads log].
        + exact D'.
        + intros u o' p' H. apply put_cases in H as [[-> H]|[_ H]]; [|eauto]. destruct n; [|discriminate]. injection H as <- <-. exact F.
        + intros u o' v H. destruct n; [eauto|]. apply in_app_or in H as [H|[H|[]]]; [eauto|]. injection H as <- <- ->. apply F. reflexivity.
    Qed.
  End Values.
  Lemma asked_mono w e x : In x (asked w) -> In x (asked (step w e)).
  Proof.
    destruct e as [t o|t i|t g m now]; cbn [step].
    - destruct o; auto; unfold enter; destruct (threads w t); auto.
    - destruct (nth_error _ _); auto. unfold enter; destruct (threads w t); auto.
    - destruct (threads w t) as [[o p]|]; auto. destruct (adv _ _ _ _ _ _). cbn [asked]. destruct p; auto. intros H. apply in_or_app. auto.
  Qed.
  Definition src (w : world K V) (l : list (event K V)) (k : K) (v : V) : Prop := In (k, Ok v) (asked w) \/ exists t, In (Call t (OSet k v)) l.
  Lemma VI_mono (P Q : K -> V -> Prop) w : (forall k v, P k v -> Q k v) -> VI P w -> VI Q w.
  Proof.
    intros H [D A L]. constructor.
    - intros k v E. apply H, D, E.
    - intros t o p T. specialize (A t o p T). destruct p; simpl in *; intuition eauto.
    - intros t o v I. destruct (L t o v I); auto.
  Qed.
  Lemma exec_VI l : VI (src (exec (start (@cd_init K V)) l) l) (exec (start (@cd_init K V)) l).
  Proof.
    induction l as [|e l IH] using rev_ind.
    - constructor; simpl; [tauto|discriminate|tauto].
    - rewrite exec_snoc. set (w := exec _ l) in *. apply step_VI.
      + revert IH. apply VI_mono. intros k v [H|(t & H)]; [left; now apply asked_mono|right; exists t; apply in_or_app; auto].
      + intros t k v ->. right. exists t. apply in_or_app. right. left. reflexivity.
      + intros k v H. now left.
  Qed.

  (** ** reads of a key that is never removed *)
  Section Kept.
    Variable k : K.
    Definition on_k (s : cst K V) (p : pc V) : Prop :=
      match p with
      | Empty _ _ | Del1 _ | Del2 _ | Del3 _ | Miss1 _ | Miss2 _ => False
      | Stamp | Store2 _ => dmem eqb (cd_data s) k = true
      | Clock _ | Which _ _ | Read | Store3 _ => dmem eqb (cd_data s) k = true /\ dmem eqb (cd_ts s) k = true
      | _ => True
      end.
    Definition pc_for (o : op K V) (p : pc V) : Prop :=
      match p with
      | InData | InMissed | Stamp | Clock _ | Which _ _ | Empty _ _ | Read => exists k, o = OGet k
      | Waiting b => if b then exists k, o = ORefresh k else exists k, o = OGet k
      | Store1 _ (Return _) | Store2 (Return _) | Store3 (Return _) => exists k, o = OGet k
      | Store1 _ Quiet | Store2 Quiet | Store3 Quiet => (exists k v, o = OSet k v) \/ exists k, o = ORefresh k
      | Miss1 b | Miss2 b | Del1 (Failed b) | Del2 (Failed b) | Del3 (Failed b) => if b then exists k, o = ORefresh k else exists k, o = OGet k
      | Del1 FromUser | Del2 FromUser | Del3 FromUser => exists k, o = ODel k
      | Del1 Silenced | Del2 Silenced | Del3 Silenced => exists k, o = OInvalidate k
      end.
    Record KI (w : world K V) : Prop := {
      k_missed : memb eqb k (cd_missed (cache w)) = false;
      k_ts : dmem eqb (cd_ts (cache w)) k = true -> dmem eqb (cd_data (cache w)) k = true;
      k_pc : forall t o p, threads w t = Some (o, p) -> pc_for o p /\ (key_of o = k -> on_k (cache w) p) }.
    Lemma dmem_dset_mono (A : Type) (d : dict K A) k' v : dmem eqb d k = true -> dmem eqb (dset eqb d k' v) k = true.
    Proof. rewrite !(dmem_In ok), (dset_In_keys ok). auto. Qed.
    Lemma dmem_dset_eq (A : Type) (d : dict K A) v : dmem eqb (dset eqb d k v) k = true.
    Proof. unfold dmem. now rewrite (dget_dset_eq ok). Qed.
    Lemma dmem_dset_neq (A : Type) (d : dict K A) k' v : k' <> k -> dmem eqb (dset eqb d k' v) k = dmem eqb d k.
    Proof. intros N. unfold dmem. rewrite (dget_dset_neq ok); auto. Qed.
    Lemma dmem_ddel_neq (A : Type) (d : dict K A) k' : k' <> k -> dmem eqb (ddel eqb d k') k = dmem eqb d k.
    Proof. intros N. unfold dmem. rewrite (dget_ddel_neq ok); auto. Qed.
    Lemma memb_remove l k' : memb eqb k l = false -> memb eqb k (remove_first eqb k' l) = false.
    Proof.
      rewrite !(memb_false ok). intros N H. apply N. clear N. induction l as [|x l IH]; simpl in *; auto.
      destruct (eqb x k'); simpl in *; intuition.
    Qed.
    (** what another key's step does to [k] *)
    Definition same_k (s s' : cst K V) : Prop :=
      (dmem eqb (cd_data s) k = true -> dmem eqb (cd_data s') k = true) /\ (dmem eqb (cd_ts s) k = true -> dmem eqb (cd_ts s') k = true).
    Lemma on_k_mono s s' p : same_k s s' -> on_k s p -> on_k s' p.
    Proof. intros [A B]. destruct p; simpl; intuition. Qed.
    Lemma adv_other k' p s g m now s' n : k' <> k -> adv k' p s g m now = (s', n) ->
      dmem eqb (cd_data s') k = dmem eqb (cd_data s) k /\ dmem eqb (cd_ts s') k = dmem eqb (cd_ts s) k /\
      (memb eqb k (cd_missed s) = false -> memb eqb k (cd_missed s') = false).
    Proof.
      intros N. destruct p; simpl.
      all: repeat match goal with
           | |- context [if ?b then (_, _) else _] => destruct b
           end; intros [= <- _]; cbn [cd_data cd_ts cd_missed set_data set_ts set_missed set_pending];
           rewrite ?dmem_dset_neq, ?dmem_ddel_neq by auto; repeat split; auto; intros M; try (apply memb_remove; auto).
      destruct (memb eqb k' (cd_missed s)); auto. apply (memb_false ok). apply (memb_false ok) in M. rewrite in_app_iff. simpl. intuition.
    Qed.
    Lemma adv_self p s g m now s' n : memb eqb k (cd_missed s) = false -> (dmem eqb (cd_ts s) k = true -> dmem eqb (cd_data s) k = true) ->
      on_k s p -> (forall b, p = Waiting b -> g <> Err KeyError) -> adv k p s g m now = (s', n) ->
      memb eqb k (cd_missed s') = false /\ (dmem eqb (cd_ts s') k = true -> dmem eqb (cd_data s') k = true) /\ same_k s s' /\
      match n with
      | Go p' => on_k s' p'
      | End r => (dmem eqb (cd_ts s) k = true -> (exists v, r = RValue v) \/ r = RDone \/ (exists e b, r = RRaise e /\ e <> KeyError /\ g = Err e /\ p = Waiting b)) /\
                 (dmem eqb (cd_ts s') k = true \/ (exists e, r = RRaise e) \/ (r = RDone /\ p = Waiting true))
      end.
    Proof.
      intros M T O G. unfold same_k. destruct p; simpl in *; try contradiction.
      - intros [= <- <-]. repeat split; auto. destruct (dmem eqb (cd_data s) k) eqn:D; simpl; auto.
      - rewrite M. intros [= <- <-]. repeat split; auto.
      - intros [= <- <-]. repeat split; auto. unfold dmem at 1 2. destruct (dget eqb (cd_ts s) k) eqn:D; simpl.
        + split; auto. unfold dmem. now rewrite D.
        + split; [discriminate|]. right. left. eauto.
      - intros [= <- <-]. repeat split; tauto.
      - rewrite M. destruct (Z.ltb _ _); [intros [= <- <-]; repeat split; simpl; tauto|]. destruct (Z.ltb _ _); intros [= <- <-]; repeat split; simpl; tauto.
      - intros [= <- <-]. destruct O as [O1 O2]. repeat split; auto. unfold dmem in O1. destruct (dget eqb (cd_data s) k) eqn:D; [|discriminate]. split; eauto.
      - intros [= <- <-]. specialize (G _ eq_refl). repeat split; auto. destruct g as [v|e]; simpl; auto.
        destruct e; try congruence; destruct background; (split; [intros _|]); eauto 10; right; right; do 2 eexists; repeat split; eauto; discriminate.
      - intros [= <- <-]. cbn [cd_data cd_ts cd_missed set_data]. repeat split; auto using dmem_dset_mono, dmem_dset_eq. simpl. apply dmem_dset_eq.
      - intros [= <- <-]. cbn [cd_data cd_ts cd_missed set_ts]. repeat split; auto using dmem_dset_mono, dmem_dset_eq; simpl; auto. apply dmem_dset_eq.
      - intros [= <- <-]. cbn [cd_data cd_ts cd_missed set_missed]. destruct O as [O1 O2]. repeat split; auto using memb_remove. destruct a; simpl; split; eauto.
    Qed.
    Lemma begin_for o : pc_for o (begin o).
    Proof. destruct o; simpl; eauto. Qed.
    Lemma adv_for o p s g m now s' p' : pc_for o p -> adv (key_of o) p s g m now = (s', Go p') -> pc_for o p'.
    Proof.
      intros F. destruct p; simpl in *.
      all: repeat match goal with
           | |- context [if ?b then _ else _] => destruct b
           | |- context [match c_fail c with _ => _ end] => destruct (c_fail c)
           | |- context [match c_default c with _ => _ end] => destruct (c_default c)
           | |- context [match dget _ _ _ with _ => _ end] => destruct (dget _ _ _)
           | |- context [match ?x with Ok _ => _ | Err _ => _ end] => destruct x as [?|[]]
           | |- context [missing c ?b] => unfold missing
           | |- context [deleted c ?b] => unfold deleted, failed, missing
           | |- context [not_there c ?b] => unfold not_there, deleted, failed, missing
           | |- context [stored ?b] => unfold stored
           | |- context [match ?a with Return _ => _ | Quiet => _ end] => destruct a
           | |- context [match ?a with FromUser => _ | Silenced => _ | Failed _ => _ end] => destruct a
           end; try discriminate; intros [= <- <-]; simpl; try exact F; eauto; destruct background; auto.
    Qed.
    Definition tsk (w : world K V) : Prop := dmem eqb (cd_ts (cache w)) k = true.
    Lemma enter_KI w t o s : KI w -> cd_data s = cd_data (cache w) -> cd_ts s = cd_ts (cache w) -> cd_missed s = cd_missed (cache w) ->
      (key_of o = k -> on_k s (begin o)) -> KI (enter w t o s).
    Proof.
      intros [M T P] E1 E2 E3 F. unfold enter. destruct (threads w t) eqn:X; [constructor; auto|]. constructor; cbn [cache threads].
      - now rewrite E3.
      - now rewrite E1, E2.
      - intros u o' p' H. apply put_cases in H as [[-> H]|[_ H]]; [injection H as <- <-; split; [apply begin_for|exact F]|].
        destruct (P _ _ _ H) as [A B]. split; [exact A|]. intros Ek. apply (on_k_mono (s := cache w)); auto. split; congruence.
    Qed.
    Lemma enter_rest w t o s : log (enter w t o s) = log w /\ (cd_ts s = cd_ts (cache w) -> tsk w -> tsk (enter w t o s)).
    Proof. unfold enter, tsk. destruct (threads w t); cbn [log cache]; split; auto; intros ->; auto. Qed.
    Definition fine_entry (w : world K V) (x : nat * op K V * result V) : Prop := forall t r, x = (t, OGet k, r) -> good_read k w r.
    Definition store_entry (x : nat * op K V * result V) : Prop :=
      exists t o r, x = (t, o, r) /\ ((o = OGet k /\ exists v, r = RValue v) \/ (exists v, o = OSet k v /\ r = RDone)).
    Lemma step_KI w e : KI w -> (forall t, e <> Call t (ODel k) /\ e <> Call t (OInvalidate k)) -> never_missing k (step w e) ->
      KI (step w e) /\ (tsk w -> tsk (step w e)) /\
      exists new, log (step w e) = log w ++ new /\ forall x, In x new -> (tsk w -> fine_entry (step w e) x) /\ (store_entry x -> tsk (step w e)).
    Proof.
      intros I R N. destruct e as [t o|t i|t g m now].
      - cbn [step]. assert (W : forall o, o <> ODel k -> o <> OInvalidate k -> KI (enter w t o (cache w)) /\ (tsk w -> tsk (enter w t o (cache w))) /\
          exists new, log (enter w t o (cache w)) = log w ++ new /\ forall x, In x new -> (tsk w -> fine_entry (enter w t o (cache w)) x) /\ (store_entry x -> tsk (enter w t o (cache w)))).
        { intros o' H1 H2. split; [|split].
          - apply enter_KI; auto. destruct o'; simpl; auto; intros ->; congruence.
          - apply enter_rest. reflexivity.
          - exists []. rewrite app_nil_r. split; [apply enter_rest|]. intros x []. }
        destruct (R t) as [R1 R2]. destruct o; try (apply W; congruence). split; [exact I|]. split; [auto|]. exists []. rewrite app_nil_r. split; [reflexivity|intros x []].
      - cbn [step]. destruct (nth_error _ _) as [k'|].
        + split; [apply enter_KI; auto; simpl; auto|]. split; [apply enter_rest; reflexivity|]. exists []. rewrite app_nil_r. split; [apply enter_rest|intros x []].
        + split; [exact I|]. split; [auto|]. exists []. rewrite app_nil_r. split; [reflexivity|intros x []].
      - unfold never_missing in N. cbn [step] in *. destruct (threads w t) as [[o p]|] eqn:X;
          [|split; [exact I|]; split; [auto|]; exists []; rewrite app_nil_r; split; [reflexivity|intros x []]].
        destruct I as [M T P]. destruct (P _ _ _ X) as [PF PO].
        destruct (adv (key_of o) p (cache w) g m now) as [s n] eqn:E. cbn [asked] in N. unfold tsk in *. cbn [cache log].
        destruct (eqb (key_of o) k) eqn:EK.
        + apply ok in EK. pose proof (PO EK) as O. rewrite EK in *.
          assert (G : forall b, p = Waiting b -> g <> Err KeyError).
          { intros b -> ->. apply N. apply in_or_app. right. left. reflexivity. }
          destruct (@adv_self _ _ _ _ _ _ _ M T O G E) as (M' & T' & S & Z). split; [|split].
          * constructor; cbn [cache threads]; auto. intros u o' p' H. apply put_cases in H as [[-> H]|[_ H]].
            -- destruct n as [p1|]; [|discriminate]. injection H as <- <-. split; [|intros _; exact Z]. eapply adv_for; eauto. rewrite EK. exact E.
            -- destruct (P _ _ _ H) as [A B]. split; [exact A|]. intros Ek. apply (on_k_mono (s := cache w)); auto.
          * apply S.
          * destruct n as [p1|r]; [exists []; rewrite app_nil_r; split; [reflexivity|intros x []]|]. exists [(t, o, r)]. split; [reflexivity|].
            intros x [<-|[]]. destruct Z as [Z1 Z2]. split.
            -- intros Tk t0 r0 [= <- -> <-]. unfold good_read. cbn [asked]. destruct (Z1 Tk) as [Z|[Z|(e & b & -> & Z & -> & ->)]]; auto.
               ++ exfalso. subst r. clear - PF E. destruct p; simpl in E; repeat (match type of E with
                    | context [if ?b then _ else _] => destruct b
                    | context [match ?x with Some _ => _ | None => _ end] => destruct x
                    | context [match ?x with Ok _ => _ | Err _ => _ end] => destruct x as [?|[]]
                    | context [missing c ?b] => unfold missing in E
                    | context [deleted c ?b] => unfold deleted, failed, missing in E
                    | context [not_there c ?b] => unfold not_there, deleted, failed, missing in E
                    | context [stored ?b] => unfold stored in E
                    | context [match ?a with Return _ => _ | Quiet => _ end] => destruct a
                    | context [match ?a with FromUser => _ | Silenced => _ | Failed _ => _ end] => destruct a
                    end); try discriminate; simpl in PF; try (destruct PF as [(? & ? & F)|(? & F)]; discriminate); destruct PF as (? & F); discriminate.
               ++ right. exists e. split; [reflexivity|]. split; [exact Z|]. apply in_or_app. right. left. reflexivity.
            -- intros (t0 & o0 & r0 & [= <- <- <-] & H). destruct Z2 as [Z2|[(e & ->)|[-> ->]]]; [exact Z2| |].
               ++ destruct H as [(_ & v & H)|(v & _ & H)]; discriminate.
               ++ destruct H as [(_ & v & H)|(v & -> & _)]; [discriminate|]. simpl in PF. destruct PF as (? & F). discriminate.
        + assert (NK : key_of o <> k) by (intros <-; assert (eqb (key_of o) (key_of o) = true) by (now apply ok); congruence).
          destruct (@adv_other _ _ _ _ _ _ _ _ NK E) as (D' & T' & M'). split; [|split].
          * constructor; cbn [cache threads]; auto; [rewrite D', T'; auto|]. intros u o' p' H. apply put_cases in H as [[-> H]|[_ H]].
            -- destruct n as [p1|]; [|discriminate]. injection H as <- <-. split; [eapply adv_for; eauto|contradiction].
            -- destruct (P _ _ _ H) as [A B]. split; [exact A|]. intros Ek. apply (on_k_mono (s := cache w)); auto. split; congruence.
          * rewrite T'. auto.
          * destruct n as [p1|r]; [exists []; rewrite app_nil_r; split; [reflexivity|intros x []]|]. exists [(t, o, r)]. split; [reflexivity|].
            intros x [<-|[]]. split; [intros _ t0 r0 [= <- -> <-]; contradiction|]. intros (t0 & o0 & r0 & [= <- <- <-] & H).
            destruct H as [(-> & _)|(v & -> & _)]; contradiction.
    Qed.
    Lemma good_read_mono (w w' : world K V) r : (forall x, In x (asked w) -> In x (asked w')) -> good_read k w r -> good_read k w' r.
    Proof. intros H [G|(e & -> & N & I)]; [left; exact G|right; exists e; auto]. Qed.
    Lemma asked_app w l x : In x (asked w) -> In x (asked (exec w l)).
    Proof. revert w. induction l as [|e l IH]; intros w H; [exact H|]. apply (IH (step w e)). now apply asked_mono. Qed.
    Lemma exec_KI w l : KI w -> never_removed k l -> never_missing k (exec w l) ->
      KI (exec w l) /\ (tsk w -> tsk (exec w l)) /\
      exists new, log (exec w l) = log w ++ new /\ forall x, In x new -> (tsk w -> fine_entry (exec w l) x) /\ (store_entry x -> tsk (exec w l)).
    Proof.
      revert w. induction l as [|e l IH]; intros w I R N.
      - split; [exact I|]. split; [auto|]. exists []. rewrite app_nil_r. split; [reflexivity|intros x []].
      - change (exec w (e :: l)) with (exec (step w e) l) in *.
        destruct (@step_KI w e I) as (I1 & T1 & new1 & L1 & F1).
        { intros t. destruct (R t) as [R1 R2]. split; intros ->; [apply R1|apply R2]; left; reflexivity. }
        { intros H. apply N. now apply asked_app. }
        destruct (IH (step w e) I1) as (I2 & T2 & new2 & L2 & F2); auto.
        { intros t. destruct (R t) as [R1 R2]. split; intros H; [apply R1|apply R2]; right; exact H. }
        split; [exact I2|]. split; [auto|]. exists (new1 ++ new2). rewrite L2, L1, app_assoc. split; [reflexivity|].
        intros x H. apply in_app_or in H as [H|H].
        + destruct (F1 x H) as [A B]. split; [|auto]. intros Tk t r E. apply (@good_read_mono (step w e)); [intros y; apply asked_app|]. apply (A Tk t r E).
        + destruct (F2 x H) as [A B]. split; auto.
    Qed.
    Lemma init_KI : KI (start (@cd_init K V)).
    Proof. constructor; simpl; auto. discriminate. Qed.
  End Kept.
  Lemma reads_fine k l1 l2 : never_removed k (l1 ++ l2) -> never_missing k (exec (start (@cd_init K V)) (l1 ++ l2)) -> stored_once k (exec (start (@cd_init K V)) l1) ->
    exists new, log (exec (start (@cd_init K V)) (l1 ++ l2)) = log (exec (start (@cd_init K V)) l1) ++ new /\
      forall t r, In (t, OGet k, r) new -> good_read k (exec (start (@cd_init K V)) (l1 ++ l2)) r.
  Proof.
    intros R N (t & o & r & H & S). unfold CacheThr_Model.exec in N |- *. rewrite fold_left_app in *. fold (exec (start (@cd_init K V)) l1) in *. set (w1 := exec (start _) l1) in *.
    fold (exec w1 l2) in *.
    destruct (@exec_KI k (start (@cd_init K V)) l1 (init_KI k)) as (I1 & _ & new1 & L1 & F1).
    { intros u. destruct (R u) as [R1 R2]. split; intros X; [apply R1|apply R2]; apply in_or_app; auto. }
    { intros X. apply N. apply asked_app. exact X. }
    fold w1 in I1, L1, F1. simpl in L1. rewrite L1 in H. destruct (F1 _ H) as [_ F]. assert (T : tsk k w1) by (apply F; exists t, o, r; auto).
    destruct (@exec_KI k w1 l2 I1) as (_ & _ & new2 & L2 & F2); auto.
    { intros u. destruct (R u) as [R1 R2]. split; intros X; [apply R1|apply R2]; apply in_or_app; auto. }
    exists new2. split; [exact L2|]. intros u r' X. destruct (F2 _ X) as [A _]. apply (A T u r' eq_refl).
  Qed.

  (** ** reads end with a value or an exception *)
  Section Answers.
    Hypothesis no_fail : c_fail c = None.
    Definition quiet_pc (p : pc V) : Prop := match p with Empty _ _ | Miss1 _ | Miss2 _ => False | _ => True end.
    Definition an_answer (o : op K V) (r : result V) : Prop := forall k, o = OGet k -> (exists v, r = RValue v) \/ (exists e, r = RRaise e).
    Record AI (w : world K V) : Prop := {
      a_missed : cd_missed (cache w) = [];
      a_pc : forall t o p, threads w t = Some (o, p) -> pc_for o p /\ quiet_pc p;
      a_log : forall t o r, In (t, o, r) (log w) -> an_answer o r }.
    Lemma adv_answers o p s g m now s' n : cd_missed s = [] -> pc_for o p -> quiet_pc p -> adv (key_of o) p s g m now = (s', n) ->
      cd_missed s' = [] /\ match n with Go p' => quiet_pc p' | End r => an_answer o r end.
    Proof.
      intros M F Q. unfold an_answer. destruct p; simpl in Q; try contradiction; simpl; unfold not_there, deleted, failed, missing, stored; rewrite ?M; simpl.
      all: repeat match goal with
           | |- context [if ?b then _ else _] => destruct b
           | |- context [match c_fail c with _ => _ end] => rewrite no_fail
           | |- context [match c_default c with _ => _ end] => destruct (c_default c)
           | |- context [match dget _ _ _ with _ => _ end] => destruct (dget _ _ _)
           | |- context [match ?x with Ok _ => _ | Err _ => _ end] => destruct x as [?|[]]
           | |- context [match ?a with Return _ => _ | Quiet => _ end] => destruct a
           | |- context [match ?a with FromUser => _ | Silenced => _ | Failed _ => _ end] => destruct a
           end; intros [= <- <-]; simpl; (split; [exact M||reflexivity|]); auto; try (intros k' ->; eauto);
           simpl in F; repeat match goal with H : _ \/ _ |- _ => destruct H | H : exists _, _ |- _ => destruct H end; discriminate.
    Qed.
    Lemma step_AI w e : AI w -> AI (step w e).
    Proof.
      intros [M P L].
      assert (W : forall t o s, cd_missed s = [] -> AI (enter w t o s)).
      { intros t o s E. unfold enter. destruct (threads w t); [constructor; auto|]. constructor; cbn [cache threads log]; auto.
        intros u o' p' H. apply put_cases in H as [[-> H]|[_ H]]; [injection H as <- <-; split; [apply begin_for|destruct o; exact I]|eauto]. }
      destruct e as [t o|t i|t g m now]; cbn [step].
      - destruct o; try (apply W; exact M). now constructor.
      - destruct (nth_error _ _); [apply W; exact M|now constructor].
      - destruct (threads w t) as [[o p]|] eqn:T; [|now constructor]. destruct (P _ _ _ T) as [F Q].
        destruct (adv (key_of o) p (cache w) g m now) as [s n] eqn:E. destruct (@adv_answers _ _ _ _ _ _ _ _ M F Q E) as [M' R].
        constructor; cbn [cache threads log]; auto.
        + intros u o' p' H. apply put_cases in H as [[-> H]|[_ H]]; [|eauto]. destruct n; [|discriminate]. injection H as <- <-. split; [eapply adv_for; eauto|exact R].
        + destruct n; [exact L|]. intros u o' r' H. apply in_app_or in H as [H|[[= <- <- <-]|[]]]; eauto.
    Qed.
    Lemma exec_AI w l : AI w -> AI (exec w l).
    Proof. revert w. induction l as [|e l IH]; intros w H; [exact H|]. apply (IH (step w e)). now apply step_AI. Qed.
    Lemma get_answers l t k r : In (t, OGet k, r) (log (exec (start (@cd_init K V)) l)) -> (exists v, r = RValue v) \/ (exists e, r = RRaise e).
    Proof.
      assert (A : AI (start (@cd_init K V))) by (constructor; simpl; [reflexivity|discriminate|tauto]).
      intros H. destruct (exec_AI l A) as [_ _ L]. exact (L _ _ _ H k eq_refl).
    Qed.
  End Answers.

  (** ** a call that is alone *)
  Inductive alone (k : K) (g : res V) (m now : Z) : pc V -> cst K V -> cst K V -> result V -> Prop :=
  | a_end p s s' r : adv k p s g m now = (s', End r) -> alone k g m now p s s' r
  | a_go p s s1 p1 s' r : adv k p s g m now = (s1, Go p1) -> alone k g m now p1 s1 s' r -> alone k g m now p s s' r.
  Lemma alone_runs k g m now p s s' r : alone k g m now p s s' r -> forall w t o, cache w = s -> threads w t = Some (o, p) -> key_of o = k ->
    exists n, let w' := exec w (repeat (Turn t g m now) n) in cache w' = s' /\ log w' = log w ++ [(t, o, r)] /\ forall u, threads w' u = if Nat.eqb u t then None else threads w u.
  Proof.
    induction 1 as [p s s' r E|p s s1 p1 s' r E A IH]; intros w t o <- T <-.
    - exists 1. simpl. rewrite T, E. cbn [cache log threads]. split; [reflexivity|]. split; reflexivity.
    - set (w1 := step w (Turn t g m now)). destruct (IH w1 t o) as (n & C & L & U).
      + unfold w1. cbn [step]. rewrite T, E. reflexivity.
      + unfold w1. cbn [step]. rewrite T, E. cbn [threads]. apply put_eq.
      + reflexivity.
      + exists (S n). cbn [repeat]. change (exec w (Turn t g m now :: repeat (Turn t g m now) n)) with (exec w1 (repeat (Turn t g m now) n)). cbv zeta.
        rewrite C, L. split; [reflexivity|]. split.
        * unfold w1. cbn [step]. rewrite T, E. reflexivity.
        * intros u. rewrite U. unfold w1. cbn [step]. rewrite T, E. cbn [threads]. unfold put. destruct (Nat.eqb u t); reflexivity.
  Qed.
  Fixpoint solo (n : nat) (k : K) (g : res V) (m now : Z) (p : pc V) (s : cst K V) : option (cst K V * result V) :=
    match adv k p s g m now with
    | (s', End r) => Some (s', r)
    | (s', Go p') => match n with O => None | S n' => solo n' k g m now p' s' end
    end.
  Lemma solo_alone n k g m now p s s' r : solo n k g m now p s = Some (s', r) -> alone k g m now p s s' r.
  Proof.
    revert p s. induction n as [|n IH]; intros p s; cbn [solo]; destruct (adv k p s g m now) as [s1 [p1|r1]] eqn:E; try discriminate.
    - intros [= <- <-]. now apply a_end.
    - intros H. eapply a_go; [exact E|]. now apply IH.
    - intros [= <- <-]. now apply a_end.
  Qed.
  Lemma solo_gives n w t o g m now s r : threads w t = None -> (forall k, o <> ORefresh k) -> solo n (key_of o) g m now (begin o) (cache w) = Some (s, r) ->
    alone_gives eqb c w t (Call t o) g m now s o r.
  Proof.
    intros T NR H. apply solo_alone in H.
    assert (E : step w (Call t o) = {| cache := cache w; threads := put (threads w) t (Some (o, begin o)); asked := asked w; log := log w |}).
    { destruct o; cbn [step]; unfold enter; rewrite ?T; try reflexivity. exfalso. now apply (NR k). }
    destruct (@alone_runs _ _ _ _ _ _ _ _ H (step w (Call t o)) t o) as (i & C & L & U); [now rewrite E|rewrite E; apply put_eq|reflexivity|].
    exists i. change (exec w (Call t o :: repeat (Turn t g m now) i)) with (exec (step w (Call t o)) (repeat (Turn t g m now) i)). cbv zeta.
    split; [exact C|]. rewrite L. split; [now rewrite E|]. intros u. etransitivity; [apply U|]. rewrite E. cbn [threads]. unfold put. destruct (Nat.eqb_spec u t); congruence.
  Qed.
  Ltac solo_tac := cbn -[dget dset ddel dmem memb remove_first Z.ltb]; repeat (match goal with
    | |- context [if ?b then _ else _] => destruct b eqn:?
    | |- context [match ?x with Some _ => _ | None => _ end] => destruct x eqn:?
    end; cbn -[dget dset ddel dmem memb remove_first Z.ltb]); try reflexivity; try congruence.
  Hypothesis unlimited : c_max c = None.
  Lemma fail_solo k m now b s : solo 4 k (Err KeyError) m now (Del1 (Failed b)) s =
    Some (cd_on_failure eqb c s k now, if b then RDone else seen (miss_result c)).
  Proof.
    unfold cd_on_failure, cd_invalidate, base_invalidate, cd_delitem, miss_result, base_delitem. rewrite unlimited.
    cbn -[dget dset ddel dmem memb remove_first Z.ltb].
    destruct s as [D T M L P]. cbn [cd_data cd_ts cd_missed].
    destruct (dmem eqb D k) eqn:E1; cbn -[dget dset ddel dmem memb remove_first Z.ltb]; [destruct (dmem eqb T k) eqn:E2|];
    cbn -[dget dset ddel dmem memb remove_first Z.ltb]; unfold failed, missing; destruct (c_fail c); cbn -[dget dset ddel dmem memb remove_first Z.ltb];
    unfold missing; destruct b; cbn -[dget dset ddel dmem memb remove_first Z.ltb]; try reflexivity; destruct (c_default c); reflexivity.
  Qed.
  Lemma solo_more n k g m now p s x : solo n k g m now p s = Some x -> solo (S n) k g m now p s = Some x.
  Proof.
    revert p s. induction n as [|n IH]; intros p s; cbn [solo]; destruct (adv k p s g m now) as [s1 [p1|r1]]; try discriminate; auto.
    intros H. apply IH in H. exact H.
  Qed.
  Lemma wait_solo k g m now b s : solo 5 k g m now (Waiting b) s =
    Some (let (s', r) := cd_get_value_block eqb c s k g now in (s', if b then RDone else seen r)).
  Proof.
    unfold cd_get_value_block, cd_setitem. rewrite unlimited. cbn [solo advance]. destruct g as [v|e].
    - cbn -[dset remove_first]. destruct b; reflexivity.
    - assert (G : e = KeyError \/ e <> KeyError) by (destruct e; auto; right; discriminate). destruct G as [->|G].
      + pose proof (fail_solo k m now b s) as H. apply (f_equal (fun x => x)) in H. cbn [solo] in H |- *. rewrite H. unfold miss_result.
        destruct (c_default c); reflexivity.
      + destruct e; try contradiction; destruct b; reflexivity.
  Qed.
  Lemma get_solo k g m z now s : let x := cd_getitem eqb c s k {| r_mono := m; r_now := z; r_getter := g; r_done := now |} in
    exists n, solo n k g m now InData s = Some (fst x, seen (g_res (snd x))).
  Proof.
    unfold cd_getitem. rewrite unlimited. cbn [r_mono r_now r_getter r_done]. cbv zeta.
    assert (W : solo 5 k g m now (Waiting false) s = Some (fst (called (cd_get_value_block eqb c s k g now)), seen (g_res (snd (called (cd_get_value_block eqb c s k g now)))))).
    { rewrite wait_solo. destruct (cd_get_value_block eqb c s k g now). reflexivity. }
    set (cv := called (cd_get_value_block eqb c s k g now)) in *. clearbody cv.
    assert (U : forall j p, solo (S j) k g m now p s = match adv k p s g m now with (s', End r) => Some (s', r) | (s', Go p') => solo j k g m now p' s' end) by reflexivity.
    destruct (dmem eqb (cd_data s) k) eqn:D; [|destruct (memb eqb k (cd_missed s)) eqn:M]; cbn [negb andb].
    - destruct (dget eqb (cd_ts s) k) as [ts|] eqn:T.
      + destruct (memb eqb k (cd_missed s)) eqn:M.
        * destruct (c_fail c) as [f|] eqn:F; [destruct (Z.ltb f (m - ts)) eqn:Z|].
          -- exists 10. rewrite U. cbn [advance]. rewrite D, U. cbn [advance]. rewrite T, U. cbn [advance]. rewrite U. cbn [advance]. rewrite M, U. cbn [advance]. rewrite M, F, Z. exact W.
          -- exists 5. rewrite U. cbn [advance]. rewrite D, U. cbn [advance]. rewrite T, U. cbn [advance]. rewrite U. cbn [advance]. rewrite M, U. cbn [advance]. rewrite M, F, Z.
             unfold missing, miss_result. destruct (c_default c); reflexivity.
          -- exists 5. rewrite U. cbn [advance]. rewrite D, U. cbn [advance]. rewrite T, U. cbn [advance]. rewrite U. cbn [advance]. rewrite M, U. cbn [advance]. rewrite M, F. reflexivity.
        * destruct (Z.ltb (c_exp c) (m - ts)) eqn:Z1; [|destruct (Z.ltb (c_stale c) (m - ts)) eqn:Z2].
          -- exists 9. rewrite U. cbn [advance]. rewrite D, U. cbn [advance]. rewrite T, U. cbn [advance]. rewrite U. cbn [advance]. rewrite M, Z1. exact W.
          -- exists 5. rewrite U. cbn [advance]. rewrite D, U. cbn [advance]. rewrite T, U. cbn [advance]. rewrite U. cbn [advance]. rewrite M, Z1, Z2. cbn. destruct (dget eqb (cd_data s) k); reflexivity.
          -- exists 5. rewrite U. cbn [advance]. rewrite D, U. cbn [advance]. rewrite T, U. cbn [advance]. rewrite U. cbn [advance]. rewrite M, Z1, Z2. cbn. destruct (dget eqb (cd_data s) k); reflexivity.
      + exists 2. rewrite U. cbn [advance]. rewrite D, U. cbn [advance]. rewrite T. reflexivity.
    - destruct (dget eqb (cd_ts s) k) as [ts|] eqn:T.
      + destruct (c_fail c) as [f|] eqn:F; [destruct (Z.ltb f (m - ts)) eqn:Z|].
          -- exists 11. rewrite U. cbn [advance]. rewrite D, U. cbn [advance]. rewrite M, U. cbn [advance]. rewrite T, U. cbn [advance]. rewrite U. cbn [advance]. rewrite M, U. cbn [advance]. rewrite M, F, Z. exact W.
          -- exists 6. rewrite U. cbn [advance]. rewrite D, U. cbn [advance]. rewrite M, U. cbn [advance]. rewrite T, U. cbn [advance]. rewrite U. cbn [advance]. rewrite M, U. cbn [advance]. rewrite M, F, Z.
             unfold missing, miss_result. destruct (c_default c); reflexivity.
          -- exists 6. rewrite U. cbn [advance]. rewrite D, U. cbn [advance]. rewrite M, U. cbn [advance]. rewrite T, U. cbn [advance]. rewrite U. cbn [advance]. rewrite M, U. cbn [advance]. rewrite M, F. reflexivity.
      + exists 3. rewrite U. cbn [advance]. rewrite D, U. cbn [advance]. rewrite M, U. cbn [advance]. rewrite T. reflexivity.
    - exists 7. rewrite U. cbn [advance]. rewrite D, U. cbn [advance]. rewrite M. exact W.
  Qed.
  Lemma set_solo k v g m now s : solo 2 k g m now (Store1 v Quiet) s = Some (fst (cd_setitem eqb c s k v now), RDone).
  Proof. unfold cd_setitem. rewrite unlimited. reflexivity. Qed.
  Lemma del_solo k g m now s : solo 2 k g m now (Del1 FromUser) s =
    Some (fst (cd_delitem eqb c s k), match snd (cd_delitem eqb c s k) with None => RDone | Some e => RRaise e end).
  Proof.
    unfold cd_delitem, base_delitem. rewrite unlimited. cbn -[ddel dmem remove_first]. destruct s as [D T M L P]. cbn [cd_data cd_ts cd_missed].
    destruct (dmem eqb D k); [|reflexivity]. cbn -[ddel dmem remove_first]. destruct (dmem eqb T k); reflexivity.
  Qed.
  Lemma inv_solo k g m now s : solo 2 k g m now (Del1 Silenced) s = Some (cd_invalidate eqb c s k, RDone).
  Proof.
    unfold cd_invalidate, base_invalidate, cd_delitem, base_delitem. rewrite unlimited. cbn -[ddel dmem remove_first]. destruct s as [D T M L P]. cbn [cd_data cd_ts cd_missed].
    destruct (dmem eqb D k); [|reflexivity]. cbn -[ddel dmem remove_first]. destruct (dmem eqb T k); reflexivity.
  Qed.
  Lemma work_gives w t i k g m now : threads w t = None -> nth_error (cd_pending (cache w)) i = Some k ->
    alone_gives eqb c w t (Work t i) g m now (fst (cd_complete eqb c (cache w) i g now)) (ORefresh k) RDone.
  Proof.
    intros T N. set (s1 := set_pending (cache w) (del_nth i (cd_pending (cache w)))).
    assert (E : step w (Work t i) = {| cache := s1; threads := put (threads w) t (Some (ORefresh k, Waiting true)); asked := asked w; log := log w |}).
    { cbn [step]. rewrite N. unfold enter. rewrite T. reflexivity. }
    assert (H : solo 5 k g m now (Waiting true) s1 = Some (fst (cd_complete eqb c (cache w) i g now), RDone)).
    { rewrite wait_solo. unfold cd_complete, cd_get_value_block. rewrite N. fold s1. unfold set_pending in s1. fold s1. unfold cd_setitem. rewrite unlimited.
      destruct g as [v|e]; [reflexivity|]. destruct e; try reflexivity. unfold miss_result. destruct (c_default c); reflexivity. }
    apply solo_alone in H.
    destruct (@alone_runs _ _ _ _ _ _ _ _ H (step w (Work t i)) t (ORefresh k)) as (j & C & L & U); [now rewrite E|rewrite E; apply put_eq|reflexivity|].
    exists j. change (exec w (Work t i :: repeat (Turn t g m now) j)) with (exec (step w (Work t i)) (repeat (Turn t g m now) j)). cbv zeta.
    split; [exact C|]. rewrite L. split; [now rewrite E|]. intros u. etransitivity; [apply U|]. rewrite E. cbn [threads]. unfold put. destruct (Nat.eqb_spec u t); congruence.
  Qed.
End P.
