From Verif Require Import Prelude Procs_Model Procs_Spec.
From Coq Require Import Lia.
Set Implicit Arguments.

Section P.
  Variables byte char : Type.
  Variable capacity : nat.
  Variable has_timeout : bool.
  Variable encoding : option (list byte -> res (list char)).
  Variable expected : option Z.
  Notation state := (state byte char).
  Notation step := (step capacity has_timeout encoding expected).
  Notation run := (run capacity has_timeout encoding expected).
  Notation finish := (finish encoding expected).

  Lemma read_size_pos : exists k, read_size = S k. Proof. exists 2047. reflexivity. Qed.
  Lemma read_nil (l : list byte) : firstn read_size l = [] -> l = [].
  Proof. destruct read_size_pos as [k ->]. destruct l; auto. discriminate. Qed.
  Opaque read_size.

  Section Safe.
    Variable output : list byte.
    Variable c : Z.
    Record inv (s : state) : Prop := {
      i_none : code s = None -> chunks s = [] /\ reading s = true /\ calling s = Waits /\ pipe s ++ out s = output /\ length (pipe s) <= capacity;
      i_some : forall x, code s = Some x -> calling s <> Joins true -> (forall o, calling s <> Done o) -> concat (chunks s) ++ pipe s = output /\ out s = [] /\ x = c;
      i_read : reading s = false -> pipe s = [];
      i_timeout : calling s = Joins true -> has_timeout = true;
      i_done : forall o, calling s = Done o -> (has_timeout = true /\ o = Raised TimeoutExn) \/ (exists rows, concat rows = output /\ o = finish rows c)
    }.
    Lemma inv_started : inv (started char output).
    Proof. constructor; simpl; try discriminate. intros _. repeat split; simpl; auto; lia. Qed.
    Lemma inv_step s m : (forall c', m = Exit c' -> c' = c) -> inv s -> inv (step s m).
    Proof.
      intros Hm [I1 I2 I3 I4 I5]. destruct s as [ou pi co ch rd ca]; simpl in *. destruct m as [n|c'| | |]; simpl.
      - destruct co as [x|]; [constructor; simpl; auto|]. destruct (I1 eq_refl) as (-> & -> & -> & E & L).
        constructor; simpl; try discriminate. intros _. repeat split; auto.
        + rewrite <- app_assoc, firstn_skipn. exact E.
        + rewrite app_length, firstn_length. lia.
      - destruct co as [x|]; [constructor; simpl; auto|]. destruct (I1 eq_refl) as (-> & -> & -> & E & L).
        destruct ou as [|b ou]; [|constructor; simpl; auto].
        constructor; simpl; try discriminate. intros x [= <-] _ _. rewrite app_nil_r in E. repeat split; auto.
      - destruct rd; [|constructor; simpl; auto]. destruct co as [x|]; [|constructor; simpl; auto].
        destruct (firstn read_size pi) as [|b l] eqn:Ef.
        + apply read_nil in Ef. subst pi. constructor; simpl; auto. discriminate.
        + constructor; simpl; auto; try discriminate. intros x' [= <-] H1 H2. destruct (I2 x eq_refl H1 H2) as (E & Eo & Ex).
          split; [|auto]. rewrite concat_app. simpl. rewrite app_nil_r, <- Ef, <- app_assoc, firstn_skipn. exact E.
      - destruct ca as [|t|o]; simpl.
        + destruct co as [x|]; constructor; simpl; auto; try discriminate. intros x' [= <-] _ _. apply I2; auto; discriminate.
        + destruct rd; [constructor; simpl; auto|].
          constructor; simpl; auto; try discriminate.
          * intros E. destruct (I1 E) as (_ & E' & _). discriminate.
          * intros x _ _ H. exfalso. eapply H. reflexivity.
          * intros o [= <-]. destruct t; [left; auto|]. destruct co as [x|].
            -- right. destruct (I2 x eq_refl) as (E & _ & ->); try discriminate. exists ch.
               rewrite (I3 eq_refl), app_nil_r in E. auto.
            -- destruct (I1 eq_refl) as (_ & E & _). discriminate.
        + constructor; simpl; auto.
      - destruct ca as [|t|o]; [|constructor; simpl; auto|constructor; simpl; auto]. destruct co as [x|]; [constructor; simpl; auto|].
        destruct (Bool.bool_dec has_timeout true) as [Et|Et]; [rewrite Et|apply Bool.not_true_is_false in Et; rewrite Et; constructor; simpl; auto].
        destruct (I1 eq_refl) as (-> & -> & _ & E & L).
        all: constructor; simpl; try discriminate; auto. all: intros; try congruence.
    Qed.
    Lemma inv_run ms : forall s, exits_with c ms -> inv s -> inv (run s ms).
    Proof.
      induction ms as [|m t IH]; simpl; intros s H I; auto. apply IH.
      - intros c' Hc. apply H. right. exact Hc.
      - apply inv_step; auto. intros c' ->. apply H. left. reflexivity.
    Qed.
  End Safe.

  Lemma decoded_splits (dec : list byte -> res (list char)) rows : splits dec -> decoded dec rows = dec (concat rows).
  Proof.
    intros [H0 H]. induction rows as [|r t IH]; simpl; [rewrite H0; reflexivity|]. rewrite H, IH. reflexivity.
  Qed.
  Lemma finish_expected rows c : (forall dec, encoding = Some dec -> splits dec) ->
    finish rows c = expected_outcome encoding expected (concat rows) c.
  Proof.
    intros H. unfold Procs_Model.finish, expected_outcome, whole. destruct encoding as [dec|]; [|destruct expected; reflexivity].
    rewrite (@decoded_splits dec rows) by auto. destruct (dec (concat rows)); [destruct expected|]; reflexivity.
  Qed.

  (** ** a process that prints too much *)
  Record jam (output : list byte) (s : state) : Prop := {
    j_wait : calling s = Waits -> code s = None /\ reading s = true /\ pipe s ++ out s = output /\ length (pipe s) <= capacity;
    j_join : forall t, calling s = Joins t -> t = true;
    j_done : forall o, calling s = Done o -> o = Raised TimeoutExn;
    j_not : has_timeout = false -> calling s = Waits
  }.
  Lemma jam_step output s m : capacity < length output -> jam output s -> jam output (step s m).
  Proof.
    intros Hl [J1 J2 J3 J4]. destruct s as [ou pi co ch rd ca]; simpl in *. destruct m as [n|c'| | |]; simpl.
    - destruct co as [x|]; [constructor; simpl; auto|]. constructor; simpl; auto. intros ->. destruct (J1 eq_refl) as (_ & -> & E & L).
      repeat split; auto; [rewrite <- app_assoc, firstn_skipn; exact E|rewrite app_length, firstn_length; lia].
    - destruct co as [x|]; [constructor; simpl; auto|]. destruct ou as [|b ou]; [|constructor; simpl; auto].
      constructor; simpl; auto. intros ->. exfalso. destruct (J1 eq_refl) as (_ & _ & E & L). rewrite app_nil_r in E. subst. lia.
    - destruct rd; [|constructor; simpl; auto]. destruct co as [x|]; [|constructor; simpl; auto].
      destruct (firstn read_size pi); constructor; simpl; auto; intros ->; destruct (J1 eq_refl) as (E & _); discriminate.
    - destruct ca as [|t|o].
      + destruct (J1 eq_refl) as (-> & _). constructor; simpl; auto.
      + destruct rd; [constructor; simpl; auto|]. rewrite (J2 t eq_refl). constructor; simpl; try discriminate; [congruence|].
        intros E. specialize (J4 E). discriminate.
      + constructor; simpl; auto.
    - destruct ca as [|t|o]; [|constructor; simpl; auto|constructor; simpl; auto]. destruct co as [x|]; [constructor; simpl; auto|].
      destruct (Bool.bool_dec has_timeout true) as [Et|Et]; [rewrite Et|apply Bool.not_true_is_false in Et; rewrite Et; constructor; simpl; auto].
      constructor; simpl; try discriminate; auto; intros; congruence.
  Qed.
  Lemma jam_run output ms : forall s, capacity < length output -> jam output s -> jam output (run s ms).
  Proof. induction ms as [|m t IH]; simpl; intros s H J; auto. apply IH; auto. apply jam_step; auto. Qed.
  Lemma jam_started output : jam output (started char output).
  Proof. constructor; simpl; try discriminate; auto. intros _. repeat split; simpl; auto; lia. Qed.

  (** ** progress *)
  Definition left_ (s : state) : nat :=
    2 * length (out s) + length (pipe s) + (match code s with None => 1 | _ => 0 end) + (if reading s then 1 else 0)
    + match calling s with Waits => 2 | Joins _ => 1 | Done _ => 0 end.
  Lemma less s m : step s m <> s -> left_ (step s m) < left_ s.
  Proof.
    destruct s as [ou pi co ch rd ca]; destruct m as [n|c'| | |]; simpl; unfold left_; simpl.
    - destruct co; [congruence|]. simpl. intros H. rewrite app_length, firstn_length, skipn_length.
      set (k := Nat.min n (capacity - length pi)) in *.
      assert (0 < Nat.min k (length ou)); [|lia].
      destruct (Nat.eq_dec (Nat.min k (length ou)) 0) as [E|]; [|lia]. exfalso. apply H.
      assert (E' : k = 0 \/ ou = []) by (destruct ou; [right; reflexivity|left; simpl in E; lia]).
      destruct E' as [->| ->]; [simpl; rewrite app_nil_r; reflexivity|]. rewrite firstn_nil, skipn_nil, app_nil_r. reflexivity.
    - destruct co; [congruence|]. destruct ou; [simpl; lia|congruence].
    - destruct rd; [|congruence]. destruct co; [|congruence]. destruct (firstn read_size pi) as [|b l] eqn:E; simpl; [lia|].
      intros _. destruct pi as [|b' pi]; [rewrite firstn_nil in E; discriminate|]. rewrite skipn_length. destruct read_size_pos as [k ->]. simpl. lia.
    - destruct ca as [|t|o]; [destruct co; [simpl; lia|congruence]|destruct rd; [congruence|simpl; lia]|congruence].
    - destruct ca as [|t|o]; [|congruence|congruence]. destruct co; [congruence|]. destruct has_timeout; [simpl; lia|congruence].
  Qed.
  Lemma can_go output c s : 0 < capacity -> length output <= capacity -> inv output c s -> (forall o, calling s <> Done o) ->
    exists m, (m = Write (length (out s)) \/ m = Exit c \/ m = Read \/ m = Call) /\ step s m <> s.
  Proof.
    intros Hc Hl [I1 I2 I3 I4 I5] Hd. destruct s as [ou pi co ch rd ca]; simpl in *. destruct co as [x|].
    - destruct rd.
      + exists Read. split; [auto|]. simpl. destruct (firstn read_size pi) as [|b l] eqn:E; [intros H; discriminate H|].
        intros H. injection H as _ H. revert H. clear. intros H. assert (L : length (ch ++ [b :: l]) = length ch) by congruence.
        rewrite app_length in L. simpl in L. lia.
      + exists Call. split; [auto|]. simpl. destruct ca as [|t|o]; [discriminate|discriminate|]. exfalso. eapply Hd. reflexivity.
    - destruct (I1 eq_refl) as (-> & -> & -> & E & L). destruct ou as [|b ou].
      + exists (Exit c). split; [auto|]. simpl. discriminate.
      + exists (Write (length (b :: ou))). split; [auto|]. simpl. intros H. injection H as H _.
        assert (LE : length pi + S (length ou) <= capacity) by (rewrite <- E, app_length in Hl; simpl in Hl; lia).
        destruct (capacity - length pi) as [|k] eqn:Ek; [lia|]. simpl in H.
        assert (X : length (skipn (Nat.min (length ou) k) ou) = length (b :: ou)) by congruence.
        rewrite skipn_length in X. simpl in X. lia.
  Qed.
End P.
