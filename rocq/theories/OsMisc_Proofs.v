From Coq Require Import String Ascii Lia.
From Verif Require Import Prelude OsMisc_Model OsMisc_Spec.
Set Implicit Arguments.
Local Open Scope string_scope.
Open Scope list_scope.

Lemma split_ne s : split_colon s <> [].
Proof. destruct s as [|c r]; simpl; [discriminate|]. destruct (Ascii.eqb c ":"); [discriminate|]. destruct (split_colon r); discriminate. Qed.
Lemma split_joined s : joined (split_colon s) = s /\ Forall (fun p => has_colon p = false) (split_colon s).
Proof.
  induction s as [|c r [IH1 IH2]]; simpl; [repeat constructor|]. destruct (Ascii.eqb c ":") eqn:E.
  - apply Ascii.eqb_eq in E. subst c. split; [|constructor; auto].
    destruct (split_colon r) as [|p t] eqn:Es; [exfalso; exact (split_ne _ Es)|]. change (joined ("" :: p :: t)) with (String ":" (joined (p :: t))).
    rewrite IH1. reflexivity.
  - destruct (split_colon r) as [|p t] eqn:Es; [exfalso; exact (split_ne _ Es)|]. split.
    + rewrite <- IH1. destruct t; reflexivity.
    + inversion IH2; subst. constructor; auto. simpl. rewrite E. assumption.
Qed.

Lemma shown m : ordinary m -> existsb (Ascii.eqb "x") (filemode m) = executable m.
Proof.
  intros (E1 & E2 & E3 & E4). destruct m as [d u g o su sg st]; simpl in *; subst. unfold executable. simpl.
  destruct u, g, o; reflexivity.
Qed.
Opaque filemode.
Section W.
  Variable listdir : string -> answer (list string).
  Variable stat : string -> answer mode.
  Lemma look_ok d name : forall files, NoDup files ->
    (forall f, In f files -> match stat (path_join d f) with Is m => f = name -> ordinary m | Fails e => e = Missing end) ->
    look stat d name files None =
      (if existsb (String.eqb name) files
       then match stat (path_join d name) with Is m => if executable m then [path_join d name] else [] | _ => [] end else [], None).
  Proof.
    induction files as [|f r IH]; simpl; intros N H; [reflexivity|]. inversion N as [|? ? Nf Nr]; subst.
    rewrite IH; [|exact Nr|intros g Hg; apply H; auto]. pose proof (H f (or_introl eq_refl)) as Hf.
    destruct (String.eqb_spec name f) as [->|Ne].
    - assert (X : existsb (String.eqb f) r = false).
      { destruct (existsb (String.eqb f) r) eqn:E; auto. apply existsb_exists in E. destruct E as (g & Hg & E).
        apply String.eqb_eq in E. subst. contradiction. }
      rewrite X. simpl. destruct (stat (path_join d f)) as [m|e]; [|rewrite Hf; reflexivity].
      rewrite String.eqb_refl, Bool.andb_true_r, (shown (Hf eq_refl)). destruct (executable m); reflexivity.
    - simpl. destruct (stat (path_join d f)) as [m|e]; [|rewrite Hf; reflexivity].
      destruct (String.eqb_spec f name); [congruence|]. rewrite Bool.andb_false_r. reflexivity.
  Qed.
  Lemma whereis_all_ok name : forall ds,
    (forall d, In d ds -> match listdir d with Fails OtherOSError => False | _ => True end) ->
    (forall d files, In d ds -> listdir d = Is files -> NoDup files /\
       forall f, In f files -> match stat (path_join d f) with Is m => f = name -> ordinary m | Fails e => e = Missing end) ->
    whereis_all listdir stat ds name = (executables listdir stat name ds, None).
  Proof.
    induction ds as [|d r IH]; simpl; intros H1 H2; [reflexivity|]. rewrite IH; [|intros; apply H1; auto|intros; apply H2; auto].
    unfold whereis_in, safe_listdir. pose proof (H1 d (or_introl eq_refl)) as Hd. destruct (listdir d) as [files|[| |]] eqn:E; [| | |contradiction].
    - destruct (H2 d files (or_introl eq_refl) E) as [Hn Hs]. rewrite look_ok by auto. reflexivity.
    - reflexivity.
    - reflexivity.
  Qed.
  (** whatever the modes *)
  Lemma look_sound d name : forall files ends p, In p (fst (look stat d name files ends)) -> p = path_join d name /\ In name files.
  Proof.
    induction files as [|f r IH]; simpl; intros ends p Hp; [contradiction|].
    destruct (stat (path_join d f)) as [m|[| |]]; [|apply IH in Hp; tauto|contradiction|contradiction].
    destruct (look stat d name r ends) as [l e] eqn:E. specialize (IH ends p). rewrite E in IH. simpl in IH.
    destruct (existsb (Ascii.eqb "x") (filemode m) && String.eqb f name) eqn:B; simpl in Hp; [|apply IH in Hp; tauto].
    apply andb_prop in B. destruct B as [_ B]. apply String.eqb_eq in B. subst f.
    destruct Hp as [<-|Hp]; [auto|]. apply IH in Hp. tauto.
  Qed.
End W.

Section R.
  Variable T : Type.
  Lemma picks_ok (a : list T) is_ : Forall (fun i => i < length a) is_ ->
    exists l, picks a is_ = Ok l /\ length l = length is_ /\ forall k i, nth_error is_ k = Some i -> nth_error l k = nth_error a i.
  Proof.
    induction is_ as [|i r IH]; simpl; intros F; [exists []; repeat split; auto; intros [|] i; discriminate|].
    inversion F as [|? ? Hi Fr]; subst. destruct (IH Fr) as (l & -> & L & N).
    destruct (nth_error a i) as [x|] eqn:E; [|apply nth_error_None in E; lia].
    exists (x :: l). repeat split; [simpl; congruence|]. intros [|k] j Hj; simpl in *; [injection Hj as <-; auto|auto].
  Qed.
  Lemma picks_all_ok (args : list (list T)) is_ : (forall a, In a args -> Forall (fun i => i < length a) is_) ->
    exists ls, picks_all args is_ = Ok ls /\ Forall2 (fun a l => length l = length is_ /\ forall k i, nth_error is_ k = Some i -> nth_error l k = nth_error a i) args ls.
  Proof.
    induction args as [|a r IH]; simpl; intros F; [exists []; auto|].
    destruct (@picks_ok a is_) as (l & -> & L & N); [apply F; auto|]. destruct IH as (ls & -> & G); [intros; apply F; auto|].
    exists (l :: ls). split; auto.
  Qed.
  Lemma picks_fail (a : list T) is_ i : In i is_ -> length a <= i -> picks a is_ = Err IndexError.
  Proof.
    induction is_ as [|j r IH]; simpl; intros Hi Hl; [contradiction|]. destruct Hi as [->|Hi].
    - rewrite (proj2 (nth_error_None a i) Hl). reflexivity.
    - rewrite (IH Hi Hl). destruct (nth_error a j); reflexivity.
  Qed.
  Lemma picks_all_fail (args : list (list T)) is_ a i : In a args -> In i is_ -> length a <= i -> picks_all args is_ = Err IndexError.
  Proof.
    induction args as [|b r IH]; simpl; intros Ha Hi Hl; [contradiction|]. destruct Ha as [->|Ha].
    - rewrite (@picks_fail a is_ i Hi Hl). reflexivity.
    - rewrite (IH Ha Hi Hl). destruct (picks b is_) as [|e] eqn:E; [reflexivity|].
      assert (X : forall l e, picks b l = Err e -> e = IndexError).
      { clear. induction l as [|j l IHl]; simpl; intros e H; [discriminate|]. destruct (nth_error b j); [|congruence].
        destruct (picks b l); [discriminate|]. injection H as <-. apply IHl. reflexivity. }
      rewrite (X _ _ E). reflexivity.
  Qed.
End R.
