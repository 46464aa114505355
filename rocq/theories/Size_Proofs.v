From Verif Require Import Prelude PreludeFacts MoreFacts Size_Model Size_Spec.
From Coq Require Import Lia.
Set Implicit Arguments.
Open Scope Z_scope.

Section P.
  Variable h : heap.
  (** what is visited *)
  Definition next (x : nat) : list nat :=
    if is_dict (h x) then vals (h x) ++ keys (h x)
    else match attrs (h x) with
         | Some d => [d]
         | None => match items (h x) with Some l => if is_text (h x) then [] else l | None => [] end
         end.
  Definition adds (f : nat) (a : option (Z * list nat)) (y : nat) : option (Z * list nat) :=
    match a with
    | Some (t, s) => match sized h f y s with Some (t', s') => Some (t + t', s') | None => None end
    | None => None
    end.
  Lemma sized_S f x seen : sized h (S f) x seen =
    if memb Nat.eqb x seen then Some (0, seen) else fold_left (adds f) (next x) (Some (bytes (h x), x :: seen)).
  Proof.
    cbn [sized]. unfold next. change (fun (a : option (Z * list nat)) y => _) with (adds f). destruct (memb Nat.eqb x seen); auto.
    destruct (is_dict (h x)); [rewrite fold_left_app; reflexivity|].
    destruct (attrs (h x)); [reflexivity|]. destruct (items (h x)); [|reflexivity]. destruct (is_text (h x)); reflexivity.
  Qed.

  Inductive via (x : nat) : nat -> Prop :=
  | via_self : via x x
  | via_next y z : via x y -> In z (next y) -> via x z.
  Lemma via_trans x y z : via x y -> via y z -> via x z.
  Proof. intros H. induction 1 as [|y' z' _ IH Hn]; auto. eapply via_next; eauto. Qed.

  (** [new] was visited, starting from the objects in [from], with [seen] seen before *)
  Record visited (from : list nat) (seen new : list nat) : Prop := {
    v_nodup : NoDup new;
    v_apart : forall y, In y new -> ~ In y seen;
    v_from : forall y, In y from -> In y (new ++ seen);
    v_reach : forall y, In y new -> exists x, In x from /\ via x y;
    v_closed : forall y z, In y new -> In z (next y) -> In z (new ++ seen)
  }.
  Lemma total_app l1 l2 : total h (l1 ++ l2) = total h l1 + total h l2.
  Proof. unfold total. induction l1; simpl; auto. unfold total in *. simpl in *. lia. Qed.

  Lemma sized_visited f : forall x seen t s, sized h f x seen = Some (t, s) ->
    exists new, s = new ++ seen /\ visited [x] seen new /\ t = total h new.
  Proof.
    induction f as [|f IH]; intros x seen t s H; [discriminate|]. rewrite sized_S in H.
    destruct (memb Nat.eqb x seen) eqn:E.
    - injection H as <- <-. apply (memb_In nateqb_ok) in E. exists []. split; [reflexivity|]. split; [|reflexivity].
      constructor; simpl; try contradiction; try constructor. intros y [<-|[]]; auto.
    - apply (memb_false nateqb_ok) in E.
      assert (L : forall l t0 s0 t s, fold_left (adds f) l (Some (t0, s0)) = Some (t, s) ->
        exists new, s = new ++ s0 /\ visited l s0 new /\ t = t0 + total h new).
      { clear H t s. induction l as [|y l IHl]; intros t0 s0 t s H; simpl in H.
        - injection H as <- <-. exists []. split; [reflexivity|]. split; [constructor; simpl; try contradiction; constructor|].
          unfold total. simpl. lia.
        - destruct (sized h f y s0) as [[t' s']|] eqn:Ey; [|exfalso; clear -H; induction l; simpl in H; [discriminate|auto]].
          destruct (IH _ _ _ _ Ey) as (n1 & -> & V1 & ->). destruct (IHl _ _ _ _ H) as (n2 & -> & V2 & ->).
          exists (n2 ++ n1). split; [rewrite app_assoc; reflexivity|]. destruct V1 as [A1 A2 A3 A4 A5], V2 as [B1 B2 B3 B4 B5].
          split; [|rewrite total_app; lia]. constructor.
          + apply NoDup_app_intro; auto. intros z H1 H2. apply (B2 z H1). apply in_or_app. auto.
          + intros z Hz Hs. apply in_app_or in Hz. destruct Hz as [Hz|Hz]; [apply (B2 z Hz); apply in_or_app; auto|exact (A2 z Hz Hs)].
          + intros z [<-|Hz]; rewrite <- app_assoc; [apply in_or_app; right; apply A3; left; reflexivity|auto].
          + intros z Hz. apply in_app_or in Hz. destruct Hz as [Hz|Hz].
            * destruct (B4 z Hz) as (w & Hw & Hv). exists w. split; [right; exact Hw|exact Hv].
            * destruct (A4 z Hz) as (w & [<-|[]] & Hv). exists y. split; [left; reflexivity|exact Hv].
          + intros z w Hz Hw. rewrite <- app_assoc. apply in_app_or in Hz. destruct Hz as [Hz|Hz]; [eauto|].
            apply in_or_app. right. eauto. }
      destruct (L _ _ _ _ _ H) as (new & -> & [A1 A2 A3 A4 A5] & ->). exists (new ++ [x]).
      split; [rewrite <- app_assoc; reflexivity|]. split; [|rewrite total_app; unfold total; simpl; lia]. constructor.
      + apply NoDup_app_intro; auto; [repeat constructor; intros []|]. intros z H1 [<-|[]]. apply (A2 x H1). left. reflexivity.
      + intros z Hz Hs. apply in_app_or in Hz. destruct Hz as [Hz|[<-|[]]]; [apply (A2 z Hz); right; exact Hs|auto].
      + intros z [<-|[]]. apply in_or_app. left. apply in_or_app. right. left. reflexivity.
      + intros z Hz. exists x. split; [left; reflexivity|]. apply in_app_or in Hz. destruct Hz as [Hz|[<-|[]]]; [|constructor].
        destruct (A4 z Hz) as (w & Hw & Hv). eapply via_trans; [|exact Hv]. eapply via_next; [constructor|exact Hw].
      + intros y z Hy Hz. rewrite <- app_assoc. simpl. apply in_app_or in Hy. destruct Hy as [Hy|[<-|[]]]; eauto.
  Qed.

  Definition unseen (all seen : list nat) : nat := length (filter (fun y => negb (memb Nat.eqb y seen)) all).
  Lemma unseen_le all s1 s2 : (forall y, In y s1 -> In y s2) -> (unseen all s2 <= unseen all s1)%nat.
  Proof.
    intros H. unfold unseen. induction all as [|y t IH]; simpl; auto.
    destruct (memb Nat.eqb y s1) eqn:E1; simpl.
    - apply (memb_In nateqb_ok) in E1. apply H in E1. apply (memb_In nateqb_ok) in E1. rewrite E1. simpl. exact IH.
    - destruct (memb Nat.eqb y s2); simpl; lia.
  Qed.
  Lemma unseen_lt all s x : In x all -> ~ In x s -> (unseen all (x :: s) < unseen all s)%nat.
  Proof.
    unfold unseen. induction all as [|y t IH]; simpl; intros Hi Hn; [contradiction|].
    destruct (Nat.eq_dec x y) as [<-|N].
    - rewrite Nat.eqb_refl. simpl. rewrite (proj2 (memb_false nateqb_ok x s) Hn). simpl.
      pose proof (@unseen_le t s (x :: s) ltac:(intros; right; assumption)) as L. unfold unseen in L. simpl in L. lia.
    - destruct Hi as [->|Hi]; [congruence|]. destruct (Nat.eqb_spec x y); [congruence|]. simpl.
      specialize (IH Hi Hn). simpl in IH. destruct (memb Nat.eqb y s); simpl; lia.
  Qed.
  Lemma unseen_all all seen : (unseen all seen <= length all)%nat.
  Proof. unfold unseen. induction all as [|y t IH]; simpl; auto. destruct (negb (memb Nat.eqb y seen)); simpl; lia. Qed.
  Lemma sized_ends f : forall all x seen, (forall y, via x y -> In y all) -> (unseen all seen < f)%nat -> sized h f x seen <> None.
  Proof.
    induction f as [|f IH]; intros all x seen Ha Hf; [lia|]. rewrite sized_S. destruct (memb Nat.eqb x seen) eqn:E; [discriminate|].
    apply (memb_false nateqb_ok) in E.
    assert (Hx : In x all) by (apply Ha; constructor).
    assert (L : forall l t s, (forall y, In y l -> In y (next x)) -> (unseen all s < f)%nat -> fold_left (adds f) l (Some (t, s)) <> None).
    { induction l as [|y l IHl]; intros t s Hl Hs; simpl; [discriminate|].
      destruct (sized h f y s) as [[t' s']|] eqn:Ey.
      - apply IHl; [intros z Hz; apply Hl; right; exact Hz|]. destruct (sized_visited _ _ _ Ey) as (new & -> & _).
        pose proof (@unseen_le all s (new ++ s) ltac:(intros; apply in_or_app; auto)). lia.
      - exfalso. eapply IH; [|exact Hs|exact Ey]. intros z Hz. apply Ha. eapply via_trans; [|exact Hz].
        eapply via_next; [constructor|apply Hl; left; reflexivity]. }
    apply L; auto. pose proof (@unseen_lt all seen x Hx E). lia.
  Qed.

  Lemma next_component x y : In y (next x) -> component h x y.
  Proof.
    unfold next, component. destruct (is_dict (h x)).
    - intros Hy. left. split; auto. apply in_app_or in Hy. exact Hy.
    - destruct (attrs (h x)) as [d|]; [intros [<-|[]]; auto|].
      destruct (items (h x)) as [l|]; [|intros []]. destruct (is_text (h x)); [intros []|]. intros Hy. right. right. eauto.
  Qed.
  Lemma component_next x y : plain (h x) -> component h x y -> In y (next x).
  Proof.
    unfold plain, next, component. intros P [[E H]|[H|(l & H & Ht & Hy)]].
    - rewrite E in *. apply in_or_app. exact H.
    - destruct (is_dict (h x)); [destruct P as [P _]; congruence|]. rewrite H. left. reflexivity.
    - destruct (is_dict (h x)).
      + destruct P as [_ [P|P]]; [congruence|]. rewrite P in H. injection H as <-. apply in_or_app. auto.
      + destruct P as [P|[P|P]]; [|congruence|congruence]. rewrite P, H, Ht. exact Hy.
  Qed.
  Lemma via_within x y : via x y -> within h x y.
  Proof. induction 1; [constructor|]. eapply deeper; eauto. apply next_component. assumption. Qed.
  Lemma within_via x y : (forall z, within h x z -> plain (h z)) -> within h x y -> via x y.
  Proof. intros P. induction 1; [constructor|]. eapply via_next; eauto. apply component_next; auto. Qed.
  Lemma visited_all x new : visited [x] [] new -> forall y, In y new <-> via x y.
  Proof.
    intros [A1 A2 A3 A4 A5] y. split.
    - intros Hy. destruct (A4 y Hy) as (w & [<-|[]] & Hv). exact Hv.
    - induction 1 as [|y z _ IH Hz]; [specialize (A3 x (or_introl eq_refl))|specialize (A5 y z IH Hz)]; rewrite app_nil_r in *; assumption.
  Qed.
End P.
