From Coq Require Import Lia.
From Verif Require Import Prelude Cass_Model Cass_Spec.
Set Implicit Arguments.

Section W.
  Variable V : Type.
  Implicit Type s : state V.
  (** before and after the only completion *)
  Record waits s : Prop := { w_src : source s = None; w_out : out s = Running; w_err : errors s = 0;
    w_at : (callback s, errback s) = match at_ s with BeforeCallback => (false, false) | BeforeErrback => (true, false) | Returned => (true, true) end }.
  Record came (r : res V) s : Prop := { c_src : source s = Some r; c_err : errors s = 0;
    c_cb : callback s = match at_ s with BeforeCallback => false | _ => true end;
    c_eb : errback s = match at_ s with Returned => true | _ => false end;
    c_out : out s = match at_ s, r with
                    | Returned, _ => Finished r
                    | BeforeErrback, Ok _ => Finished r
                    | _, _ => Running
                    end }.
  Lemma waits_turn s : waits s -> waits (step s (Turn)).
  Proof. intros [A B C D]. destruct s as [so cb eb a o n]. cbn in *. subst. destruct a; injection D as -> ->; cbn; constructor; reflexivity. Qed.
  Lemma waits_complete s r : waits s -> came r (step s (Complete r)).
  Proof. intros [A B C D]. destruct s as [so cb eb a o n]. cbn in *. subst. destruct a, r; injection D as -> ->; cbn; constructor; reflexivity. Qed.
  Lemma came_turn s r : came r s -> came r (step s Turn).
  Proof. intros [A B C D E]. destruct s as [so cb eb a o n]. cbn in *. subst. destruct a, r; cbn; constructor; reflexivity. Qed.
  Lemma turn_at s : at_ (step s Turn) = match at_ s with BeforeCallback => BeforeErrback | _ => Returned end.
  Proof. destruct s as [so cb eb a o n]. cbn. destruct a; cbn; auto; destruct so as [[|]|]; cbn; auto; destruct o; auto. Qed.
  Lemma complete_at s r : at_ (step s (Complete r)) = at_ s.
  Proof. destruct s as [so cb eb a o n]. cbn. destruct r; [destruct cb|destruct eb]; destruct o; reflexivity. Qed.
  Lemma run_at es : forall s, at_ (run s es) = match at_ s, turns es with
    | BeforeCallback, 0 => BeforeCallback | BeforeCallback, 1 => BeforeErrback | BeforeErrback, 0 => BeforeErrback | _, _ => Returned end.
  Proof.
    induction es as [|e es IH]; intros s; [cbn; destruct (at_ s); auto|].
    cbn [run fold_left]. change (fold_left _ es ?x) with (run x es). rewrite IH. destruct e as [r|].
    - rewrite complete_at. reflexivity.
    - rewrite turn_at. unfold turns. cbn. destruct (at_ s); auto; destruct (length _) as [|[|]]; auto.
  Qed.
  Lemma run_none es : forall s, waits s -> completions es = [] -> waits (run s es).
  Proof.
    induction es as [|[r|] es IH]; intros s W C; [auto|discriminate|]. cbn. apply IH; auto. apply waits_turn; auto.
  Qed.
  Lemma run_came r es : forall s, came r s -> completions es = [] -> came r (run s es).
  Proof.
    induction es as [|[x|] es IH]; intros s W C; [auto|discriminate|]. cbn. apply IH; auto. apply came_turn; auto.
  Qed.
  Lemma run_one r es : forall s, waits s -> completions es = [r] -> came r (run s es).
  Proof.
    induction es as [|[x|] es IH]; intros s W C; [discriminate| |].
    - cbn in C. injection C as -> C. cbn. apply run_came; auto. apply waits_complete; auto.
    - cbn. apply IH; auto. apply waits_turn; auto.
  Qed.
End W.

Lemma pairs_ok Q A (q : queries Q) : forall (l : list (option A)), pairs q l = to_execute q l.
Proof.
  intros l. destruct q as [x|qs].
  - induction l as [|a l IH]; [reflexivity|]. cbn [pairs to_execute map]. f_equal. exact IH.
  - revert qs. induction l as [|a l IH]; intros qs; cbn.
    + destruct qs; reflexivity.
    + destruct qs as [|x qs]; auto. cbn. f_equal. apply IH.
Qed.
