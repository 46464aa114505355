From Verif Require Import Prelude Daemon_Model Daemon_Spec.
Set Implicit Arguments.

(** the parts that seteuid and setegid leave alone *)
Definition same_place (p q : proc) : Prop :=
  pid p = pid q /\ parent p = parent q /\ session p = session q /\ group p = group q /\ umask p = umask q /\ at_root p = at_root q.
Lemma seteuid_place p u q : seteuid p u = Ok q -> same_place q p /\ euid q = u /\ egid q = egid p /\ rgid q = rgid p /\ sgid q = sgid p.
Proof. unfold seteuid. destruct (_ || _); [|discriminate]. intros [= <-]. unfold same_place. simpl. auto 10. Qed.
Lemma setegid_place p g q : setegid p g = Ok q -> same_place q p /\ egid q = g /\ euid q = euid p.
Proof. unfold setegid. destruct (_ || _); [|discriminate]. intros [= <-]. unfold same_place. simpl. auto 10. Qed.
Lemma same_refl p : same_place p p. Proof. unfold same_place. auto 10. Qed.
Lemma same_trans p q r : same_place p q -> same_place q r -> same_place p r.
Proof. unfold same_place. intuition congruence. Qed.
Lemma parse_place w d f p q : (forall p u q, f p u = Ok q -> same_place q p) -> parse_ug w d f p = Ok q -> same_place q p.
Proof.
  intros Hf. unfold parse_ug. destruct w as [[n|x]|]; [apply Hf| |intros [= <-]; apply same_refl].
  destruct d as [d|]; [|discriminate]. destruct (d x); [apply Hf|discriminate].
Qed.
Lemma settle_place users r u g p : same_place (me (settle users r u g p)) p /\ std (settle users r u g p) = if r then DevNull else Closed.
Proof.
  unfold settle. destruct (parse_ug u (Some users) seteuid p) as [p1|e] eqn:E1; [|split; [apply same_refl|reflexivity]].
  assert (S1 : same_place p1 p) by (eapply parse_place; [|exact E1]; intros ? ? ? H; apply (seteuid_place _ _ H)).
  destruct (parse_ug g None setegid p1) as [p2|e] eqn:E2; [|split; [exact S1|reflexivity]].
  split; [|reflexivity]. eapply same_trans; [|exact S1]. eapply parse_place; [|exact E2]. intros ? ? ? H; apply (setegid_place _ _ H).
Qed.
