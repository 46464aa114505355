(** C111: a process that becomes a daemon. *)
From Verif Require Import Prelude Daemon_Model Daemon_Spec Daemon_Proofs.
From Coq Require Import Lia.
Set Implicit Arguments.

(** As documented: with an exit_via that ends the process, one process goes on, detached, leading its session, as the
    user and group asked for, if it was started by the superuser. *)
Definition C111_full_statement : Prop := forall users groups redirect uid gid p n1 n2 n3,
  n1 <> group p -> n1 <> n2 -> n1 <> session p -> euid p = 0 ->
  (forall x, uid = Some (ByName x) -> users x <> None) -> (forall x, gid = Some (ByName x) -> groups x <> None) ->
  exists i, daemonize true users redirect uid gid p n1 n2 n3 = [i] /\ failure i = None /\
            is_user users uid (euid p) (euid (me i)) /\ is_user groups gid (egid p) (egid (me i)) /\
            session (me i) = pid (me i).

(** One process goes on, detached, whatever users and groups are asked for and whether or not that fails. *)
Theorem C111_detached : forall users redirect uid gid p n1 n2 n3,
  n1 <> group p -> n1 <> n2 -> n1 <> session p ->
  exists i, daemonize true users redirect uid gid p n1 n2 n3 = [i] /\ pid (me i) = n2 /\ detached p redirect i.
Proof.
  intros users redirect uid gid p n1 n2 n3 H1 H2 H3. unfold daemonize, fork_exit, second, setsid. cbn [adopted child_of with_umask pid group].
  destruct (Nat.eqb_spec n1 (group p)); [contradiction|]. unfold fork_exit. cbn [map].
  eexists. split; [reflexivity|].
  set (q := chdir_root _). destruct (settle_place users redirect uid gid q) as [(E1 & E2 & E3 & E4 & E5 & E6) S].
  split; [rewrite E1; reflexivity|]. unfold detached. rewrite S, E1, E2, E3, E4, E5, E6. simpl. auto 10.
Qed.
Print Assumptions C111_detached.
(** The user and the group are set by number or, the user, by name: if no group is asked for, or the user stays
    the superuser. *)
Theorem C111_partial : forall users groups redirect uid gid p n1 n2 n3,
  n1 <> group p -> n1 <> n2 -> n1 <> session p -> euid p = 0 ->
  (forall x, uid = Some (ByName x) -> users x <> None) -> (forall x, gid <> Some (ByName x)) ->
  gid = None \/ uid = None \/ uid = Some (ByNumber 0) ->
  exists i, daemonize true users redirect uid gid p n1 n2 n3 = [i] /\ failure i = None /\
            is_user users uid (euid p) (euid (me i)) /\ is_user groups gid (egid p) (egid (me i)).
Proof.
  intros users groups redirect uid gid p n1 n2 n3 H1 H2 H3 Hr Hu Hg Hc. unfold daemonize, fork_exit, second, setsid. cbn [adopted child_of with_umask pid group].
  destruct (Nat.eqb_spec n1 (group p)); [contradiction|]. unfold fork_exit. cbn [map].
  eexists. split; [reflexivity|]. set (q := chdir_root _).
  assert (Eq : euid q = 0) by exact Hr. assert (Gq : egid q = egid p) by reflexivity. clearbody q.
  assert (U : exists q1, parse_ug uid (Some users) seteuid q = Ok q1 /\ is_user users uid (euid p) (euid q1) /\ egid q1 = egid q /\
              (uid = None \/ uid = Some (ByNumber 0) -> euid q1 = 0)).
  { unfold parse_ug. destruct uid as [[n'|x]|].
    - unfold seteuid. rewrite Eq. simpl. eexists. split; [reflexivity|]. simpl. split; [reflexivity|]. split; [reflexivity|].
      intros [E|E]; [discriminate|injection E; auto].
    - specialize (Hu x eq_refl). destruct (users x) as [u|] eqn:Ex; [|contradiction]. unfold seteuid. rewrite Eq. simpl.
      eexists. split; [reflexivity|]. simpl. split; [exact Ex|]. split; [reflexivity|]. intros [E|E]; discriminate E.
    - exists q. simpl. repeat split; auto. congruence. }
  destruct U as (q1 & U & I & G & Z). unfold settle. unfold db in *. rewrite U.
  unfold parse_ug. destruct gid as [[g|x]|]; [|exfalso; eapply Hg; reflexivity|simpl; repeat split; auto; congruence].
  assert (Z0 : euid q1 = 0) by (apply Z; destruct Hc as [Hc|Hc]; [discriminate|exact Hc]).
  rewrite Z0 in I. unfold setegid. rewrite Z0. simpl. auto.
Qed.
Print Assumptions C111_partial.
(** An unknown user: a KeyError, in the process that is detached already, and no user or group is set. *)
Theorem C111_unknown : forall users redirect x gid p n1 n2 n3,
  n1 <> group p -> n1 <> n2 -> n1 <> session p -> users x = None ->
  exists i, daemonize true users redirect (Some (ByName x)) gid p n1 n2 n3 = [i] /\ failure i = Some KeyError /\ detached p redirect i /\ euid (me i) = euid p /\ egid (me i) = egid p.
Proof.
  intros users redirect x gid p n1 n2 n3 H1 H2 H3 U. destruct (@C111_detached users redirect (Some (ByName x)) gid p n1 n2 n3 H1 H2 H3) as (i & E & _ & D).
  exists i. split; [exact E|]. split; [|split; [exact D|]].
  all: revert E; unfold daemonize, fork_exit, second, setsid; cbn [adopted child_of with_umask pid group];
    destruct (Nat.eqb_spec n1 (group p)); [contradiction|]; unfold fork_exit; cbn [map]; unfold settle, parse_ug; rewrite U; intros [= <-]; auto.
Qed.
Print Assumptions C111_unknown.

Definition root_proc : proc := {| pid := 100; parent := 50; session := 50; group := 100; umask := 18; at_root := false;
  ruid := 0; euid := 0; suid := 0; rgid := 0; egid := 0; sgid := 0 |}.
Definition some_users : db := fun x => match x with 7 => Some 33 | _ => None end.
Example C111_case : exists i, daemonize true some_users true (Some (ByName 7)) None root_proc 101 102 103 = [i] /\
  failure i = None /\ euid (me i) = 33 /\ pid (me i) = 102 /\ session (me i) = 101 /\ parent (me i) = 1.
Proof. eexists. split; [reflexivity|]. repeat split. Qed.

(** The daemon leads no session. *)
Theorem C111_full_statement_refuted : ~ C111_full_statement.
Proof.
  intros H. destruct (H some_users some_users true None None root_proc 101 102 103) as (i & E & _ & _ & _ & L); try discriminate; auto.
  injection E as <-. discriminate L.
Qed.
Print Assumptions C111_full_statement_refuted.
(** A group asked for together with a user cannot be set: the right to do so was given up with the user (unless it is
    the real or saved group anyway). It fails after everything else was done. *)
Theorem C111_group_refuted : forall users redirect u g p n1 n2 n3,
  n1 <> group p -> n1 <> n2 -> n1 <> session p -> euid p = 0 -> u <> 0 -> g <> rgid p -> g <> sgid p ->
  exists i, daemonize true users redirect (Some (ByNumber u)) (Some (ByNumber g)) p n1 n2 n3 = [i] /\
            failure i = Some OSErrorExn /\ euid (me i) = u /\ egid (me i) = egid p.
Proof.
  intros users redirect u g p n1 n2 n3 H1 H2 H3 Hr Hu Hg Hs. unfold daemonize, fork_exit, second, setsid. cbn [adopted child_of with_umask pid group].
  destruct (Nat.eqb_spec n1 (group p)); [contradiction|]. unfold fork_exit. cbn [map]. eexists. split; [reflexivity|].
  unfold settle, parse_ug, seteuid. simpl. rewrite Hr. simpl. unfold setegid. simpl.
  destruct (Nat.eqb_spec u 0); [contradiction|]. destruct (Nat.eqb_spec g (rgid p)); [contradiction|]. destruct (Nat.eqb_spec g (sgid p)); [contradiction|].
  simpl. auto.
Qed.
Print Assumptions C111_group_refuted.
(** A group given by name always fails, whatever groups there are. *)
Theorem C111_group_name_refuted : forall users redirect x p n1 n2 n3,
  n1 <> group p -> n1 <> n2 -> n1 <> session p ->
  exists i, daemonize true users redirect None (Some (ByName x)) p n1 n2 n3 = [i] /\ failure i = Some AttributeError.
Proof.
  intros users redirect x p n1 n2 n3 H1 H2 H3. unfold daemonize, fork_exit, second, setsid. cbn [adopted child_of with_umask pid group].
  destruct (Nat.eqb_spec n1 (group p)); [contradiction|]. eexists. split; reflexivity.
Qed.
Print Assumptions C111_group_name_refuted.
(** With an exit_via that returns, the original process goes on as well: it is not detached, or it fails. *)
Theorem C111_exit_refuted : exists i j k, daemonize false some_users true None None root_proc 101 102 103 = [i; j; k] /\
  pid (me i) = 100 /\ failure i = Some OSErrorExn /\ std i = Opened /\ pid (me j) = 101 /\ failure j = None /\ pid (me k) = 102 /\ parent (me k) = 101.
Proof. eexists _, _, _. split; [reflexivity|]. repeat split. Qed.
Print Assumptions C111_exit_refuted.
