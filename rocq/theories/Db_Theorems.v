(** C76, C77: theorems. *)
From Verif Require Import Prelude Db_Model Db_Spec Db_Proofs.

(** ** C76: transaction *)
(** What [with transaction(...)] does: gets the connection and a cursor, runs the body, commits, or rolls back if the body raised, and then closes
    the cursor, and the connection if asked to, whatever the state before. The exception of the body propagates. *)
Definition closes_up (l : list event) (close_after : bool) (c : nat) : Prop :=
  In (Made (CloseCursor c)) l /\ (close_after = true -> In (Made CloseConnection) l).
Definition C76_full_statement : Prop := forall fails ca le s c body,
  fails (log s) Getter = None -> (forall l, fails l MakeCursor = None) ->
  let (s', r) := perform fails ca le s c (With body) in
  exists l, log s' = log s ++ l /\ closes_up l ca (made s) /\ (fails = reliable -> flat body -> r = raised body).

(** The body does not use the same transaction object in another with statement: everything that is done to the connection, whichever calls
    raise. Opening and end are done one by one up to the first call that raises, which is then what comes out. *)
Theorem C76_calls_partial : forall fails ca le body s c, flat body ->
  let '(s', r') := perform fails ca le s c (With body) in
  let '(l1, r1) := in_turn fails (log s) (opening (getter s)) in
  match r1 with
  | Some e => log s' = log s ++ l1 /\ r' = Some e
  | None =>
    let pre := log s ++ l1 ++ uses (made s) body in
    let '(l2, r2) := in_turn fails pre (ending ca le (made s) (raised body)) in
    log s' = pre ++ l2 /\ r' = (match r2 with Some e => Some e | None => raised body end)
  end.
Proof. intros. apply with_exact. assumption. Qed.
Print Assumptions C76_calls_partial.

(** Nothing but the body raises: exactly these calls are made. *)
Theorem C76_reliable : forall ca le body s c, flat body ->
  let (s', r) := perform reliable ca le s c (With body) in
  r = raised body /\
  log s' = log s ++ (if getter s then [Made Getter] else []) ++ [Made MakeCursor] ++ uses (made s) body ++
    (match raised body with None => [Made Commit] | Some _ => Made Rollback :: (if le then [Logged] else []) end) ++
    [Made (CloseCursor (made s))] ++ (if ca then [Made CloseConnection] else []).
Proof.
  intros ca le body s c F. pose proof (with_exact reliable ca le body s c F) as H. destruct (perform reliable ca le s c (With body)) as [s' r].
  assert (R : forall plan pre, in_turn reliable pre plan = (plan, None)).
  { induction plan as [|e t IH]; intros pre; simpl; auto. destruct e; unfold reliable at 1; rewrite IH; reflexivity. }
  rewrite R in H. cbv beta iota zeta in H. rewrite R in H. destruct H as [L ->]. split; auto. rewrite L. unfold opening, ending, only. rewrite <- !app_assoc. destruct (getter s), (raised body), le, ca; reflexivity.
Qed.
Print Assumptions C76_reliable.

(** Never both: the part of the log after the body holds a commit only if the body did not raise, and a rollback only if it did. *)
Theorem C76_commit_or_rollback_partial : forall fails ca le body s c, flat body -> (forall l, fails l Getter = None) -> (forall l, fails l MakeCursor = None) ->
  exists l, log (fst (perform fails ca le s c (With body))) = log s ++ l /\
  (In (Made Commit) l <-> raised body = None) /\ (In (Made Rollback) l <-> raised body <> None).
Proof.
  intros fails ca le body s c F G M. pose proof (with_exact fails ca le body s c F) as H. destruct (perform fails ca le s c (With body)) as [s' r]. cbn [fst].
  assert (O : in_turn fails (log s) (opening (getter s)) = (opening (getter s), None)).
  { unfold opening, only. destruct (getter s); simpl; rewrite ?G, ?M; reflexivity. }
  rewrite O in H. cbv beta iota zeta in H. destruct (in_turn fails (log s ++ opening (getter s) ++ uses (made s) body) (ending ca le (made s) (raised body))) as [l2 r2] eqn:T.
  destruct H as [L _]. exists (opening (getter s) ++ uses (made s) body ++ l2). rewrite L, <- !app_assoc. split; auto.
  assert (U : forall e, (forall k, e <> Used k) -> In e (uses (made s) body) -> False).
  { intros e N. clear - N. induction body as [|p t IH]; simpl; auto. destruct p; simpl; auto. intros [E|I]; auto. subst. apply (N (made s)); auto. }
  assert (OP : forall b e, In e (opening b) -> e = Made Getter \/ e = Made MakeCursor) by (intros [|] e; unfold opening, only; simpl; intuition).
  assert (Sub : forall plan pre l r, in_turn fails pre plan = (l, r) -> forall e, In e l -> In e plan).
  { induction plan as [|e t IH]; intros pre l r0 E x I; simpl in E; [injection E as <- <-; destruct I|].
    destruct (match e with Made c0 => fails pre c0 | _ => None end); [injection E as <- <-; destruct I as [<-|[]]; left; auto|].
    destruct (in_turn fails (pre ++ [e]) t) as [l3 r3] eqn:E3. injection E as <- <-. destruct I as [<-|I]; [left; auto|right; eauto]. }
  assert (Head : forall e t pre l r, in_turn fails pre (e :: t) = (l, r) -> In e l).
  { intros e t pre l r0 E. simpl in E. destruct (match e with Made c0 => fails pre c0 | _ => None end); [injection E as <- <-; left; auto|].
    destruct (in_turn fails (pre ++ [e]) t). injection E as <- <-. left; auto. }
  assert (NE : forall k r0, In (Made k) (ending ca le (made s) r0) -> k = Commit -> r0 = None).
  { intros k [x|] I ->; auto. unfold ending, only in I. exfalso. destruct le, ca; simpl in I; intuition discriminate. }
  assert (NE2 : forall k r0, In (Made k) (ending ca le (made s) r0) -> k = Rollback -> r0 <> None).
  { intros k [x|] I ->; [discriminate|]. unfold ending, only in I. exfalso. destruct le, ca; simpl in I; intuition discriminate. }
  rewrite !in_app_iff. split; split.
  - intros [I|[I|I]]; [destruct (OP _ _ I); discriminate|exfalso; eapply U; [|exact I]; intros ?; discriminate|]. eapply NE; [eapply Sub; eauto|auto].
  - intros E. right. right. rewrite E in T. unfold ending in T. cbn [app] in T. eapply Head; eauto.
  - intros [I|[I|I]]; [destruct (OP _ _ I); discriminate|exfalso; eapply U; [|exact I]; intros ?; discriminate|]. eapply NE2; [eapply Sub; eauto|auto].
  - intros E. right. right. destruct (raised body); [|congruence]. unfold ending in T. cbn [app] in T. eapply Head; eauto.
Qed.
Print Assumptions C76_commit_or_rollback_partial.

(** A getter is called at most once in the life of the object, however its with statements are nested and whatever else raises. *)
Theorem C76_getter_once : forall fails ca le g c ps, (forall l, fails l Getter = None) ->
  getters (log (fst (body_of (perform fails ca le) (begin g) c ps))) <= (if g then 1 else 0).
Proof. exact getter_once. Qed.
Print Assumptions C76_getter_once.
Example C76_met : perform reliable true true (begin true) 0 (With [Use; Use; Raise KeyError; Use]) =
  (mk_state false (Some 0) 1 [Made Getter; Made MakeCursor; Used 0; Used 0; Made Rollback; Logged; Made (CloseCursor 0); Made CloseConnection], Some KeyError).
Proof. reflexivity. Qed.

(** commit() raises: nothing is rolled back, and neither cursor nor connection is closed *)
Definition commit_fails : list event -> call -> option exn := fun _ c => match c with Commit => Some OSErrorExn | _ => None end.
Theorem C76_commit_fails_refuted : perform commit_fails true true (begin false) 0 (With [Use]) =
  (mk_state false (Some 0) 1 [Made MakeCursor; Used 0; Made Commit], Some OSErrorExn).
Proof. reflexivity. Qed.
Print Assumptions C76_commit_fails_refuted.
(** the same object in two nested with statements: the inner cursor is closed twice, the outer one never *)
Theorem C76_nested_refuted : perform reliable false true (begin false) 0 (With [Use; With [Use]; Use]) =
  (mk_state false (Some 1) 2 [Made MakeCursor; Used 0; Made MakeCursor; Used 1; Made Commit; Made (CloseCursor 1); Used 0; Made Commit; Made (CloseCursor 1)], None).
Proof. reflexivity. Qed.
Print Assumptions C76_nested_refuted.
Theorem C76_full_statement_refuted : ~ C76_full_statement.
Proof.
  intros H. specialize (H commit_fails true true (begin false) 0 [Use] eq_refl (fun _ => eq_refl)). cbn in H.
  destruct H as (l & E & [C _] & _). simpl in E. subst l. simpl in C. intuition discriminate.
Qed.
Print Assumptions C76_full_statement_refuted.

(** ** C77: Loadable *)
(** A method decorated with must_be_loaded never sees an object that is not loaded, whatever refreshes failed before. *)
Theorem C77_loaded : forall ops o b, In (Ran b) (snd (lrun o ops)) -> b = true.
Proof. intros ops o b I. pose proof (method_loaded ops o) as F. rewrite Forall_forall in F. exact (F _ I). Qed.
Print Assumptions C77_loaded.
(** It is loaded exactly if some call succeeded in loading it, or it was loaded before; from then on it stays loaded. *)
Theorem C77_loaded_iff : forall ops o, loaded (fst (lrun o ops)) = (loaded o || existsb succeeds ops)%bool.
Proof. exact loaded_iff. Qed.
Print Assumptions C77_loaded_iff.
(** The database is asked once, by the first such method, or not at all if it was loaded when it was made. *)
Theorem C77_asked_once : forall ops o, (forall p, In p ops -> p = Method None) ->
  asked (fst (lrun o ops)) = asked o + (if loaded o then 0 else match ops with [] => 0 | _ => 1 end).
Proof. exact asked_once. Qed.
Print Assumptions C77_asked_once.
(** What comes out of a method is what asking the database raised, if it had to be asked; otherwise the method runs. *)
Theorem C77_method : forall o r,
  (loaded o = true -> lstep o (Method r) = (o, Ran true)) /\
  (loaded o = false -> lstep o (Method r) = (mk_obj (match r with None => true | Some _ => false end) (S (asked o)), match r with None => Ran true | Some e => LErr e end)).
Proof. intros [[|] n] r; split; intros H; try discriminate H; unfold lstep, refresh; simpl; destruct r; reflexivity. Qed.
Print Assumptions C77_method.
Example C77_met : lrun (fst (construct true None)) [Method (Some KeyError); Method None; Method None; Refresh (Some KeyError); Method None]
  = (mk_obj true 3, [LErr KeyError; Ran true; Ran true; LErr KeyError; Ran true]).
Proof. reflexivity. Qed.

(** The documentation: load_lazy set to True, the database is asked by the constructor; False, it is not. It is the other way round. *)
Definition C77_full_statement : Prop := forall r, asked (fst (construct true r)) = 1 /\ asked (fst (construct false r)) = 0.
Theorem C77_constructor_partial : forall r, construct true r = (mk_obj false 0, None) /\
  construct false r = (mk_obj (match r with None => true | Some _ => false end) 1, r).
Proof. intros r. split; [reflexivity|]. destruct r; reflexivity. Qed.
Print Assumptions C77_constructor_partial.
Theorem C77_full_statement_refuted : ~ C77_full_statement.
Proof. intros H. destruct (H None) as [A _]. discriminate A. Qed.
Print Assumptions C77_full_statement_refuted.
