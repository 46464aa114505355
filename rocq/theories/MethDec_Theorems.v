(** C116: decorators for methods and arguments *)
From Coq Require Import Lia.
From Verif Require Import Prelude MethDec_Model MethDec_Spec MethDec_Proofs.
Set Implicit Arguments.

(** Once reading a cached property has given a loaded value then, whatever happens afterwards to other objects, each further
    reading gives that value and the method is not called for that object, until somebody assigns the attribute. *)
Theorem C116_cached (V S : Type) (veq : V -> V -> bool) (not_loaded : V) (fun_ : nat -> S -> S * res V) :
  forall s o s1 v, cached_get veq not_loaded fun_ s o = (s1, Ok v) -> veq v not_loaded = false ->
  forall l, (forall w, ~ In (Assign o w) l) ->
  let s2 := crun veq not_loaded fun_ s1 l in
  cached_get veq not_loaded fun_ s2 o = (s2, Ok v) /\
  count_occ Nat.eq_dec (calls s2) o = count_occ Nat.eq_dec (calls s1) o.
Proof.
  intros s o s1 v H L l N s2. pose proof (get_ok _ _ _ _ _ H) as E.
  destruct (keep_attr veq not_loaded fun_ l s1 o) as [A B]; [now rewrite E|auto|].
  split; [|exact B]. unfold cached_get. fold s2 in A. rewrite A, E, L. reflexivity.
Qed.
Print Assumptions C116_cached.
(** What one reading does. An exception is passed on and nothing is remembered. *)
Theorem C116_cached_once (V S : Type) (veq : V -> V -> bool) (not_loaded : V) (fun_ : nat -> S -> S * res V) :
  forall s o, match cached_get veq not_loaded fun_ s o with
              | (s', r) =>
                (forall p, p <> o -> attr s' p = attr s p) /\
                (veq (attr s o) not_loaded = false -> s' = s /\ r = Ok (attr s o)) /\
                (veq (attr s o) not_loaded = true -> rest s' = fst (fun_ o (rest s)) /\ r = snd (fun_ o (rest s)) /\ calls s' = calls s ++ [o] /\
                   attr s' o = match r with Ok v => v | Err _ => attr s o end)
              end.
Proof.
  intros s o. unfold cached_get. destruct (veq (attr s o) not_loaded) eqn:E.
  - destruct (fun_ o (rest s)) as [r [v|e]] eqn:Fn; cbn; repeat split; try discriminate; auto.
    + intros p Hp. destruct (Nat.eqb_spec p o); congruence.
    + now rewrite Nat.eqb_refl.
  - repeat split; auto; discriminate.
Qed.
Print Assumptions C116_cached_once.
(** "the method is called once for an object": it is called again at each reading if what it returns equals assume_not_loaded *)
Definition C116_full_statement : Prop :=
  forall (V S : Type) (veq : V -> V -> bool) (not_loaded : V) (fun_ : nat -> S -> S * res V) s o s1 v,
  (forall x y, veq x y = true <-> x = y) -> calls s = [] -> attr s o = not_loaded ->
  cached_get veq not_loaded fun_ s o = (s1, Ok v) ->
  forall n, count_occ Nat.eq_dec (calls (crun veq not_loaded fun_ s1 (repeat (Get _ o) n))) o = 1.
Theorem C116_full_statement_refuted : ~ C116_full_statement.
Proof.
  intros H.
  specialize (H nat unit Nat.eqb 0 (fun _ s => (s, Ok 0)) {| attr := fun _ => 0; rest := tt; calls := [] |} 0 _ 0 Nat.eqb_eq eq_refl eq_refl eq_refl 1).
  discriminate.
Qed.
Print Assumptions C116_full_statement_refuted.
(** with values that are loaded, it is *)
Theorem C116_partial (V S : Type) (veq : V -> V -> bool) (not_loaded : V) (fun_ : nat -> S -> S * res V) :
  forall s o s1 v, veq not_loaded not_loaded = true -> calls s = [] -> attr s o = not_loaded -> veq v not_loaded = false ->
  cached_get veq not_loaded fun_ s o = (s1, Ok v) ->
  forall l, (forall w, ~ In (Assign o w) l) -> count_occ Nat.eq_dec (calls (crun veq not_loaded fun_ s1 l)) o = 1.
Proof.
  intros s o s1 v R C A L H l N. destruct (C116_cached veq not_loaded fun_ s o H L l N) as [_ B]. rewrite B.
  revert H. unfold cached_get. rewrite A, R. destruct (fun_ o (rest s)) as [r [w|e]]; intros [= <- <-]; cbn.
  rewrite C. cbn. destruct (Nat.eq_dec o o); congruence.
Qed.
Print Assumptions C116_partial.

(** The method runs exactly if the attribute is (or is not) None; otherwise nothing happens and the answer is None. *)
Theorem C116_if_none (V S R : Type) (f : S -> S * res (option R)) :
  forall s, (execute_if_none false (None : option V) f s = f s) /\ (forall v : V, execute_if_none false (Some v) f s = (s, Ok None)) /\
            (execute_if_not_none false (None : option V) f s = (s, Ok None)) /\ (forall v : V, execute_if_not_none false (Some v) f s = f s) /\
            (forall a : option V, execute_if_none true a f s = (s, Err AttributeError) /\ execute_if_not_none true a f s = (s, Err AttributeError)).
Proof. intros s. repeat split. Qed.
Print Assumptions C116_if_none.

(** The method is called, after the function, exactly for an exception of one of the classes which is an Exception, and its
    answer, or its exception, is then that of the call. *)
Theorem C116_on_exception (S R : Type) (is_exception caught : exn -> bool) (method f : S -> S * res R) :
  forall s s' r, f s = (s', r) ->
  ((exists e, r = Err e /\ is_exception e = true /\ caught e = true) -> call_method_on_exception is_exception caught method f s = method s') /\
  (~ (exists e, r = Err e /\ is_exception e = true /\ caught e = true) -> call_method_on_exception is_exception caught method f s = (s', r)).
Proof.
  intros s s' r H. unfold call_method_on_exception. rewrite H. split.
  - intros (e & -> & A & B). now rewrite A, B.
  - intros N. destruct r as [v|e]; auto. destruct (is_exception e) eqn:A; auto. destruct (caught e) eqn:B; auto. exfalso. apply N. eauto.
Qed.
Print Assumptions C116_on_exception.
(** "for any exception of the classes given": not if it is not an Exception, as SystemExit *)
Definition C116_exception_full_statement : Prop :=
  forall (S R : Type) (is_exception caught : exn -> bool) (method f : S -> S * res R) s s' e,
  f s = (s', Err e) -> caught e = true -> call_method_on_exception is_exception caught method f s = method s'.
Theorem C116_exception_full_statement_refuted : ~ C116_exception_full_statement.
Proof.
  intros H.
  specialize (H nat nat (fun e => match e with SystemExitExn => false | _ => true end) (fun _ => true) (fun s => (s, Ok 0)) (fun s => (s, Err SystemExitExn)) 0 0 SystemExitExn eq_refl eq_refl).
  discriminate.
Qed.
Print Assumptions C116_exception_full_statement_refuted.

(** The list has what was yielded, in order, without the Nones if they are to be ignored; an exception of the generator is raised
    and what was yielded before it is lost. *)
Theorem C116_as_list (V : Type) : forall (yields : list (option V)),
  return_as_list false yields None = Ok yields /\
  (exists l, return_as_list true yields None = Ok (map Some l) /\ l = flat_map (fun y => match y with Some v => [v] | None => [] end) yields) /\
  (forall b e, return_as_list b yields (Some e) = Err e).
Proof.
  intros y. split; [|split; auto].
  - cbn. f_equal. induction y as [|[v|] y IH]; cbn; congruence.
  - eexists. split; [|reflexivity]. cbn. f_equal. induction y as [|[v|] y IH]; cbn in *; congruence.
Qed.
Print Assumptions C116_as_list.

(** A decorated function first calls the callable, with the parameters given, then the function. *)
Theorem C116_before (A : Type) : forall f (args : list (arg A)),
  (forall g, args <> [Callable A g]) ->
  match decorate (execute_before args) f with Some m => run_made m = [CallBefore args; CallFun A f] | None => False end /\
  run_made (execute_before [Callable A f]) = [CallBefore []; CallFun A f].
Proof.
  intros f args N. split; auto. destruct args as [|[g|a] [|? ?]]; cbn; auto. exfalso. eapply N; reflexivity.
Qed.
Print Assumptions C116_before.
(** "you can even specify custom parameters": not a single one that is callable, which is itself taken for the function *)
Theorem C116_before_refuted : ~ (forall (A : Type) f (args : list (arg A)),
  match decorate (execute_before args) f with Some m => run_made m = [CallBefore args; CallFun A f] | None => False end).
Proof. intros H. exact (H nat 0 [Callable nat 1]). Qed.
Print Assumptions C116_before_refuted.

(** A decorator made to suit methods gives the calls the results the decorator itself would, without self, if what it makes of a
    function keeps nothing between calls. *)
Theorem C116_adapt_partial (Self A R D : Type) (init : D) (inner : D -> (A -> res R) -> A -> D * res R) (func : option Self -> A -> res R) :
  (forall f a, fst (inner init f a) = init) -> forall calls, adapted init inner func calls = decorated inner func init calls.
Proof.
  intros H calls. induction calls as [|c t IH]; auto. cbn [adapted map decorated].
  pose proof (H (func (fst c)) (snd c)) as Q. destruct (inner init (func (fst c)) (snd c)) as [d r]. cbn in *. subst d. f_equal. exact IH.
Qed.
Print Assumptions C116_adapt_partial.
(** In general it decorates at each call, so that no call depends on those before. *)
Theorem C116_adapt_forgets (Self A R D : Type) (init : D) (inner : D -> (A -> res R) -> A -> D * res R) (func : option Self -> A -> res R) :
  forall c1 c2, adapted init inner func (c1 ++ c2) = adapted init inner func c1 ++ adapted init inner func c2 /\
  (forall c, In c c2 -> In (snd (inner init (func (fst c)) (snd c))) (adapted init inner func c2)).
Proof. intros c1 c2. split; [apply map_app|]. intros c I. unfold adapted. apply in_map_iff. eauto. Qed.
Print Assumptions C116_adapt_forgets.
Definition C116_adapt_full_statement : Prop :=
  forall (Self A R D : Type) (init : D) (inner : D -> (A -> res R) -> A -> D * res R) (func : option Self -> A -> res R) calls,
  adapted init inner func calls = decorated inner func init calls.
(** a decorator counting the calls *)
Theorem C116_adapt_full_statement_refuted : ~ C116_adapt_full_statement.
Proof.
  intros H. specialize (H unit nat nat nat 0 (fun d f a => (S d, Ok (S d))) (fun _ a => Ok a) [(None, 5); (None, 5)]). discriminate.
Qed.
Print Assumptions C116_adapt_full_statement_refuted.

(** deep_copy: no object there was before the call is changed by a function that changes only what it can reach from its
    arguments (or made itself); and each argument it gets is a faithful copy of the caller's. *)
Theorem C116_copy_deep (R : Type) (f : heap -> list val -> heap * R) : honest f ->
  forall h args, closed h -> Forall (good h) args ->
  exists h1 args1, copy_arguments true f h args = Some (f h1 args1) /\
    (forall n, n < next h -> cells (fst (f h1 args1)) n = cells h n) /\
    (forall n, n < next h -> cells h1 n = cells h n) /\
    Forall2 (fun a a1 => is_copy h a h1 a1) args args1 /\
    (forall n, reach h1 args1 n -> next h <= n).
Proof.
  intros H h args C G.
  assert (A0 : apart (next h) h h) by (constructor; auto; intros; lia).
  destruct (copy_deep C A0 G) as (h1 & args1 & E & A & F & CP).
  exists h1, args1. unfold copy_arguments. rewrite E. split; [reflexivity|].
  pose proof (reach_fresh A F) as RF.
  split; [|split; [apply A|split; [auto|intros n Rn; apply (RF n Rn)]]].
  intros n L. rewrite H.
  - apply A; auto.
  - pose proof (a_next A). lia.
  - intros Rn. destruct (RF n Rn). lia.
Qed.
Print Assumptions C116_copy_deep.
(** plain copies: the same for a function changing only the arguments themselves; each argument has the contents of the caller's *)
Theorem C116_copy_partial (R : Type) (f : heap -> list val -> heap * R) : honest_top f ->
  forall h args, Forall (good h) args ->
  exists h1 args1, copy_arguments false f h args = Some (f h1 args1) /\
    (forall n, n < next h -> cells (fst (f h1 args1)) n = cells h n) /\
    Forall2 (fun a a1 => match a with Imm z => a1 = Imm z | Ref n => exists m, a1 = Ref m /\ next h <= m /\ cells h1 m = cells h n end) args args1.
Proof.
  intros H h args G. destruct (copy_shallow args h) as (h1 & args1 & E & L & K & F).
  exists h1, args1. unfold copy_arguments. rewrite E. split; [reflexivity|]. split.
  - intros n Ln. rewrite H; [auto|lia|]. intros I.
    clear - F I Ln. induction F as [|v v' l l' Q F IH]; [easy|]. destruct I as [->|I]; [|auto].
    destruct v; [discriminate|]. destruct Q as (m & [= <-] & B & _). lia.
  - clear - F G. induction F as [|v v' l l' Q F IH]; constructor.
    + apply Forall_inv in G. destruct v; auto. destruct Q as (m & -> & B & B' & Q). exists m. auto.
    + apply IH. apply Forall_inv_tail in G. auto.
Qed.
Print Assumptions C116_copy_partial.
(** "the caller's objects are not modified": without deep_copy, those inside the arguments may be *)
Definition C116_copy_full_statement : Prop :=
  forall (R : Type) (f : heap -> list val -> heap * R), honest f -> forall h args, closed h -> Forall (good h) args ->
  forall h' r, copy_arguments false f h args = Some (h', r) -> forall n, n < next h -> cells h' n = cells h n.
(** appends to the first element of the first argument *)
Definition nested (h : heap) (args : list val) : heap * unit :=
  match args with
  | Ref n :: _ => match cells h n with Ref m :: _ => (write h m [Imm 1], tt) | _ => (h, tt) end
  | _ => (h, tt)
  end.
Theorem C116_copy_full_statement_refuted : ~ C116_copy_full_statement.
Proof.
  intros H.
  specialize (H unit nested).
  assert (Hn : honest nested).
  { intros h args n L N. unfold nested. destruct args as [|[z|k] t]; auto. destruct (cells h k) as [|[z|m] c] eqn:E; auto.
    cbn. destruct (Nat.eqb_spec n m) as [->|]; auto. exfalso. apply N. apply reach_in with k; [constructor; left; auto|]. rewrite E. left; auto. }
  specialize (H Hn {| cells := fun n => match n with 1 => [Ref 0] | _ => [] end; next := 2 |} [Ref 1]).
  assert (Cl : closed {| cells := fun n => match n with 1 => [Ref 0] | _ => [] end; next := 2 |}).
  { intros n L. destruct n as [|[|n]]; cbn; auto. constructor; auto. cbn. lia. }
  specialize (H Cl). specialize (H ltac:(constructor; [cbn; lia|constructor])).
  specialize (H _ tt eq_refl 0 ltac:(cbn; lia)). discriminate.
Qed.
Print Assumptions C116_copy_full_statement_refuted.
(** An object given twice becomes two objects, even with deep_copy. *)
Theorem C116_copy_alias_refuted : ~ (forall (f : heap -> list val -> heap * bool) deep_copy h args h' r, honest f -> closed h -> Forall (good h) args ->
  copy_arguments deep_copy f h args = Some (h', r) -> r = snd (f h args)).
Proof.
  intros H.
  specialize (H (fun h args => (h, match args with [Ref a; Ref b] => Nat.eqb a b | _ => false end)) true {| cells := fun _ => []; next := 1 |} [Ref 0; Ref 0]).
  assert (false = true); [|discriminate]. eapply H.
  - intros h args n _ _. reflexivity.
  - intros n _. constructor.
  - repeat constructor.
  - reflexivity.
Qed.
Print Assumptions C116_copy_alias_refuted.

(** cases *)
Definition case_heap : heap := {| cells := fun n => match n with 0 => [Imm 7; Ref 1] | 1 => [Ref 0; Imm 9] | _ => [] end; next := 2 |}.
Example C116_case_heap : closed case_heap /\ Forall (good case_heap) [Ref 0; Ref 1] /\ honest nested.
Proof.
  split; [|split].
  - intros n L. destruct n as [|[|n]]; cbn; repeat constructor.
  - repeat constructor.
  - intros h args n L N. unfold nested. destruct args as [|[z|k] t]; auto. destruct (cells h k) as [|[z|m] c] eqn:E; auto.
    cbn. destruct (Nat.eqb_spec n m) as [->|]; auto. exfalso. apply N. apply reach_in with k; [constructor; left; auto|]. rewrite E. left; auto.
Qed.
Example C116_case_cyclic : match copy_arguments true (fun h args => (h, args)) case_heap [Ref 0] with
  | Some (h, [Ref a]) => a = 2 /\ cells h 2 = [Imm 7; Ref 3] /\ cells h 3 = [Ref 2; Imm 9] /\ cells h 0 = [Imm 7; Ref 1] | _ => False end.
Proof. repeat split. Qed.
Example C116_case_cached : exists s1, cached_get Nat.eqb 0 (fun o s => (S s, Ok (o + 10))) {| attr := fun _ => 0; rest := 5; calls := [] |} 3 = (s1, Ok 13) /\ calls s1 = [3] /\ rest s1 = 6.
Proof. eexists. repeat split. Qed.
Example C116_case_before : run_made (execute_before [Callable nat 4]) = [CallBefore []; CallFun nat 4] /\ (forall g, [Plain 2] <> [Callable nat g]).
Proof. split; [reflexivity|discriminate]. Qed.
