(** C84: tainting. *)
From Verif Require Import Prelude Taint_Model Taint_Spec Taint_Proofs.

(** x == y is y == x, x < y is y > x, x <= y is y >= x *)
Definition mirrored (V : Type) (op2 : top -> V -> V -> res V) : Prop := forall a b,
  op2 Eq_ b a = op2 Eq_ a b /\ op2 Gt_ b a = op2 Lt_ a b /\ op2 Ge_ b a = op2 Le_ a b.
(** no two variables hold the same TaintedObject and the program makes no such, or it has no in-place operators *)
Definition no_aliases (V : Type) (s : store V) (l : list (stmt V)) : Prop :=
  apart s /\ Forall (fun p => ~ copies p) l \/ Forall (fun p => ~ augments p) l.

(** The full statement: in a session a program does what it does without taints, and what depends on something tainted is tainted. *)
Definition C84_full_statement : Prop := forall (V : Type) op2 truth of_bool, mirrored V op2 -> (forall a b, op2 Ne_ a b = res_map (fun v => of_bool (negb (truth v))) (op2 Eq_ a b)) ->
  forall l s h p f p', represents s h p f -> prun op2 p l = Ok p' ->
  exists s' h', trun op2 truth of_bool true s h l = Ok (s', h') /\ represents s' h' p' (fold_left (@flow V) l f).

(** Programs without != that end well give what they give without taints, and exactly what depends on something tainted is tainted. *)
Theorem C84_programs_partial : forall (V : Type) op2 truth of_bool session, mirrored V op2 ->
  forall l s h p f s' h', represents s h p f -> Forall (stmt_uses (fun o => o <> Ne_)) l -> no_aliases V s l ->
  trun op2 truth of_bool session s h l = Ok (s', h') ->
  exists p', prun op2 p l = Ok p' /\ represents s' h' p' (fold_left (@flow V) l f).
Proof.
  intros V op2 truth of_bool session M. exact (trun_ok V op2 truth of_bool session (fun a b => proj1 (M a b)) (fun a b => proj1 (proj2 (M a b))) (fun a b => proj2 (proj2 (M a b)))).
Qed.
Print Assumptions C84_programs_partial.
(** With +, ==, <, <=, > and >= only, they fail only as they fail without taints. *)
Theorem C84_no_new_failures_partial : forall (V : Type) op2 truth of_bool, mirrored V op2 ->
  forall l s h p f e, represents s h p f -> Forall (stmt_uses (fun o => In o [Add; Eq_; Lt_; Le_; Gt_; Ge_])) l -> no_aliases V s l ->
  trun op2 truth of_bool true s h l = Err e -> prun op2 p l = Err e.
Proof. exact no_new_failures. Qed.
Print Assumptions C84_no_new_failures_partial.

(** integers *)
Definition zop (o : top) (a b : Z) : res Z :=
  match o with
  | Add => Ok (a + b)%Z | Sub => Ok (a - b)%Z | Mul => Ok (a * b)%Z
  | Eq_ => Ok (if a =? b then 1 else 0)%Z | Ne_ => Ok (if a =? b then 0 else 1)%Z
  | Lt_ => Ok (if a <? b then 1 else 0)%Z | Gt_ => Ok (if b <? a then 1 else 0)%Z
  | Le_ => Ok (if a <=? b then 1 else 0)%Z | Ge_ => Ok (if b <=? a then 1 else 0)%Z
  | Other => Err ZeroDivision
  end.
Definition ztruth (a : Z) : bool := negb (a =? 0)%Z.
Definition zbool (b : bool) : Z := if b then 1%Z else 0%Z.
Lemma zmirrored : mirrored Z zop.
Proof. intros a b. repeat split; simpl. rewrite Z.eqb_sym. reflexivity. Qed.
(** x0 is 5 and tainted, x1 is 7 *)
Definition two : store Z := fun x => match x with 0 => Some (C 0) | 1 => Some (P 7%Z) | _ => None end.
Definition two_plain : pstore Z := fun x => match x with 0 => Some 5%Z | 1 => Some 7%Z | _ => None end.
Definition first (x : nat) : bool := Nat.eqb x 0.
Lemma two_represents : represents two [5%Z] two_plain first.
Proof. intros [|[|x]]; simpl; auto. Qed.
Definition program : list (stmt Z) := [Assign 2 (Bin Add (Var Z 1) (Var Z 0)); Aug 2 Sub (Const 2%Z); Assign 3 (Bin Mul (Var Z 1) (Const 2%Z)); Aug 3 Add (Var Z 2); Aug 1 Add (Const 1%Z)].
Example C84_programs_case : no_aliases Z two program /\ Forall (stmt_uses (fun o => o <> Ne_)) program /\
  match trun zop ztruth zbool true two [5%Z] program with Ok (s, h) => (map (fun x => match s x with Some v => access h v | None => None end) [0; 1; 2; 3], map (fun x => s x) [1; 2]) | Err _ => ([], []) end
  = ([Some 5%Z; Some 8%Z; Some 10%Z; Some 24%Z], [Some (P 8%Z); Some (C 1)]).
Proof.
  split; [|split; [|reflexivity]].
  - left. split; [|repeat constructor; auto]. intros [|[|x]] [|[|y]] c X Y; simpl in *; congruence.
  - repeat constructor; discriminate.
Qed.

(** 7 - x with a tainted x is a TypeError: there is no __rsub__ (nor __rmul__) *)
Theorem C84_right_operand_refuted : forall s h x c v, s x = Some (C c) -> nth_error h c = Some v ->
  (forall a, texec zop ztruth zbool true s h (Assign x (Bin Sub (Const a) (Var Z x))) = Err TypeError) /\
  (forall a, texec zop ztruth zbool true s h (Assign x (Bin Mul (Const a) (Var Z x))) = Err TypeError).
Proof. intros s h x c v E F. split; intros a; simpl; rewrite E; unfold binary; simpl; rewrite F; reflexivity. Qed.
Print Assumptions C84_right_operand_refuted.
(** x != 7 is not tainted *)
Theorem C84_not_equal_refuted : forall s h x c v, s x = Some (C c) -> nth_error h c = Some v ->
  texec zop ztruth zbool true s h (Assign 9 (Bin Ne_ (Var Z x) (Const 7%Z))) = Ok (set s 9 (P (if v =? 7 then 0 else 1)%Z), h).
Proof. intros s h x c v E F. simpl. rewrite E. unfold binary. simpl. rewrite F. simpl. destruct (v =? 7)%Z; reflexivity. Qed.
Print Assumptions C84_not_equal_refuted.
(** y = x; y += 1 changes x *)
Theorem C84_alias_refuted : trun zop ztruth zbool true two [5%Z] [Assign 2 (Var Z 0); Aug 2 Add (Const 1%Z)] = Ok (set two 2 (C 0), [6%Z]).
Proof. reflexivity. Qed.
Print Assumptions C84_alias_refuted.
Theorem C84_full_statement_refuted : ~ C84_full_statement.
Proof.
  intros H. destruct (H Z zop ztruth zbool zmirrored) with (l := [Assign 0 (Bin Sub (Const 7%Z) (Var Z 0))]) (s := two) (h := [5%Z]) (p := two_plain) (f := first) (p' := set two_plain 0 2%Z) as (s' & h' & E & _).
  - intros a b. simpl. destruct (a =? b)%Z; reflexivity.
  - exact two_represents.
  - reflexivity.
  - discriminate E.
Qed.
Print Assumptions C84_full_statement_refuted.

(** After the session operations with something tainted do not work any more. *)
Theorem C84_after_session : forall (V : Type) op2 truth of_bool, mirrored V op2 ->
  forall s h p f x o l r q, represents s h p f -> uses (V:=V) (fun o => o <> Ne_) (Bin o l r) -> depends f (Bin o l r) = true ->
  texec op2 truth of_bool false s h (Assign x (Bin o l r)) <> Ok q.
Proof. intros V op2 truth of_bool M. exact (after_session V op2 truth of_bool (fun a b => proj1 (M a b)) (fun a b => proj1 (proj2 (M a b))) (fun a b => proj2 (proj2 (M a b)))). Qed.
Print Assumptions C84_after_session.
Example C84_after_session_case : texec zop ztruth zbool false two [5%Z] (Assign 2 (Bin Add (Var Z 0) (Const 1%Z))) = Err RuntimeError.
Proof. reflexivity. Qed.

(** ** Containers *)
(** Whatever is got out of a tainted object is tainted, and is what is got out of the object itself. *)
Theorem C84_items : forall (V : Type) (x : tree V) path,
  res_map (@erase V) (walk (taint x) path) = walk (erase x) path /\ forall y, walk (taint x) path = Ok y -> is_tainted y.
Proof. exact walk_both. Qed.
Print Assumptions C84_items.
Theorem C84_iteration : forall (V : Type) (x : tree V),
  res_map (map (@erase V)) (items (taint x)) = items (erase x) /\ forall l, items (taint x) = Ok l -> Forall (@is_tainted V) l.
Proof. intros V x. exact (conj (items_erase V x) (fun l E => proj1 (items_tainted V x l E))). Qed.
Print Assumptions C84_iteration.
(** Nothing is tainted twice. *)
Theorem C84_once : forall (V : Type) (x : tree V), sound x -> sound (taint x) /\ taint (taint x) = taint x.
Proof. intros V x S. exact (conj (taint_sound V x S) (taint_twice V x)). Qed.
Print Assumptions C84_once.
Example C84_items_case : walk (taint (Seq true [Leaf 1; Seq false [Leaf 2; Seq true [Leaf 3]]])) [1; 1; 0] = Ok (T (Leaf 3)) /\
  items (taint (Seq false [Leaf 1; T (Leaf 2)])) = Ok [T (Leaf 1); T (Leaf 2)].
Proof. split; reflexivity. Qed.

(** taint() leaves its argument as it was and access_tainted() gives it back: not if it is a list, the elements of which are tainted in it. *)
Definition C84_argument_full_statement : Prop := forall (V : Type) (x : tree V), argument_after x = x /\ (~ is_tainted x -> access_tainted (taint x) = x).
Theorem C84_argument_full_statement_refuted : ~ C84_argument_full_statement.
Proof. intros H. destruct (H nat (Seq true [Leaf 1])) as [X _]. discriminate. Qed.
Print Assumptions C84_argument_full_statement_refuted.
Theorem C84_argument_partial : forall (V : Type) (x : tree V), erase (argument_after x) = erase x /\
  ((forall l, x <> Seq true l) -> argument_after x = x /\ (~ is_tainted x -> access_tainted (taint x) = x)).
Proof. exact argument_kept. Qed.
Print Assumptions C84_argument_partial.

(** ** Sessions *)
(** A thread has at most one session, which begins and ends with its environment; what other threads do does not matter. *)
Theorem C84_sessions : forall s t e, (local s t = None ->
    snd (sstep s (Enter t e)) = Ok (Some e) /\ snd (sstep (fst (sstep s (Enter t e))) (GetSession t)) = Ok (Some e) /\ enabled (fst (sstep s (Enter t e))) e = true) /\
  (local s t = Some e -> (forall e', snd (sstep s (Enter t e')) = Err RuntimeError /\ local (fst (sstep s (Enter t e'))) t = Some e) /\
    snd (sstep s (Exit t e)) = Ok None /\ snd (sstep (fst (sstep s (Exit t e))) (GetSession t)) = Err RuntimeError /\ enabled (fst (sstep s (Exit t e))) e = false).
Proof. exact sessions_all. Qed.
Print Assumptions C84_sessions.
Theorem C84_threads : forall s o t, (match o with Enter u _ | Exit u _ | GetSession u => u <> t end) -> local (fst (sstep s o)) t = local s t.
Proof. exact sessions_apart. Qed.
Print Assumptions C84_threads.
(** only an environment in progress is enabled: not if it could not be entered *)
Definition C84_enabled_full_statement : Prop := forall s t e, enabled s e = false -> snd (sstep s (Enter t e)) = Err RuntimeError -> enabled (fst (sstep s (Enter t e))) e = false.
Theorem C84_enabled_full_statement_refuted : ~ C84_enabled_full_statement.
Proof. intros H. specialize (H (MkS (fun _ => Some 0) (Nat.eqb 0)) 0 1 eq_refl eq_refl). discriminate. Qed.
Print Assumptions C84_enabled_full_statement_refuted.
