(** C90: metaclasses. *)
From Coq Require Import List Arith Lia.
From Verif Require Import Prelude Walk_Model Walk_Spec Meta_Model Meta_Spec Meta_Proofs.
Import ListNotations.

(** DocsFromParent: the class keeps its own docstring, or gets that of the nearest documented ancestor, breadth first; each method without a docstring gets
    the one that the first ancestor, breadth first, shows for its name; whatever has a docstring, or is not callable, or is not a member, is left alone. *)
Theorem C90_docs_from_parent_partial : forall w bases ts b d, Forall2 (family w) bases ts -> exists n, forall fuel, n <= fuel ->
  (match body_doc b with
   | Some t => fst (DocsFromParent w fuel bases b d) = Some t
   | None => first_text (fun c t => t <> [] /\ cdoc w c = t) (level_order ts) (fst (DocsFromParent w fuel bases b d))
   end) /\
  (forall o, ~ In o (map snd (members b)) \/ d o <> [] \/ callable w o = false -> snd (DocsFromParent w fuel bases b d) o = d o) /\
  (fresh_members w (members b) -> forall key v, In (key, v) (members b) -> d v = [] -> callable w v = true ->
     exists r, first_text (doc_on w d key) (level_order ts) r /\ snd (DocsFromParent w fuel bases b d) v = match r with Some t => t | None => [] end).
Proof. exact docs_from_parent. Qed.
Print Assumptions C90_docs_from_parent_partial.

(** It is not the first ancestor that defines a documented method of this name: every class has an __init__ from object, whose docstring hides those of further bases. *)
Definition C90_parent_full_statement : Prop := forall w bases ts b d, Forall2 (family w) bases ts -> fresh_members w (members b) -> exists n, forall fuel, n <= fuel ->
  forall key v, In (key, v) (members b) -> d v = [] -> callable w v = true ->
  exists r, first_text (fun c t => t <> [] /\ exists o, own w c key = Some o /\ d o = t) (level_order ts) r /\
    snd (DocsFromParent w fuel bases b d) v = match r with Some t => t | None => [] end.
Theorem C90_parent_full_statement_refuted : ~ C90_parent_full_statement.
Proof. exact own_refuted. Qed.
Print Assumptions C90_parent_full_statement_refuted.

(** CopyDocsFrom is to copy the documentation for the respective methods; it stops after the first one. *)
Definition C90_copy_full_statement : Prop := forall w target b d key v t, fresh_members w (members b) -> In (key, v) (members b) -> d v = [] -> callable w v = true ->
  doc_on w d key target t -> snd (CopyDocsFrom w target b d) v = t.
Theorem C90_copy_full_statement_refuted : ~ C90_copy_full_statement.
Proof. exact copy_refuted. Qed.
Print Assumptions C90_copy_full_statement_refuted.
Theorem C90_copy_partial : forall w target b d before key v after t, members b = before ++ (key, v) :: after ->
  (forall k x s, In (k, x) before -> d x = [] -> callable w x = true -> ~ doc_on w d k target s) ->
  d v = [] -> callable w v = true -> doc_on w d key target t ->
  snd (CopyDocsFrom w target b d) v = t /\ forall o, o <> v -> snd (CopyDocsFrom w target b d) o = d o.
Proof.
  intros w target b d before key v after t M N D C O. unfold CopyDocsFrom. cbn [snd]. rewrite M, (copy_loop_first w target before d key v after t N D C O).
  split; [apply set_doc_eq|intros o; apply set_doc_neq].
Qed.
Print Assumptions C90_copy_partial.
Theorem C90_copy_nothing : forall w target b d, (forall key v t, In (key, v) (members b) -> d v = [] -> callable w v = true -> ~ doc_on w d key target t) ->
  snd (CopyDocsFrom w target b d) = d.
Proof. intros w target b d. exact (copy_loop_none w target (members b) d). Qed.
Print Assumptions C90_copy_nothing.
Theorem C90_copy_class_doc : forall w target b d, fst (CopyDocsFrom w target b d) =
  match body_doc b with Some t => Some t | None => match cdoc w target with [] => None | t => Some t end end.
Proof. intros w target b d. cbn. destruct (body_doc b); auto. destruct (cdoc w target); auto. Qed.
Print Assumptions C90_copy_class_doc.

(** metaclass_maker: in any run of calls, a metaclass that is given back inherits from all the metaclasses of the bases and all the extra ones, so that no conflict can
    arise; and calls with the same bases give the same metaclass. *)
Theorem C90_no_conflict : forall mro type_cls typ make fuel calls, inheritance mro -> creates mro make -> (forall c, In type_cls (mro (typ c))) ->
  let rs := fst (maker_run fuel mro type_cls typ make [] calls) in
  length rs = length calls /\
  (forall i bases l r m, nth_error calls i = Some (bases, l, r) -> nth_error rs i = Some (Ok m) -> (forall x, In x (l ++ r) -> In type_cls (mro x)) ->
     forall x, In x (l ++ map typ bases ++ r) -> In x (mro m)) /\
  (forall i j bases l r m m', nth_error calls i = Some (bases, l, r) -> nth_error calls j = Some (bases, l, r) ->
     nth_error rs i = Some (Ok m) -> nth_error rs j = Some (Ok m') -> m = m').
Proof. exact no_conflict. Qed.
Print Assumptions C90_no_conflict.

(** The metaclasses it combines are those, each once and in the order given, that are not type and that no other one of them inherits from; all others are covered by them. *)
Theorem C90_needed : forall mro type_cls metas, inheritance mro ->
  NoDup (remove_redundant mro type_cls metas) /\
  (forall m, In m (remove_redundant mro type_cls metas) <-> In m metas /\ m <> type_cls /\ forall x, In x metas -> In m (mro x) -> m = x) /\
  (forall l1 a l2 b l3, remove_redundant mro type_cls metas = l1 ++ a :: l2 ++ b :: l3 -> exists p q, metas = p ++ a :: q /\ ~ In a p /\ ~ In b p) /\
  ((forall m, In m metas -> In type_cls (mro m)) -> forall m, In m metas -> m = type_cls \/ exists r, In r (remove_redundant mro type_cls metas) /\ In m (mro r)).
Proof.
  intros mro ty metas inh. split; [apply skip_NoDup|]. split; [intros m; apply redundant_In; auto|]. split; [intros l1 a l2 b l3; apply skip_order|].
  intros MT. apply covered; auto.
Qed.
Print Assumptions C90_needed.

(** wrap_with: the class gets the same names in the same order; each member that is not marked and that the selector takes is wrapped once, the others are as they were. *)
Theorem C90_wrap_with : forall K V (callables properties : V -> res V) sel_c sel_p (dct : list (K * member V)) r,
  wrap_loop callables properties sel_c sel_p dct = Ok r ->
  Forall2 (fun (a : K * member V) (b : K * V) => fst a = fst b /\ match marked (snd a), mkind (snd a) with
     | false, KCallable => (sel_c (mval (snd a)) = Ok true /\ callables (mval (snd a)) = Ok (snd b)) \/ (sel_c (mval (snd a)) = Ok false /\ snd b = mval (snd a))
     | false, KProperty => (sel_p (mval (snd a)) = Ok true /\ properties (mval (snd a)) = Ok (snd b)) \/ (sel_p (mval (snd a)) = Ok false /\ snd b = mval (snd a))
     | _, _ => snd b = mval (snd a) end) dct r.
Proof. exact wrap_loop_ok. Qed.
Print Assumptions C90_wrap_with.

(** A property that cannot be set should not become one that can: wrap_property wraps the absent setter as well. *)
Definition C90_property_full_statement : Prop := forall (F : Type) (getter setter deleter : option F -> option F) p, (forall f, setter (Some f) <> None) -> fset p = None -> fset (wrap_property getter setter deleter p) = None.
Theorem C90_property_full_statement_refuted : ~ C90_property_full_statement.
Proof. intros H. specialize (H nat id (fun _ => Some 1) id (Build_prop (Some 1) None None)). cbn in H. discriminate H; auto. discriminate. Qed.
Print Assumptions C90_property_full_statement_refuted.
Theorem C90_property_partial : forall (F : Type) (getter setter deleter : option F -> option F) p,
  fget (wrap_property getter setter deleter p) = getter (fget p) /\ fset (wrap_property getter setter deleter p) = setter (fset p) /\ fdel (wrap_property getter setter deleter p) = deleter (fdel p).
Proof. repeat split. Qed.
Print Assumptions C90_property_partial.

(** Cases. Class 3 has bases 1 and 2; 1 has base 4; member 5 is documented in 4 and (differently) in 2: breadth first gives that of 1, which inherits from 4. *)
Definition a_world := {| bases_of := fun c => match c with 1 => [4] | 2 => [0] | 4 => [0] | _ => [] end;
  mro := fun c => match c with 0 => [0] | 1 => [1; 4; 0] | _ => [c; 0] end;
  own := fun c k => if k =? 5 then match c with 4 => Some 40 | 2 => Some 41 | _ => None end else None;
  cdoc := fun c => match c with 2 => [8] | _ => [] end; callable := fun o => negb (o =? 33); object_cls := 0 |}.
Definition a_docs (o : nat) : text := match o with 40 => [4] | 41 => [2] | _ => [] end.
Example C90_case_family : Forall2 (family a_world) [1; 2] [Node 1 [Node 4 []]; Node 2 []].
Proof. repeat (constructor; cbn). Qed.
Example C90_case_parent : let r := DocsFromParent a_world 9 [1; 2] {| body_doc := None; members := [(5, 30); (6, 31); (5, 33)] |} a_docs in
  fst r = Some [8] /\ map (snd r) [30; 31; 33; 40] = [[4]; []; []; [4]].
Proof. split; reflexivity. Qed.
Example C90_case_fresh : fresh_members a_world [(5, 30); (6, 31)].
Proof. split; [repeat constructor; cbn; intuition discriminate|]. intros c k o. cbn. destruct (k =? 5); [|discriminate]. destruct c as [|[|[|[|[|c]]]]]; intros E; inversion E; cbn; intuition discriminate. Qed.
Example C90_case_copy : map (snd (CopyDocsFrom a_world 2 {| body_doc := None; members := [(6, 31); (5, 30); (5, 32)] |} a_docs)) [31; 30; 32] = [[]; [2]; []].
Proof. reflexivity. Qed.
(** type is 1, MetaA is 2, MetaB is 3, MetaAB is 4 (made), A is 12, B is 13. *)
Definition a_mro (c : nat) : list nat := match c with 0 => [0] | 1 => [1; 0] | 2 => [2; 1; 0] | 3 => [3; 1; 0] | 4 => [4; 2; 3; 1; 0] | S _ => [c] end.
Definition a_typ (c : nat) : nat := match c with 12 => 2 | 13 => 3 | _ => 1 end.
Definition a_make (meta : nat) (bases : list nat) : res nat := match bases with [2; 3] => Ok 4 | _ => Err TypeError end.
Example C90_case_inheritance : inheritance a_mro /\ creates a_mro a_make /\ forall c, In 1 (a_mro (a_typ c)).
Proof.
  assert (X : forall a b, In b (a_mro a) -> a = b \/ (a = 1 /\ b = 0) \/ (a = 2 /\ (b = 1 \/ b = 0)) \/ (a = 3 /\ (b = 1 \/ b = 0)) \/ (a = 4 /\ (b = 2 \/ b = 3 \/ b = 1 \/ b = 0))).
  { intros a b. destruct a as [|[|[|[|[|a]]]]]; cbn; intuition auto. }
  split; [|split].
  - split.
    + intros [|[|[|[|[|c]]]]]; eexists; reflexivity.
    + intros [|[|[|[|[|c]]]]]; repeat constructor; cbn; intuition discriminate.
    + intros a b c H1 H2. apply X in H1. apply X in H2. destruct H1 as [->|H1].
      { destruct H2 as [->|H2]; [destruct c as [|[|[|[|[|c]]]]]; cbn; auto|]. intuition subst; cbn; auto 7. }
      destruct H2 as [->|H2]; intuition subst; cbn; auto 7; discriminate.
    + intros a b H1 H2. apply X in H1. apply X in H2. intuition congruence.
  - intros meta bases c E b I. unfold a_make in E. destruct bases as [|[|[|[|x]]] [|[|[|[|[|y]]]] [|z bs]]]; try discriminate. injection E as <-. cbn in *. intuition.
  - intros c. unfold a_typ. do 14 (destruct c as [|c]; [cbn; auto|]). cbn; auto.
Qed.
Example C90_case_run : fst (maker_run 5 a_mro 1 a_typ a_make [] [([12; 13], [], []); ([12; 9], [], []); ([12; 13], [], []); ([9], [], [3])]) = [Ok 4; Ok 2; Ok 4; Ok 3].
Proof. reflexivity. Qed.
Example C90_case_wrap : wrap_loop (fun v => Ok (v * 2)) (fun v => Ok (v + 1)) (fun v => Ok (negb (v =? 6))) (fun _ => Ok true)
  [(1, {| mval := 4; mkind := KCallable; marked := false |}); (2, {| mval := 5; mkind := KCallable; marked := true |}); (3, {| mval := 6; mkind := KCallable; marked := false |}); (4, {| mval := 7; mkind := KProperty; marked := false |})]
  = Ok [(1, 8); (2, 5); (3, 6); (4, 8)].
Proof. reflexivity. Qed.
