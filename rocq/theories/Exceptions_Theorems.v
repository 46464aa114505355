(** C97: custom exceptions: how they are written, and which classes they belong to. *)
From Coq Require Import List Bool Arith ZArith Lia.
From Verif Require Import Prelude Exceptions_Model Exceptions_Spec Exceptions_Proofs.
Import ListNotations.
Open Scope nat_scope.

(** repr() is the call that makes the exception, if there are positional arguments or no named ones. *)
Theorem C97_repr_partial : forall x args kwargs, x_args x = map Ok args -> x_kwargs x = Some (map (fun kv => (fst kv, Ok (snd kv))) kwargs) ->
  args <> [] \/ kwargs = [] ->
  exists name t, exception_repr x = Ok t /\ full_name x name /\ call_syntax name args kwargs t.
Proof.
  intros x args kwargs A K H. exists (name_of x). destruct kwargs as [|kv kwargs].
  - eexists. split; [apply (repr_plain x args A); now right|]. split; [apply name_of_full|]. exists (join comma args). cbn [map]. rewrite app_nil_r. split; [apply join_cs|reflexivity].
  - destruct H as [H|H]; [|discriminate]. eexists. split; [apply (repr_kwargs x args (kv :: kwargs) A K); discriminate|]. split; [apply name_of_full|].
    eexists. split; [apply join_cs|]. rewrite join_app; [|exact H|discriminate]. now rewrite <- !app_assoc.
Qed.
Print Assumptions C97_repr_partial.
(** With named arguments only, a comma comes before the first of them, so that the text is not such a call. *)
Theorem C97_repr_named_only : forall x kwargs, x_args x = [] -> x_kwargs x = Some (map (fun kv => (fst kv, Ok (snd kv))) kwargs) -> kwargs <> [] ->
  exists name inside, full_name x name /\ comma_separated (map (fun kv => fst kv ++ [61] ++ snd kv) kwargs) inside /\
    exception_repr x = Ok (name ++ [40] ++ [44; 32] ++ inside ++ [41]).
Proof.
  intros x kwargs A K N. exists (name_of x), (join comma (map (fun kv => fst kv ++ [61] ++ snd kv) kwargs)). split; [apply name_of_full|]. split; [apply join_cs|].
  now rewrite (repr_kwargs x [] kwargs A K N).
Qed.
Print Assumptions C97_repr_named_only.
Definition C97_repr_full_statement : Prop := forall x args kwargs, x_args x = map Ok args -> x_kwargs x = Some (map (fun kv => (fst kv, Ok (snd kv))) kwargs) ->
  exists name t, exception_repr x = Ok t /\ full_name x name /\ call_syntax name args kwargs t.
Theorem C97_repr_full_statement_refuted : ~ C97_repr_full_statement.
Proof.
  intro H. destruct (H {| x_module := [109]; x_qualname := [69]; x_args := []; x_kwargs := Some [([97], Ok [49])] |} [] [([97], [49])] eq_refl eq_refl) as (name & t & R & F & (inside & C & T)).
  vm_compute in R. injection R as <-. destruct F as [(M & _)|(_ & ->)]; [discriminate|]. cbn in T, C. inversion C; subst. discriminate.
Qed.
Print Assumptions C97_repr_full_statement_refuted.
(** str() has the last part of the class's name and the positional arguments ... *)
Theorem C97_str_partial : forall x args, x_args x = map Ok args -> x_kwargs x = Some [] ->
  exists name t, exception_str x = Ok t /\ short_name (x_qualname x) name /\ call_syntax name args [] t.
Proof.
  intros x args A K. exists (after_last_dot (x_qualname x)). eexists. split; [apply (str_plain x args A); now right|]. split; [apply last_short|].
  exists (join comma args). cbn [map]. rewrite app_nil_r. split; [apply join_cs|reflexivity].
Qed.
Print Assumptions C97_str_partial.
(** ... and raises TypeError for every exception that was given a named one. *)
Theorem C97_str_refuted : forall x args kw kwargs, x_args x = map Ok args -> x_kwargs x = Some (kw :: kwargs) -> exception_str x = Err TypeError.
Proof. intros x args kw kwargs A K. unfold exception_str. rewrite A, gather_map. cbn [res_bind]. now rewrite K. Qed.
Print Assumptions C97_str_refuted.
(** A class that overrides __init__ and never sets kwargs can be written all the same. *)
Theorem C97_without_kwargs : forall x args, x_args x = map Ok args -> x_kwargs x = None ->
  (exists name t, exception_repr x = Ok t /\ full_name x name /\ call_syntax name args [] t) /\
  (exists name t, exception_str x = Ok t /\ short_name (x_qualname x) name /\ call_syntax name args [] t).
Proof.
  intros x args A K. split.
  - exists (name_of x). eexists. split; [apply (repr_plain x args A); now left|]. split; [apply name_of_full|]. exists (join comma args). cbn [map]. rewrite app_nil_r. split; [apply join_cs|reflexivity].
  - exists (after_last_dot (x_qualname x)). eexists. split; [apply (str_plain x args A); now left|]. split; [apply last_short|].
    exists (join comma args). cbn [map]. rewrite app_nil_r. split; [apply join_cs|reflexivity].
Qed.
Print Assumptions C97_without_kwargs.
(** Named arguments are left out silently if the repr of one of them raises AttributeError. *)
Theorem C97_attribute_error : forall x args before k after, x_args x = map Ok args ->
  x_kwargs x = Some (map (fun kv => (fst kv, Ok (snd kv))) before ++ (k, Err AttributeError) :: after) ->
  exists name t, exception_repr x = Ok t /\ full_name x name /\ call_syntax name args [] t.
Proof.
  intros x args before k after A K. exists (name_of x), (name_of x ++ opening ++ join comma args ++ closing).
  split; [|split; [apply name_of_full|exists (join comma args); cbn [map]; rewrite app_nil_r; split; [apply join_cs|reflexivity]]].
  unfold exception_repr, name_of. rewrite A, gather_map. cbn [res_bind]. rewrite K.
  assert (G : gather (map (fun kv : text * res text => res_bind (snd kv) (fun r => Ok (fst kv ++ equals ++ r))) (map (fun kv : text * text => (fst kv, Ok (snd kv))) before ++ (k, Err AttributeError) :: after)) = Err AttributeError).
  { clear. induction before as [|kv before IH]; [reflexivity|]. cbn [map app gather fst snd res_bind]. now rewrite IH. }
  revert G. generalize (map (fun kv : text * text => (fst kv, @Ok text (snd kv))) before ++ (k, Err AttributeError) :: after). intros [|kw kws] G; [discriminate|].
  match goal with |- context [gather ?g] => replace (gather g) with (@Err (list text) AttributeError) by (symmetry; exact G) end. now rewrite <- !app_assoc.
Qed.
Print Assumptions C97_attribute_error.
(** These texts are determined: the specification allows one only. *)
Theorem C97_specification_exact : forall x n1 n2 m1 m2 args kwargs t1 t2 s1 s2,
  (full_name x n1 -> full_name x n2 -> call_syntax n1 args kwargs t1 -> call_syntax n2 args kwargs t2 -> t1 = t2) /\
  (short_name (x_qualname x) m1 -> short_name (x_qualname x) m2 -> call_syntax m1 args kwargs s1 -> call_syntax m2 args kwargs s2 -> s1 = s2).
Proof.
  intros x n1 n2 m1 m2 args kwargs t1 t2 s1 s2. split.
  - intros F1 F2 (i1 & C1 & ->) (i2 & C2 & ->). assert (n1 = n2) by (destruct F1 as [(A & ->)|(A & ->)], F2 as [(B & ->)|(B & ->)]; congruence). subst. now rewrite (comma_fun _ _ _ C1 C2).
  - intros F1 F2 (i1 & C1 & ->) (i2 & C2 & ->). rewrite (short_unique _ _ _ F1 F2). now rewrite (comma_fun _ _ _ C1 C2).
Qed.
Print Assumptions C97_specification_exact.

(** ** isinstance *)
(** The check ends, whatever the classes. *)
Theorem C97_ends : forall mro c i, instance_check mro c i <> None.
Proof. intros mro c i. destruct (check_ends mro c i) as (b & ->). discriminate. Qed.
Print Assumptions C97_ends.
(** Instances of subclasses are instances; others are so only if both have a code, and it is the same. *)
Theorem C97_needs_code : forall mro c i,
  (In c (mro (i_class i)) -> instance_check mro c i = Some true) /\
  (instance_check mro c i = Some true ->
     (exists d, In d (mro (i_class i)) /\ number d = number c) \/
     (number c <> 0 /\ exists k, code_of_class (mro c) k /\ code_of_instance i (mro (i_class i)) k)).
Proof.
  intros mro c i. split.
  - intro I. apply check_sub. apply has_number_In. eauto.
  - intro H. destruct (check_codes mro c i H) as [A|A]; [left|now right]. now apply has_number_In in A.
Qed.
Print Assumptions C97_needs_code.
(** With single inheritance: an instance of a subclass, or one with the class's code in the same hierarchy, and no other. *)
Theorem C97_isinstance_partial : forall mro c i l li, lineage c l -> lineage (i_class i) li -> mro c = l -> mro (i_class i) = li -> identified (l ++ li) ->
  (instance_check mro c i = Some true <->
   In c li \/ (number c <> 0 /\ exists r k, hierarchy l r /\ hierarchy li r /\ code_of_class l k /\ code_of_instance i li k)).
Proof. exact check_single. Qed.
Print Assumptions C97_isinstance_partial.
(** The code given to the constructor, and the one set later, is the instance's code. *)
Theorem C97_codes : forall c k i l, code_of_instance (coded_init c (Some k)) l (Some k) /\ code_of_instance (set_code i (Some k)) l (Some k) /\
  (forall k', code_of_instance (coded_init c None) l k' <-> inherited_code l k') /\ i_class (coded_init c (Some k)) = c /\ i_class (coded_init c None) = c /\ i_class (set_code i (Some k)) = i_class i.
Proof. intros c k i l. repeat split; try (now left). - intros [A|(_ & A)]; [discriminate|exact A]. - intro A. right. auto. Qed.
Print Assumptions C97_codes.

(** The classes of the documentation; 1 to 4 are CustomException, Exception, BaseException and object. *)
Definition object_ := Cls 4 None [].
Definition coded_custom := Cls 0 None [Cls 1 None [Cls 2 None [Cls 3 None [object_]]]].
Definition my_custom := Cls 10 (Some (Some 5%Z)) [coded_custom].
Definition my_exception := Cls 11 None [coded_custom].
Definition my_code5 := Cls 12 (Some (Some 5%Z)) [my_exception].
Definition different := Cls 13 None [coded_custom].
Definition my_code5_diff := Cls 14 (Some (Some 5%Z)) [different].
Fixpoint chain (c : cls) : list cls := match c with Cls n k b => Cls n k b :: match b with x :: _ => chain x | [] => [] end end.
(** The first example is false: what is documented as isinstance(a, MyCustomError) is not. *)
Theorem C97_documented_refuted : instance_check chain my_custom (set_code (coded_init coded_custom None) (Some 5%Z)) = Some false.
Proof. reflexivity. Qed.
Print Assumptions C97_documented_refuted.
(** In fact no direct instance of CodedCustomException is an instance of a class below it, whatever its code. *)
Theorem C97_bare_refuted : forall mro c i l li, lineage c l -> lineage (i_class i) li -> mro c = l -> mro (i_class i) = li -> identified (l ++ li) ->
  number (i_class i) = 0 -> number c <> 0 -> ~ In c li -> instance_check mro c i = Some false.
Proof.
  intros mro c i l li L Li M Mi D N0 Nc NI. destruct (check_ends mro c i) as ([|] & E); [exfalso|exact E].
  apply (check_single mro c i l li L Li M Mi D) in E as [E|(_ & r & k & _ & (I & b & B & N) & _)]; [now apply NI|].
  assert (Dli : identified li) by (intros x y X Y; apply D; apply in_app_iff; now right).
  destruct (lineage_head _ _ Li) as (l0 & E0). assert (I0 : In (i_class i) li) by (rewrite E0; now left).
  assert (Ib : In b li) by exact (lineage_base _ _ Li r b I B). assert (b = i_class i) by (apply Dli; [exact Ib|exact I0|congruence]). subst b.
  assert (H : height r <= height (i_class i)).
  { clear - Li I. revert r I. induction Li; intros r [<-|I]; try easy; try lia. apply IHLi in I. cbn [height map]. unfold list_max; cbn. lia. }
  destruct r as [n k' bs]. cbn in B. subst bs. cbn [height map] in H. unfold list_max in H. cbn in H. lia.
Qed.
Print Assumptions C97_bare_refuted.
(** The second example is true. *)
Theorem C97_other_hierarchy : instance_check chain my_code5_diff (set_code (coded_init my_exception None) (Some 5%Z)) = Some false /\
  instance_check chain my_code5 (set_code (coded_init my_exception None) (Some 5%Z)) = Some true.
Proof. split; reflexivity. Qed.
Print Assumptions C97_other_hierarchy.
(** With multiple inheritance a common mix-in joins hierarchies that have nothing to do with each other. *)
Definition C97_hierarchy_full_statement : Prop := forall mro c i, instance_check mro c i = Some true ->
  (exists d, In d (mro (i_class i)) /\ number d = number c) \/
  exists r, In r (mro c) /\ In r (mro (i_class i)) /\ exists b, In b (bases r) /\ number b = 0.
Definition mixin := Cls 20 None [object_].
Definition left_ := Cls 21 None [Cls 22 None [coded_custom]; mixin].
Definition right_ := Cls 23 (Some (Some 5%Z)) [Cls 24 None [coded_custom]; mixin].
(** their method resolution orders *)
Definition mro_of (c : cls) : list cls := match c with Cls n k [a; b] => Cls n k [a; b] :: a :: coded_custom :: tl (chain coded_custom) ++ [mixin; object_] | _ => chain c end.
Theorem C97_hierarchy_full_statement_refuted : ~ C97_hierarchy_full_statement.
Proof.
  intro H. destruct (H mro_of right_ (set_code (coded_init left_ None) (Some 5%Z)) eq_refl) as [(d & I & E)|(r & A & B & b & Ib & Eb)].
  - cbn in I. repeat (destruct I as [I|I]; [subst d; discriminate E|]). exact I.
  - assert (N : number r = 23 \/ number r = 24).
    { cbn in A. repeat (destruct A as [A|A]; [subst r; first [now left|now right|exfalso; cbn in Ib; repeat (destruct Ib as [Ib|Ib]; [subst b; discriminate Eb|]); exact Ib]|]). destruct A. }
    cbn in B. repeat (destruct B as [B|B]; [subst r; cbn in N; lia|]). exact B.
Qed.
Print Assumptions C97_hierarchy_full_statement_refuted.

(** The hypotheses of C97_isinstance_partial for the classes above *)
Example C97_case : lineage my_code5 (chain my_code5) /\ lineage my_exception (chain my_exception) /\ identified (chain my_code5 ++ chain my_exception) /\
  hierarchy (chain my_code5) my_exception /\ hierarchy (chain my_exception) my_exception /\
  code_of_class (chain my_code5) (Some 5%Z) /\ code_of_instance (set_code (coded_init my_exception None) (Some 5%Z)) (chain my_exception) (Some 5%Z).
Proof.
  split; [repeat constructor|]. split; [repeat constructor|]. split.
  { intros a b A B E. cbn in A, B. repeat (destruct A as [<-|A]; [repeat (destruct B as [<-|B]; [first [discriminate E|reflexivity]|]); destruct B|]). destruct A. }
  split; [split; [cbn; auto|exists coded_custom; auto]|]. split; [split; [cbn; auto|exists coded_custom; auto]|].
  split; [left; now apply ic_here|now left].
Qed.
Example C97_case_texts :
  exception_repr {| x_module := [109]; x_qualname := [79; 46; 69]; x_args := [Ok [49]; Ok [50]]; x_kwargs := Some [([97], Ok [51])] |} = Ok [109; 46; 79; 46; 69; 40; 49; 44; 32; 50; 44; 32; 97; 61; 51; 41] /\
  exception_str {| x_module := [109]; x_qualname := [79; 46; 69]; x_args := [Ok [49]; Ok [50]]; x_kwargs := Some [] |} = Ok [69; 40; 49; 44; 32; 50; 41].
Proof. split; reflexivity. Qed.
