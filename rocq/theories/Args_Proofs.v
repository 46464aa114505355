(* C69: proofs about get_arguments, call_with_arguments and binding. *)
From Coq Require Import List Bool Arith ZArith String Lia.
From Verif Require Import Prelude PreludeFacts Args_Model Args_Spec.
Import ListNotations.
Local Open Scope nat_scope.
Local Open Scope list_scope.

Notation len := List.length.

Lemma sok : eqb_ok String.eqb.
Proof. intros a b. apply String.eqb_eq. Qed.

Lemma get_set_eq d n v : get (set d n v) n = Some v.
Proof. apply (dget_dset_eq sok). Qed.
Lemma get_set_neq d n m v : m <> n -> get (set d n v) m = get d m.
Proof. apply (dget_dset_neq sok). Qed.
Lemma get_del_eq d n : dwf d -> get (del d n) n = None.
Proof. apply (dget_ddel_eq sok). Qed.
Lemma get_del_neq d n m : m <> n -> get (del d n) m = get d m.
Proof. apply (dget_ddel_neq sok). Qed.
Lemma get_None d n : get d n = None <-> ~ In n (dkeys d).
Proof. apply (dget_None sok). Qed.
Lemma has_get d n : has d n = match get d n with Some _ => true | None => false end.
Proof. reflexivity. Qed.

Lemma nodup_app_l {A} (l m : list A) : NoDup (l ++ m) -> NoDup l.
Proof.
  induction l as [|a l IH]; simpl; intros N; [constructor|].
  inversion N as [|x y X Y]; subst. constructor; auto. intros C. apply X. apply in_or_app; auto.
Qed.
Lemma nodup_app_r {A} (l m : list A) : NoDup (l ++ m) -> NoDup m.
Proof. induction l as [|a l IH]; simpl; intros N; auto. inversion N; auto. Qed.
Lemma nodup_app_disj {A} (l m : list A) x : NoDup (l ++ m) -> In x l -> ~ In x m.
Proof.
  induction l as [|a l IH]; simpl; intros N I; [tauto|]. inversion N as [|y z Y Z]; subst.
  destruct I as [I|I]; auto. subst. intros C. apply Y. apply in_or_app; auto.
Qed.

(* ---- the shape of a writable signature ---- *)
Definition positional (p : param) : Prop := p_kind p = PosOnly \/ p_kind p = PosOrKw.

Definition star_list (k : kind) (l : list param) : Prop :=
  l = [] \/ exists p, l = [p] /\ p_kind p = k /\ p_default p = None.

Record shaped (s po pk vp ko vk : list param) : Prop := {
  sh_eq : s = (po ++ pk) ++ vp ++ ko ++ vk;
  sh_nodup : NoDup (map p_name s);
  sh_po : Forall (fun p => p_kind p = PosOnly) po;
  sh_pk : Forall (fun p => p_kind p = PosOrKw) pk;
  sh_vp : star_list VarPos vp;
  sh_ko : Forall (fun p => p_kind p = KwOnly) ko;
  sh_vk : star_list VarKw vk
}.

Lemma writable_tail p s : writable (p :: s) -> writable s.
Proof.
  intros [N O V K D]. split.
  - simpl in N. inversion N; auto.
  - intros i j a b L A B. apply (O (S i) (S j)); auto. lia.
  - intros i j a b A B Ka Kb. apply (V (S i) (S j) a b) in A; auto.
  - intros i j a b A B Ka Kb. apply (K (S i) (S j) a b) in A; auto.
  - intros a I. apply D. right; auto.
Qed.

Lemma writable_head p s q : writable (p :: s) -> In q s -> rank (p_kind p) <= rank (p_kind q).
Proof.
  intros W I. apply In_nth_error in I. destruct I as [j J].
  apply (wr_order W) with (i := 0) (j := S j); auto. lia.
Qed.

Ltac kinds := repeat match goal with
  | H : p_kind ?p = _, G : context [p_kind ?p] |- _ => rewrite H in G
  | H : p_kind ?p = _ |- context [p_kind ?p] => rewrite H
  end.

Lemma head_above (l : list param) r p s : forall k,
  writable (p :: s) -> s = l ++ r -> Forall (fun q => p_kind q = k) l ->
  rank k < rank (p_kind p) -> l = [].
Proof.
  intros k W E F L. destruct l as [|q l]; auto. exfalso.
  assert (I: In q s) by (subst; simpl; auto).
  pose proof (writable_head _ _ _ W I) as H. inversion F; subst. kinds. lia.
Qed.

Lemma star_above k l r1 r2 p s :
  writable (p :: s) -> s = r1 ++ l ++ r2 -> star_list k l -> rank k < rank (p_kind p) -> l = [].
Proof.
  intros W E [F|[q [F [K _]]]] L; auto. exfalso.
  assert (I: In q s) by (subst; apply in_or_app; right; apply in_or_app; left; simpl; auto).
  pose proof (writable_head _ _ _ W I) as H. kinds. lia.
Qed.

Lemma writable_shaped : forall s, writable s -> exists po pk vp ko vk, shaped s po pk vp ko vk.
Proof.
  induction s as [|p s IH]; intros W.
  - exists [], [], [], [], []. split; simpl; auto; try (left; auto); constructor.
  - destruct (IH (writable_tail _ _ W)) as [po [pk [vp [ko [vk [E N A B C D F]]]]]].
    pose proof (wr_names W) as ND.
    destruct (p_kind p) eqn:K.
    + exists (p :: po), pk, vp, ko, vk. split; auto. simpl. congruence.
    + assert (po = []).
      { apply (head_above po (pk ++ vp ++ ko ++ vk) p s PosOnly); auto.
        - rewrite E, <- app_assoc; auto.
        - rewrite K; simpl; lia. }
      subst po. exists [], (p :: pk), vp, ko, vk. split; auto. simpl in *. congruence.
    + assert (po = []).
      { apply (head_above po (pk ++ vp ++ ko ++ vk) p s PosOnly); auto.
        - rewrite E, <- app_assoc; auto.
        - rewrite K; simpl; lia. }
      subst po. assert (pk = []).
      { apply (head_above pk (vp ++ ko ++ vk) p s PosOrKw); auto. rewrite K; simpl; lia. }
      subst pk. assert (vp = []).
      { destruct C as [C|[q [C [Kq _]]]]; auto. exfalso.
        subst vp. simpl in E. subst s.
        assert (0 = 1) by (eapply (wr_one_varpos W); simpl; eauto). lia. }
      subst vp. exists [], [], [p], ko, vk. split; auto; try (simpl in *; congruence).
      right. exists p. repeat split; auto. apply (wr_star_no_default W); simpl; auto.
    + assert (po = []).
      { apply (head_above po (pk ++ vp ++ ko ++ vk) p s PosOnly); auto.
        - rewrite E, <- app_assoc; auto.
        - rewrite K; simpl; lia. }
      subst po. assert (pk = []).
      { apply (head_above pk (vp ++ ko ++ vk) p s PosOrKw); auto. rewrite K; simpl; lia. }
      subst pk. assert (vp = []).
      { apply (star_above VarPos vp [] (ko ++ vk) p s); auto. rewrite K; simpl; lia. }
      subst vp. exists [], [], [], (p :: ko), vk. split; auto; try (simpl in *; congruence); try (left; auto; fail).
    + assert (po = []).
      { apply (head_above po (pk ++ vp ++ ko ++ vk) p s PosOnly); auto.
        - rewrite E, <- app_assoc; auto.
        - rewrite K; simpl; lia. }
      subst po. assert (pk = []).
      { apply (head_above pk (vp ++ ko ++ vk) p s PosOrKw); auto. rewrite K; simpl; lia. }
      subst pk. assert (vp = []).
      { apply (star_above VarPos vp [] (ko ++ vk) p s); auto. rewrite K; simpl; lia. }
      subst vp. assert (ko = []).
      { apply (head_above ko vk p s KwOnly); auto. rewrite K; simpl; lia. }
      subst ko. assert (vk = []).
      { destruct F as [C'|[q [C' [Kq _]]]]; auto. exfalso.
        subst vk. simpl in E. subst s.
        assert (0 = 1) by (eapply (wr_one_varkw W); simpl; eauto). lia. }
      subst vk. exists [], [], [], [], [p]. split; auto; try (simpl in *; congruence); try (left; auto; fail).
      right. exists p. repeat split; auto. apply (wr_star_no_default W); simpl; auto.
Qed.

(* ---- filters on a shaped signature ---- *)
Lemma filter_all {A} (f : A -> bool) l : (forall x, In x l -> f x = true) -> filter f l = l.
Proof.
  induction l as [|a l IH]; intros H; simpl; auto.
  rewrite H by (simpl; auto). f_equal. apply IH. intros x I. apply H. right; auto.
Qed.
Lemma filter_nil {A} (f : A -> bool) l : (forall x, In x l -> f x = false) -> filter f l = [].
Proof.
  induction l as [|a l IH]; intros H; simpl; auto.
  rewrite H by (simpl; auto). apply IH. intros x I. apply H. right; auto.
Qed.

Lemma star_kind k l p : star_list k l -> In p l -> p_kind p = k.
Proof. intros [E|[q [E [K _]]]] I; subst; simpl in I; intuition; subst; auto. Qed.
Lemma star_nodef k l p : star_list k l -> In p l -> p_default p = None.
Proof. intros [E|[q [E [K D]]]] I; subst; simpl in I; intuition; subst; auto. Qed.

Section Shaped.
  Variables s po pk vp ko vk : list param.
  Hypothesis SH : shaped s po pk vp ko vk.
  Let ps := po ++ pk.

  Lemma sh_s : s = ps ++ vp ++ ko ++ vk.
  Proof. apply (sh_eq _ _ _ _ _ _ SH). Qed.

  Lemma po_kind p : In p po -> p_kind p = PosOnly.
  Proof. pose proof (sh_po _ _ _ _ _ _ SH) as F. rewrite Forall_forall in F. apply F. Qed.
  Lemma pk_kind p : In p pk -> p_kind p = PosOrKw.
  Proof. pose proof (sh_pk _ _ _ _ _ _ SH) as F. rewrite Forall_forall in F. apply F. Qed.
  Lemma ko_kind p : In p ko -> p_kind p = KwOnly.
  Proof. pose proof (sh_ko _ _ _ _ _ _ SH) as F. rewrite Forall_forall in F. apply F. Qed.
  Lemma vp_kind p : In p vp -> p_kind p = VarPos.
  Proof. apply star_kind. apply (sh_vp _ _ _ _ _ _ SH). Qed.
  Lemma vk_kind p : In p vk -> p_kind p = VarKw.
  Proof. apply star_kind. apply (sh_vk _ _ _ _ _ _ SH). Qed.
  Lemma ps_kind p : In p ps -> positional p.
  Proof.
    intros I. apply in_app_or in I. destruct I as [I|I].
    - left. apply po_kind; auto.
    - right. apply pk_kind; auto.
  Qed.

  Lemma in_s p : In p s <-> In p po \/ In p pk \/ In p vp \/ In p ko \/ In p vk.
  Proof. rewrite sh_s. unfold ps. rewrite !in_app_iff. tauto. Qed.

  Lemma of_kind p : In p s ->
    match p_kind p with
    | PosOnly => In p po | PosOrKw => In p pk | VarPos => In p vp
    | KwOnly => In p ko | VarKw => In p vk end.
  Proof.
    intros I. apply in_s in I. destruct I as [I|[I|[I|[I|I]]]].
    - rewrite po_kind; auto.
    - rewrite pk_kind; auto.
    - rewrite vp_kind; auto.
    - rewrite ko_kind; auto.
    - rewrite vk_kind; auto.
  Qed.

  Lemma filter_kinds (f : kind -> bool) :
    filter (fun p => f (p_kind p)) s =
      (if f PosOnly then po else []) ++ (if f PosOrKw then pk else []) ++
      (if f VarPos then vp else []) ++ (if f KwOnly then ko else []) ++
      (if f VarKw then vk else []).
  Proof.
    rewrite sh_s. unfold ps. rewrite !filter_app, <- !app_assoc.
    assert (G: forall l k, (forall p, In p l -> p_kind p = k) ->
              filter (fun p => f (p_kind p)) l = if f k then l else []).
    { intros l k H. destruct (f k) eqn:E.
      - apply filter_all. intros x I. rewrite H; auto.
      - apply filter_nil. intros x I. rewrite H; auto. }
    rewrite (G po PosOnly po_kind), (G pk PosOrKw pk_kind), (G vp VarPos vp_kind),
      (G ko KwOnly ko_kind), (G vk VarKw vk_kind). auto.
  Qed.

  Lemma slots_ps : slots s = len ps.
  Proof.
    unfold slots.
    rewrite (filter_kinds (fun k => match k with PosOnly | PosOrKw => true | _ => false end)).
    simpl. rewrite app_nil_r. auto.
  Qed.
  Lemma filter_position : filter fills_by_position s = ps.
  Proof.
    unfold fills_by_position.
    rewrite (filter_kinds (fun k => match k with PosOnly | PosOrKw => true | _ => false end)).
    simpl. rewrite app_nil_r. auto.
  Qed.
  Lemma filter_name : filter fills_by_name s = pk ++ ko.
  Proof.
    unfold fills_by_name.
    rewrite (filter_kinds (fun k => match k with PosOrKw | KwOnly => true | _ => false end)).
    simpl. rewrite app_nil_r. auto.
  Qed.
  Lemma filter_takes_positional : filter takes_positional s = ps ++ vp.
  Proof.
    unfold takes_positional.
    rewrite (filter_kinds (fun k => match k with PosOnly | PosOrKw | VarPos => true | _ => false end)).
    simpl. rewrite app_nil_r. unfold ps. rewrite <- app_assoc. auto.
  Qed.

  Lemma names_nodup : NoDup (map p_name s).
  Proof. apply (sh_nodup _ _ _ _ _ _ SH). Qed.

  Lemma same_name p q : In p s -> In q s -> p_name p = p_name q -> p = q.
  Proof.
    pose proof names_nodup as N. revert N. generalize s. intros l.
    induction l as [|a l IH]; simpl; intros N P Q E; [tauto|].
    inversion N as [|x y X Y]; subst.
    destruct P as [P|P], Q as [Q|Q]; subst; auto; exfalso; apply X.
    - rewrite E. apply in_map; auto.
    - rewrite <- E. apply in_map; auto.
  Qed.

  Lemma nth_s_inj i j p : nth_error s i = Some p -> nth_error s j = Some p -> i = j.
  Proof.
    intros A B. pose proof names_nodup as N.
    apply (proj1 (NoDup_nth_error (map p_name s)) N).
    - rewrite map_length. apply nth_error_Some. congruence.
    - rewrite !nth_error_map, A, B. auto.
  Qed.

  Lemma nth_ps i p : nth_error s i = Some p -> positional p -> nth_error ps i = Some p.
  Proof.
    intros A P. assert (I: In p ps).
    { pose proof (of_kind p (nth_error_In _ _ A)) as O. unfold ps. apply in_or_app.
      destruct P as [P|P]; rewrite P in O; auto. }
    apply In_nth_error in I. destruct I as [j J].
    assert (nth_error s j = Some p).
    { rewrite sh_s. rewrite nth_error_app1; auto. apply nth_error_Some. congruence. }
    rewrite (nth_s_inj i j p); auto.
  Qed.
  Lemma ps_nth i p : nth_error ps i = Some p -> nth_error s i = Some p.
  Proof.
    intros A. rewrite sh_s. rewrite nth_error_app1; auto. apply nth_error_Some. congruence.
  Qed.
  Lemma ps_nodup : NoDup (map p_name ps).
  Proof.
    pose proof names_nodup as N. rewrite sh_s, map_app in N.
    apply nodup_app_l in N. auto.
  Qed.
End Shaped.

(* ---- the positional loop ---- *)
Lemma gp_keys : forall ps args lv al n,
  In n (dkeys (fst (ga_positionals false ps args lv al))) -> In n (dkeys lv) \/ In n (map p_name ps).
Proof.
  induction ps as [|p ps IH]; simpl; intros args lv al n H; auto.
  assert (G: forall a v al', In n (dkeys (fst (ga_positionals false ps a (set lv (p_name p) v) al'))) ->
             In n (dkeys lv) \/ p_name p = n \/ In n (map p_name ps)).
  { intros a v al' X. apply IH in X. destruct X as [X|X]; auto.
    unfold set in X. apply (dset_In_keys sok) in X. destruct X; auto. }
  destruct (kind_eqb (p_kind p) VarPos && true); eauto.
  destruct args; eauto. destruct (p_default p); simpl in H; eauto.
Qed.

Lemma gp_out ps args lv al n : ~ In n (map p_name ps) ->
  get (fst (ga_positionals false ps args lv al)) n = get lv n.
Proof.
  revert args lv al. induction ps as [|p ps IH]; simpl; intros args lv al H; auto.
  assert (p_name p <> n /\ ~ In n (map p_name ps)) as [H1 H2] by tauto.
  destruct (kind_eqb (p_kind p) VarPos && true).
  - rewrite IH by auto. apply get_set_neq; auto.
  - destruct args.
    + destruct (p_default p); auto. rewrite IH by auto. apply get_set_neq; auto.
    + rewrite IH by auto. apply get_set_neq; auto.
Qed.

Lemma pos_not_star p : positional p -> kind_eqb (p_kind p) VarPos && negb false = false.
Proof. intros [E|E]; rewrite E; auto. Qed.

Lemma gp_given : forall ps vp args lv al i p v,
  (forall p, In p ps -> positional p) -> NoDup (map p_name (ps ++ vp)) ->
  nth_error ps i = Some p -> nth_error args i = Some v ->
  get (fst (ga_positionals false (ps ++ vp) args lv al)) (p_name p) = Some v.
Proof.
  induction ps as [|q ps IH]; intros vp args lv al i p v P N A B; [destruct i; discriminate|].
  cbn [app ga_positionals]. rewrite pos_not_star by (apply P; simpl; auto).
  destruct args as [|a args]; [destruct i; discriminate|].
  simpl in N. inversion N as [|x y X Y]; subst. destruct i as [|i]; simpl in A, B.
  - injection A as <-. injection B as <-. rewrite gp_out by auto. apply get_set_eq.
  - eapply IH; eauto. intros r R. apply P. right; auto.
Qed.

Lemma gp_default : forall ps vp args lv al i p,
  (forall p, In p ps -> positional p) -> NoDup (map p_name (ps ++ vp)) ->
  nth_error ps i = Some p -> len args <= i ->
  (forall j q, len args <= j <= i -> nth_error ps j = Some q -> p_default q <> None) ->
  get (fst (ga_positionals false (ps ++ vp) args lv al)) (p_name p) = p_default p.
Proof.
  induction ps as [|q ps IH]; intros vp args lv al i p P N A L D; [destruct i; discriminate|].
  cbn [app ga_positionals]. rewrite pos_not_star by (apply P; simpl; auto).
  simpl in N. inversion N as [|x y X Y]; subst.
  destruct args as [|a args].
  - destruct (p_default q) as [d|] eqn:E.
    + destruct i as [|i]; simpl in A.
      * injection A as <-. rewrite gp_out by auto. rewrite get_set_eq. auto.
      * eapply IH; eauto; simpl; try lia.
        -- intros r R. apply P. right; auto.
        -- intros j r J R. apply (D (S j) r); simpl; auto; lia.
    + exfalso. apply (D 0 q); simpl; auto; lia.
  - destruct i as [|i]; simpl in A, L; [lia|].
    eapply IH; eauto; simpl; try lia.
    + intros r R. apply P. right; auto.
    + intros j r J R. apply (D (S j) r); simpl; auto; lia.
Qed.

Lemma gp_blocked : forall ps vp args lv al i p,
  (forall p, In p ps -> positional p) -> NoDup (map p_name (ps ++ vp)) ->
  (forall n, In n (map p_name (ps ++ vp)) -> get lv n = None) ->
  nth_error ps i = Some p -> len args <= i ->
  (exists j q, len args <= j <= i /\ nth_error ps j = Some q /\ p_default q = None) ->
  get (fst (ga_positionals false (ps ++ vp) args lv al)) (p_name p) = None.
Proof.
  induction ps as [|q ps IH]; intros vp args lv al i p P N F A L [j [r [J [R D]]]];
    [destruct i; discriminate|].
  cbn [app ga_positionals]. rewrite pos_not_star by (apply P; simpl; auto).
  simpl in N. inversion N as [|x y X Y]; subst.
  destruct args as [|a args].
  - destruct (p_default q) as [d|] eqn:E.
    + destruct j as [|j]; simpl in R; [congruence|].
      destruct i as [|i]; simpl in A, J; [lia|].
      eapply IH; eauto; simpl; try lia.
      * intros r0 R0. apply P. right; auto.
      * intros n I. rewrite get_set_neq; [apply F; simpl; auto|]. intros C; subst; auto.
      * exists j, r. split; [lia|auto].
    + simpl. apply F. apply nth_error_In in A.
      apply (in_map p_name) in A. simpl in A. simpl. rewrite map_app, in_app_iff. tauto.
  - destruct i as [|i]; simpl in A, L, J; [lia|]. destruct j as [|j]; simpl in R; [lia|].
    eapply IH; eauto; simpl; try lia.
    + intros r0 R0. apply P. right; auto.
    + intros n I. rewrite get_set_neq; [apply F; simpl; auto|]. intros C; subst; auto.
    + exists j, r. split; [lia|auto].
Qed.

Lemma gp_star : forall ps p args lv al,
  (forall p, In p ps -> positional p) -> p_kind p = VarPos ->
  (forall j q, len args <= j -> nth_error ps j = Some q -> p_default q <> None) ->
  get (fst (ga_positionals false (ps ++ [p]) args lv al)) (p_name p) =
    Some (Tup (skipn (len ps) args)).
Proof.
  induction ps as [|q ps IH]; intros p args lv al P K D.
  - simpl. rewrite K. simpl. apply get_set_eq.
  - cbn [app ga_positionals]. rewrite pos_not_star by (apply P; simpl; auto).
    destruct args as [|a args].
    + destruct (p_default q) as [d|] eqn:E; [|exfalso; apply (D 0 q); simpl; auto; lia].
      rewrite IH; auto.
      * simpl. rewrite skipn_nil. auto.
      * intros r R. apply P. right; auto.
      * intros j r J R. apply (D (S j) r); simpl; auto; lia.
    + rewrite IH; auto.
      * intros r R. apply P. right; auto.
      * intros j r J R. apply (D (S j) r); simpl; auto; lia.
Qed.

Lemma gp_no_star : forall ps p args lv al,
  (forall p, In p ps -> positional p) -> NoDup (map p_name (ps ++ [p])) ->
  get lv (p_name p) = None ->
  (exists j q, len args <= j /\ nth_error ps j = Some q /\ p_default q = None) ->
  get (fst (ga_positionals false (ps ++ [p]) args lv al)) (p_name p) = None.
Proof.
  induction ps as [|q ps IH]; intros p args lv al P N F [j [r [J [R D]]]].
  - destruct j; discriminate.
  - cbn [app ga_positionals]. rewrite pos_not_star by (apply P; simpl; auto).
    simpl in N. inversion N as [|x y X Y]; subst.
    assert (NE: p_name p <> p_name q).
    { intros C. apply X. rewrite <- C, map_app, in_app_iff. simpl. auto. }
    destruct args as [|a args].
    + destruct (p_default q) as [d|] eqn:E; auto.
      destruct j as [|j]; simpl in R; [congruence|].
      apply IH; auto.
      * intros r0 R0. apply P. right; auto.
      * rewrite get_set_neq; auto.
      * exists j, r. split; [simpl; lia|auto].
    + destruct j as [|j]; simpl in R, J; [lia|].
      apply IH; auto.
      * intros r0 R0. apply P. right; auto.
      * rewrite get_set_neq; auto.
      * exists j, r. split; [simpl; lia|auto].
Qed.

Lemma gp_al : forall ps vp args lv al n,
  (forall p, In p ps -> positional p) -> star_list VarPos vp ->
  In n (snd (ga_positionals false (ps ++ vp) args lv al)) <->
  In n al /\ ~ In n (map p_name (firstn (len args) ps)).
Proof.
  induction ps as [|q ps IH]; intros vp args lv al n P V.
  - rewrite firstn_nil. destruct V as [V|[p [V [K _]]]]; subst; simpl; [tauto|].
    rewrite K. simpl. tauto.
  - cbn [app ga_positionals]. rewrite pos_not_star by (apply P; simpl; auto).
    destruct args as [|a args].
    + simpl. destruct (p_default q) as [d|].
      * rewrite IH; auto; [simpl; tauto|]. intros r R. apply P. right; auto.
      * simpl. tauto.
    + rewrite IH; auto; [|intros r R; apply P; right; auto].
      simpl. split.
      * intros [A B]. apply in_remove in A. destruct A. split; auto. intros [C|C]; auto.
      * intros [A B]. split; [apply in_in_remove|]; auto.
Qed.

(* ---- the keyword loop ---- *)
Lemma gk_out : forall ks kw lv n, ~ In n (map p_name ks) ->
  get (ga_keywords false ks kw lv) n = get lv n.
Proof.
  induction ks as [|k ks IH]; simpl; intros kw lv n H; auto.
  assert (p_name k <> n /\ ~ In n (map p_name ks)) as [H1 H2] by tauto.
  destruct (kind_eqb (p_kind k) VarKw && true).
  - rewrite IH by auto. apply get_set_neq; auto.
  - destruct (get kw (p_name k)).
    + rewrite IH by auto. apply get_set_neq; auto.
    + destruct (p_default k); rewrite IH by auto; auto. apply get_set_neq; auto.
Qed.

Lemma gk_keys : forall ks kw lv n, In n (dkeys (ga_keywords false ks kw lv)) ->
  In n (dkeys lv) \/ In n (map p_name ks).
Proof.
  intros ks kw lv n H.
  destruct (in_dec string_dec n (map p_name ks)) as [I|I]; auto. left.
  destruct (in_dec string_dec n (dkeys lv)) as [J|J]; auto. exfalso.
  apply get_None in J. rewrite <- (gk_out ks kw lv n I) in J. apply get_None in J. auto.
Qed.

Definition names (k : param) : Prop := p_kind k = PosOrKw \/ p_kind k = KwOnly.

Lemma names_not_star k : names k -> kind_eqb (p_kind k) VarKw && negb false = false.
Proof. intros [E|E]; rewrite E; auto. Qed.

Lemma gk_in : forall ks r kw lv k, (forall k, In k ks -> names k) ->
  NoDup (map p_name (ks ++ r)) -> In k ks ->
  get (ga_keywords false (ks ++ r) kw lv) (p_name k) =
    match get kw (p_name k) with
    | Some v => Some v
    | None => match p_default k with Some d => Some d | None => get lv (p_name k) end
    end.
Proof.
  induction ks as [|k0 ks IH]; intros r kw lv k P N I; [destruct I|].
  cbn [app ga_keywords]. rewrite names_not_star by (apply P; simpl; auto).
  simpl in N. inversion N as [|x y X Y]; subst.
  destruct I as [I|I].
  - subst k0. destruct (get kw (p_name k)) as [v|] eqn:G.
    + rewrite gk_out by auto. apply get_set_eq.
    + destruct (p_default k) as [d|]; rewrite gk_out by auto; auto. apply get_set_eq.
  - assert (NE: p_name k <> p_name k0).
    { intros C. apply X. rewrite <- C, map_app, in_app_iff. left. apply in_map; auto. }
    assert (P': forall k, In k ks -> names k) by (intros; apply P; right; auto).
    destruct (get kw (p_name k0)) as [v|].
    + rewrite IH by auto. rewrite get_del_neq, get_set_neq by auto. auto.
    + destruct (p_default k0); rewrite IH by auto; auto. rewrite get_set_neq by auto. auto.
Qed.

Definition rest_kw (ks : list param) (kw : vars) : vars :=
  filter (fun e => negb (memb String.eqb (fst e) (map p_name ks))) kw.

Lemma ddel_filter kw n : dwf kw ->
  del kw n = filter (fun e => negb (String.eqb n (fst e))) kw.
Proof.
  unfold del. induction kw as [|[m v] kw IH]; simpl; intros W; auto.
  unfold dwf in W. simpl in W. inversion W as [|x y X Y]; subst.
  destruct (String.eqb m n) eqn:E.
  - apply String.eqb_eq in E. subst m. rewrite String.eqb_refl. simpl.
    symmetry. apply filter_all. intros [a b] I. simpl.
    destruct (String.eqb n a) eqn:E; auto. apply String.eqb_eq in E. subst.
    exfalso. apply X. apply (in_map fst) in I. auto.
  - rewrite String.eqb_sym, E. simpl. f_equal. apply IH; auto.
Qed.

Lemma filter_filter {A} (f g : A -> bool) l :
  filter f (filter g l) = filter (fun x => g x && f x) l.
Proof.
  induction l as [|a l IH]; simpl; auto.
  destruct (g a); simpl; auto. destruct (f a); simpl; auto. f_equal; auto.
Qed.

Lemma gk_star : forall ks kw lv q, (forall k, In k ks -> names k) -> p_kind q = VarKw -> dwf kw ->
  get (ga_keywords false (ks ++ [q]) kw lv) (p_name q) = Some (Dct (rest_kw ks kw)).
Proof.
  induction ks as [|k0 ks IH]; intros kw lv q P K W.
  - simpl. rewrite K. simpl. rewrite get_set_eq. do 2 f_equal. unfold rest_kw.
    symmetry. apply filter_all. auto.
  - cbn [app ga_keywords]. rewrite names_not_star by (apply P; simpl; auto).
    assert (P': forall k, In k ks -> names k) by (intros; apply P; right; auto).
    assert (R: rest_kw (k0 :: ks) kw = rest_kw ks (del kw (p_name k0))).
    { rewrite ddel_filter by auto. unfold rest_kw. rewrite filter_filter.
      apply filter_ext. intros e. simpl. destruct (String.eqb (p_name k0) (fst e)); auto. }
    destruct (get kw (p_name k0)) as [v|] eqn:G.
    + rewrite IH; auto; [congruence|]. apply ddel_wf; auto.
    + assert (D: del kw (p_name k0) = kw) by (apply (ddel_notin sok); apply get_None; auto).
      rewrite D in R. rewrite R. destruct (p_default k0); apply IH; auto.
Qed.

Lemma rest_ok ps lv : (forall p, In p ps -> get lv (p_name p) <> None) -> ga_rest false ps lv = Ok lv.
Proof.
  induction ps as [|p ps IH]; simpl; intros H; auto.
  rewrite has_get. destruct (get lv (p_name p)) eqn:E.
  - apply IH. intros q I. apply H; auto.
  - exfalso. apply (H p); auto.
Qed.
Lemma rest_err ps lv p : In p ps -> get lv (p_name p) = None -> ga_rest false ps lv = Err TypeError.
Proof.
  induction ps as [|q ps IH]; simpl; intros I G; [tauto|].
  rewrite has_get. destruct I as [I|I].
  - subst. rewrite G. auto.
  - destruct (get lv (p_name q)); auto.
Qed.

(* ---- get_arguments ---- *)
Section Get.
  Variables s po pk vp ko vk : list param.
  Hypothesis SH : shaped s po pk vp ko vk.
  Variable args : list val.
  Variable kw : vars.
  Hypothesis KW : dwf kw.
  Let ps := po ++ pk.
  Let gp := ga_positionals false (ps ++ vp) args [] (map p_name s).
  Let lv1 := fst gp.
  Let al := snd gp.
  Let pkl := filter (fun p => memb String.eqb (p_name p) al) pk.
  Let ks := pkl ++ ko ++ vk.
  Let lv2 := ga_keywords false ks kw lv1.

  Lemma ps_pos p : In p ps -> positional p.
  Proof. apply (ps_kind _ _ _ _ _ _ SH). Qed.

  Lemma psvp_nodup : NoDup (map p_name (ps ++ vp)).
  Proof.
    pose proof (names_nodup _ _ _ _ _ _ SH) as N. rewrite (sh_s _ _ _ _ _ _ SH) in N.
    rewrite app_assoc, map_app in N. apply nodup_app_l in N. auto.
  Qed.

  Lemma al_in p : In p s ->
    (In (p_name p) al <-> ~ In p (firstn (len args) ps)).
  Proof.
    intros I. unfold al, gp. rewrite gp_al; [|apply ps_pos|apply (sh_vp _ _ _ _ _ _ SH)].
    split.
    - intros [_ A] C. apply A. apply in_map; auto.
    - intros A. split; [apply in_map; auto|]. intros C. apply in_map_iff in C.
      destruct C as [q [E Q]]. apply A. rewrite <- (same_name _ _ _ _ _ _ SH q p); auto.
      apply (in_s _ _ _ _ _ _ SH). apply (firstn_incl) in Q || idtac.
      assert (Q': In q ps) by (rewrite <- (firstn_skipn (len args) ps); apply in_or_app; auto).
      apply in_app_or in Q'. tauto.
  Qed.

  Lemma ps_first i p : nth_error ps i = Some p -> (In p (firstn (len args) ps) <-> i < len args).
  Proof.
    intros A. split.
    - intros I. apply In_nth_error in I. destruct I as [j J].
      assert (j < len args).
      { assert (j < len (firstn (len args) ps)) by (apply nth_error_Some; congruence).
        rewrite firstn_length in H. lia. }
      assert (nth_error ps j = Some p).
      { rewrite <- (firstn_skipn (len args) ps). rewrite nth_error_app1; auto.
        apply nth_error_Some. congruence. }
      rewrite (nth_s_inj _ _ _ _ _ _ SH i j p); auto; apply (ps_nth _ _ _ _ _ _ SH); auto.
    - intros L. apply nth_error_In with (n := i).
      rewrite <- (firstn_skipn (len args) ps) in A. rewrite nth_error_app1 in A; auto.
      rewrite firstn_length. assert (i < len ps).
      { rewrite <- (firstn_skipn (len args) ps). apply nth_error_Some. congruence. }
      lia.
  Qed.

  Lemma not_first p : In p s -> ~ positional p -> ~ In p (firstn (len args) ps).
  Proof.
    intros I P C. apply P. apply ps_pos.
    rewrite <- (firstn_skipn (len args) ps). apply in_or_app; auto.
  Qed.

  Lemma al_other p : In p s -> ~ positional p -> memb String.eqb (p_name p) al = true.
  Proof. intros I P. apply (memb_In sok). apply al_in; auto. apply not_first; auto. Qed.

  Lemma ks_filter : filter (fun p => takes_keyword p && memb String.eqb (p_name p) al) s = ks.
  Proof.
    rewrite (sh_s _ _ _ _ _ _ SH). fold ps. unfold ps. rewrite !filter_app.
    rewrite (filter_nil _ po), (filter_nil _ vp), (filter_all _ ko), (filter_all _ vk); simpl.
    - unfold ks, pkl. f_equal. apply filter_ext_in. intros p I. unfold takes_keyword.
      rewrite (pk_kind _ _ _ _ _ _ SH); auto.
    - intros p I. pose proof (vk_kind _ _ _ _ _ _ SH _ I) as K. unfold takes_keyword. rewrite K.
      simpl. apply al_other; [apply (in_s _ _ _ _ _ _ SH); tauto|].
      intros [C|C]; congruence.
    - intros p I. pose proof (ko_kind _ _ _ _ _ _ SH _ I) as K. unfold takes_keyword. rewrite K.
      simpl. apply al_other; [apply (in_s _ _ _ _ _ _ SH); tauto|].
      intros [C|C]; congruence.
    - intros p I. unfold takes_keyword. rewrite (vp_kind _ _ _ _ _ _ SH _ I). auto.
    - intros p I. unfold takes_keyword. rewrite (po_kind _ _ _ _ _ _ SH _ I). auto.
  Qed.

  Lemma ga_unfold : get_arguments_ false s args kw = ga_rest false s lv2.
  Proof.
    unfold get_arguments_. rewrite (filter_takes_positional _ _ _ _ _ _ SH).
    fold ps. fold gp. rewrite (surjective_pairing gp). fold lv1 al. rewrite ks_filter. auto.
  Qed.

  Lemma pkl_in p : In p pk -> (In p pkl <-> ~ In p (firstn (len args) ps)).
  Proof.
    intros I. unfold pkl. rewrite filter_In, (memb_In sok), al_in.
    - tauto.
    - apply (in_s _ _ _ _ _ _ SH). tauto.
  Qed.

  Lemma pkl_pk p : In p pkl -> In p pk.
  Proof. unfold pkl. rewrite filter_In. tauto. Qed.

  Lemma ks_s p : In p ks -> In p s.
  Proof.
    unfold ks. rewrite !in_app_iff. rewrite (in_s _ _ _ _ _ _ SH).
    intros [I|I]; [apply pkl_pk in I|]; tauto.
  Qed.

  Lemma filter_map_nodup (f : param -> bool) l : NoDup (map p_name l) -> NoDup (map p_name (filter f l)).
  Proof.
    induction l as [|a l IH]; simpl; intros N; auto. inversion N as [|x y X Y]; subst.
    destruct (f a); simpl; auto. constructor; auto. intros C. apply X.
    apply in_map_iff in C. destruct C as [b [E B]]. apply filter_In in B.
    rewrite <- E. apply in_map. tauto.
  Qed.

  Lemma ks_nodup : NoDup (map p_name ks).
  Proof. rewrite <- ks_filter. apply filter_map_nodup. apply (names_nodup _ _ _ _ _ _ SH). Qed.

  Lemma ks_names k : In k (pkl ++ ko) -> names k.
  Proof.
    rewrite in_app_iff. intros [I|I].
    - left. apply (pk_kind _ _ _ _ _ _ SH). apply pkl_pk; auto.
    - right. apply (ko_kind _ _ _ _ _ _ SH). auto.
  Qed.

  Lemma ks_eq : ks = (pkl ++ ko) ++ vk.
  Proof. unfold ks. rewrite app_assoc. auto. Qed.

  Lemma ks_out p : In p s -> ~ In p ks -> get lv2 (p_name p) = get lv1 (p_name p).
  Proof.
    intros I N. unfold lv2. apply gk_out. intros C. apply in_map_iff in C.
    destruct C as [q [E Q]]. apply N. rewrite <- (same_name _ _ _ _ _ _ SH q p); auto.
    apply ks_s; auto.
  Qed.

  Lemma ks_kind p : In p ks -> p_kind p = PosOrKw \/ p_kind p = KwOnly \/ p_kind p = VarKw.
  Proof.
    rewrite ks_eq, in_app_iff. intros [I|I].
    - apply ks_names in I. unfold names in I. tauto.
    - rewrite (vk_kind _ _ _ _ _ _ SH _ I). auto.
  Qed.

  Lemma lv1_out p : In p s -> p_kind p = KwOnly \/ p_kind p = VarKw -> get lv1 (p_name p) = None.
  Proof.
    intros I K. unfold lv1, gp. rewrite gp_out; auto. intros C. apply in_map_iff in C.
    destruct C as [q [E Q]]. assert (q = p).
    { apply (same_name _ _ _ _ _ _ SH); auto. apply (in_s _ _ _ _ _ _ SH).
      apply in_app_or in Q. unfold ps in Q. rewrite in_app_iff in Q. tauto. }
    subst q. apply in_app_or in Q. destruct Q as [Q|Q].
    - apply ps_pos in Q. destruct Q as [Q|Q]; intuition congruence.
    - apply (vp_kind _ _ _ _ _ _ SH) in Q. intuition congruence.
  Qed.

  Lemma lv2_in p : In p (pkl ++ ko) -> get lv2 (p_name p) =
    match get kw (p_name p) with
    | Some v => Some v
    | None => match p_default p with Some d => Some d | None => get lv1 (p_name p) end
    end.
  Proof.
    intros I. unfold lv2. rewrite ks_eq. apply gk_in; auto.
    - apply ks_names.
    - rewrite <- ks_eq. apply ks_nodup.
  Qed.

  (* every ordinary parameter gets what Python gives it, or nothing *)
  Lemma get_ordinary i p : nth_error s i = Some p -> p_kind p <> VarPos -> p_kind p <> VarKw ->
    ~ lacking s args kw \/ value_of s args kw i p = None ->
    get lv2 (p_name p) = value_of s args kw i p.
  Proof.
    intros A K1 K2 L. pose proof (nth_error_In _ _ A) as I.
    pose proof (of_kind _ _ _ _ _ _ SH p I) as O.
    destruct (p_kind p) eqn:K; try congruence; unfold value_of in *; rewrite K in *.
    - assert (P: nth_error ps i = Some p) by (apply (nth_ps _ _ _ _ _ _ SH); auto; left; auto).
      rewrite ks_out; auto.
      2:{ intros C. apply ks_kind in C. intuition congruence. }
      destruct (nth_error args i) as [v|] eqn:E.
      + unfold lv1, gp. apply gp_given with (i := i); auto. apply ps_pos. apply psvp_nodup.
      + apply nth_error_None in E.
        destruct (p_default p) as [d|] eqn:D.
        * destruct L as [L|L]; [|discriminate].
          unfold lv1, gp. rewrite gp_default with (i := i); auto.
          -- apply ps_pos.
          -- apply psvp_nodup.
          -- intros j q J Q C. apply L. exists j, q.
             split; [apply (ps_nth _ _ _ _ _ _ SH); auto|].
             unfold value_of.
             assert (Kq: p_kind q = PosOnly).
             { (* q comes before p, which is positional-only *)
               assert (j < len po).
               { assert (i < len po); [|lia].
                 destruct (Nat.lt_ge_cases i (len po)) as [X|X]; auto.
                 unfold ps in P. rewrite nth_error_app2 in P by auto.
                 apply nth_error_In in P. apply (pk_kind _ _ _ _ _ _ SH) in P. congruence. }
               apply (po_kind _ _ _ _ _ _ SH). unfold ps in Q.
               rewrite nth_error_app1 in Q by auto. apply nth_error_In in Q. auto. }
             rewrite Kq.
             replace (nth_error args j) with (@None val); auto. symmetry. apply nth_error_None. lia.
        * unfold lv1, gp. apply gp_blocked with (i := i); auto.
          -- apply ps_pos.
          -- apply psvp_nodup.
          -- exists i, p. repeat split; auto.
    - assert (P: nth_error ps i = Some p) by (apply (nth_ps _ _ _ _ _ _ SH); auto; right; auto).
      destruct (nth_error args i) as [v|] eqn:E.
      + assert (LT: i < len args) by (apply nth_error_Some; congruence).
        rewrite ks_out; auto.
        * unfold lv1, gp. apply gp_given with (i := i); auto. apply ps_pos. apply psvp_nodup.
        * intros C. unfold ks in C. rewrite !in_app_iff in C. destruct C as [C|[C|C]].
          -- apply pkl_in in C; auto. apply C. apply (ps_first i); auto.
          -- apply (ko_kind _ _ _ _ _ _ SH) in C. congruence.
          -- apply (vk_kind _ _ _ _ _ _ SH) in C. congruence.
      + apply nth_error_None in E. rewrite lv2_in.
        2:{ apply in_or_app. left. apply pkl_in; auto. intros C. apply (ps_first i) in C; auto. lia. }
        unfold get in *. destruct (dget String.eqb kw (p_name p)) as [v|]; auto.
        destruct (p_default p) as [d|] eqn:D; auto.
        fold (get lv1 (p_name p)). unfold lv1, gp. apply gp_blocked with (i := i); auto.
        * apply ps_pos.
        * apply psvp_nodup.
        * exists i, p. repeat split; auto.
    - rewrite lv2_in by (apply in_or_app; auto). rewrite (lv1_out p) by auto.
      unfold get. destruct (dget String.eqb kw (p_name p)); auto. destruct (p_default p); auto.
  Qed.

  Lemma get_varpos i p : nth_error s i = Some p -> p_kind p = VarPos ->
    ~ named_before_star s args -> get lv2 (p_name p) = value_of s args kw i p.
  Proof.
    intros A K NB. pose proof (nth_error_In _ _ A) as I.
    pose proof (of_kind _ _ _ _ _ _ SH p I) as O. rewrite K in O.
    rewrite ks_out; auto.
    2:{ intros C. apply ks_kind in C. intuition congruence. }
    unfold value_of. rewrite K. rewrite (slots_ps _ _ _ _ _ _ SH). fold ps.
    destruct (sh_vp _ _ _ _ _ _ SH) as [V|[q [V _]]].
    { rewrite V in O. destruct O. }
    rewrite V in O. destruct O as [O|[]]. subst q.
    unfold lv1, gp. rewrite V. apply gp_star; auto.
    - apply ps_pos.
    - intros j q J Q D. apply NB. split; [exists p; auto|].
      exists j, q. repeat split; auto.
      + apply (ps_nth _ _ _ _ _ _ SH); auto.
      + apply nth_error_In in Q. apply ps_pos in Q. auto.
  Qed.

  Lemma get_varpos_skipped i p : nth_error s i = Some p -> p_kind p = VarPos ->
    named_before_star s args -> get lv2 (p_name p) = None.
  Proof.
    intros A K [_ [j [q [J [Kq [L D]]]]]]. pose proof (nth_error_In _ _ A) as I.
    pose proof (of_kind _ _ _ _ _ _ SH p I) as O. rewrite K in O.
    rewrite ks_out; auto.
    2:{ intros C. apply ks_kind in C. intuition congruence. }
    destruct (sh_vp _ _ _ _ _ _ SH) as [V|[r [V _]]].
    { rewrite V in O. destruct O. }
    rewrite V in O. destruct O as [O|[]]. subst r.
    pose proof psvp_nodup as N. rewrite V in N.
    unfold lv1, gp. rewrite V. apply gp_no_star; auto.
    - apply ps_pos.
    - exists j, q. repeat split; auto. apply (nth_ps _ _ _ _ _ _ SH); auto.
  Qed.

  (* a keyword argument for a parameter given by position *)
  Definition twice : Prop := exists i p, nth_error s i = Some p /\ p_kind p = PosOrKw /\
    i < len args /\ In (p_name p) (dkeys kw).

  Lemma get_varkw_any p : In p s -> p_kind p = VarKw ->
    get lv2 (p_name p) = Some (Dct (rest_kw (pkl ++ ko) kw)).
  Proof.
    intros I K. pose proof (of_kind _ _ _ _ _ _ SH p I) as O. rewrite K in O.
    destruct (sh_vk _ _ _ _ _ _ SH) as [V|[q [V _]]].
    { rewrite V in O. destruct O. }
    rewrite V in O. destruct O as [O|[]]. subst q.
    unfold lv2. rewrite ks_eq, V. apply gk_star; auto. apply ks_names.
  Qed.

  Lemma existsb_named e : existsb (fun q => String.eqb (p_name q) e
       && match p_kind q with PosOrKw | KwOnly => true | _ => false end) s = true <->
     exists q, In q (pk ++ ko) /\ p_name q = e.
  Proof.
    rewrite existsb_exists. split.
    - intros [q [I E]]. apply andb_true_iff in E. destruct E as [E F].
      apply String.eqb_eq in E. exists q. split; auto.
      pose proof (of_kind _ _ _ _ _ _ SH q I) as O. apply in_or_app.
      destruct (p_kind q); try discriminate; auto.
    - intros [q [I E]]. exists q. split.
      + apply (in_s _ _ _ _ _ _ SH). apply in_app_or in I. tauto.
      + rewrite E, String.eqb_refl. simpl. apply in_app_or in I. destruct I as [I|I].
        * rewrite (pk_kind _ _ _ _ _ _ SH); auto.
        * rewrite (ko_kind _ _ _ _ _ _ SH); auto.
  Qed.

  Lemma get_varkw i p : nth_error s i = Some p -> p_kind p = VarKw -> ~ twice ->
    get lv2 (p_name p) = value_of s args kw i p.
  Proof.
    intros A K T. pose proof (nth_error_In _ _ A) as I.
    rewrite get_varkw_any by auto. unfold value_of. rewrite K. do 2 f_equal.
    unfold rest_kw. apply filter_ext_in. intros [n v] E. cbn [fst]. f_equal.
    apply eq_true_iff_eq. rewrite existsb_named, (memb_In sok), in_map_iff. split.
    - intros [q [N Q]]. exists q. split; auto. rewrite in_app_iff in *.
      destruct Q as [Q|Q]; auto. left. apply pkl_pk; auto.
    - intros [q [Q N]]. exists q. split; auto. rewrite in_app_iff in *.
      destruct Q as [Q|Q]; auto. left. apply pkl_in; auto. intros C.
      assert (Qp: In q ps) by (rewrite <- (firstn_skipn (len args) ps); apply in_or_app; auto).
      apply In_nth_error in Qp. destruct Qp as [j J]. apply T. exists j, q. repeat split.
      + apply (ps_nth _ _ _ _ _ _ SH); auto.
      + apply (pk_kind _ _ _ _ _ _ SH); auto.
      + apply (proj1 (ps_first j q J)); auto.
      + apply (in_map fst) in E. simpl in E. rewrite N. auto.
  Qed.

  Lemma lv2_keys n : In n (dkeys lv2) -> In n (map p_name s).
  Proof.
    intros H. unfold lv2 in H. apply gk_keys in H. destruct H as [H|H].
    - unfold lv1, gp in H. apply gp_keys in H. destruct H as [[]|H].
      rewrite (sh_s _ _ _ _ _ _ SH), app_assoc, map_app. apply in_or_app; auto.
    - apply in_map_iff in H. destruct H as [p [E P]]. rewrite <- E. apply in_map. apply ks_s; auto.
  Qed.

  Lemma ga_lacking : lacking s args kw -> get_arguments_ false s args kw = Err TypeError.
  Proof.
    intros [i [p [A V]]]. rewrite ga_unfold. apply rest_err with (p := p).
    - apply nth_error_In in A; auto.
    - rewrite (get_ordinary i p); auto; intros C; unfold value_of in V; rewrite C in V; discriminate.
  Qed.

  Lemma ga_skipped : named_before_star s args -> get_arguments_ false s args kw = Err TypeError.
  Proof.
    intros B. pose proof B as [[p [I K]] _]. rewrite ga_unfold. apply rest_err with (p := p); auto.
    apply In_nth_error in I. destruct I as [i I]. apply (get_varpos_skipped i); auto.
  Qed.

  Lemma ga_found : ~ lacking s args kw -> ~ named_before_star s args ->
    exists b, get_arguments_ false s args kw = Ok b /\
      (forall i p, nth_error s i = Some p -> p_kind p <> VarKw \/ ~ twice ->
         get b (p_name p) = value_of s args kw i p) /\
      (forall p, In p s -> get b (p_name p) <> None) /\
      (forall n, In n (dkeys b) -> In n (map p_name s)).
  Proof.
    intros L B. exists lv2.
    assert (V: forall i p, nth_error s i = Some p -> p_kind p <> VarKw \/ ~ twice ->
         get lv2 (p_name p) = value_of s args kw i p).
    { intros i p A C. destruct (p_kind p) eqn:K.
      - apply get_ordinary; auto; congruence.
      - apply get_ordinary; auto; congruence.
      - apply get_varpos; auto.
      - apply get_ordinary; auto; congruence.
      - apply get_varkw; auto. destruct C; congruence. }
    assert (T: forall p, In p s -> get lv2 (p_name p) <> None).
    { intros p I. destruct (p_kind p) eqn:K.
      5:{ rewrite get_varkw_any by auto. congruence. }
      all: apply In_nth_error in I; destruct I as [i I]; rewrite (V i) by (auto; left; congruence);
        intros C; apply L; exists i, p; auto. }
    rewrite ga_unfold. split; [apply rest_ok; auto|]. split; auto. split; auto. apply lv2_keys.
  Qed.
End Get.

(* ---- binding a call ---- *)
Lemma bp_surplus : forall ps args, snd (bind_positionals ps args) = skipn (len ps) args.
Proof.
  induction ps as [|p ps IH]; intros args; simpl; auto.
  destruct args as [|a args]; auto.
  specialize (IH args). destruct (bind_positionals ps args). simpl in *. auto.
Qed.
Lemma bp_out : forall ps args n, ~ In n (map p_name ps) ->
  get (fst (bind_positionals ps args)) n = None.
Proof.
  induction ps as [|p ps IH]; intros args n H; simpl; auto.
  destruct args as [|a args]; auto. simpl in H.
  specialize (IH args n). destruct (bind_positionals ps args). unfold get in *. simpl in *.
  destruct (String.eqb (p_name p) n) eqn:E; [|apply IH; tauto].
  apply String.eqb_eq in E. tauto.
Qed.
Lemma bp_get : forall ps args i p, NoDup (map p_name ps) -> nth_error ps i = Some p ->
  get (fst (bind_positionals ps args)) (p_name p) = nth_error args i.
Proof.
  induction ps as [|q ps IH]; intros args i p N A; [destruct i; discriminate|].
  simpl in N. inversion N as [|x y X Y]; subst.
  simpl. destruct args as [|a args]; [destruct i; auto|].
  specialize (IH args). destruct (bind_positionals ps args) as [b r] eqn:E.
  unfold get in *. simpl in *. destruct i as [|i]; simpl in A.
  - injection A as <-. rewrite String.eqb_refl. auto.
  - destruct (String.eqb (p_name q) (p_name p)) eqn:F.
    + apply String.eqb_eq in F. exfalso. apply X. rewrite F. apply in_map.
      apply nth_error_In in A; auto.
    + apply IH; auto.
Qed.

Definition bind_one (p : param) (b : vars) (surplus : list val) (extra kw : vars) : res val :=
  match p_kind p with
  | VarPos => Ok (Tup surplus)
  | VarKw => Ok (Dct extra)
  | _ =>
      match get b (p_name p), (if fills_by_name p then get kw (p_name p) else None) with
      | Some _, Some _ => Err TypeError
      | Some v, None => Ok v
      | None, Some v => Ok v
      | None, None => match p_default p with Some d => Ok d | None => Err TypeError end
      end
  end.

Lemma bind_params_ok : forall ps b su ex kw,
  (forall p, In p ps -> exists v, bind_one p b su ex kw = Ok v) ->
  NoDup (map p_name ps) ->
  exists r, bind_params ps b su ex kw = Ok r /\ dkeys r = map p_name ps /\
    forall p, In p ps -> bind_one p b su ex kw = match get r (p_name p) with
                                                  | Some v => Ok v | None => Err TypeError end.
Proof.
  induction ps as [|p ps IH]; intros b su ex kw H N.
  - exists []. simpl. split; auto. split; auto. intros p [].
  - simpl in N. inversion N as [|x y X Y]; subst.
    destruct (IH b su ex kw) as [r [R [K G]]]; auto.
    { intros q I. apply H. right; auto. }
    destruct (H p) as [v V]; [left; auto|].
    exists ((p_name p, v) :: r). cbn [bind_params]. fold (bind_one p b su ex kw).
    rewrite V, R. split; auto. split; [simpl; congruence|].
    intros q [I|I].
    + subst q. unfold get. simpl. rewrite String.eqb_refl. auto.
    + unfold get. simpl. destruct (String.eqb (p_name p) (p_name q)) eqn:E.
      * apply String.eqb_eq in E. exfalso. apply X. rewrite E. apply in_map; auto.
      * apply G; auto.
Qed.

Lemma bind_params_err : forall ps b su ex kw p, In p ps -> bind_one p b su ex kw = Err TypeError ->
  bind_params ps b su ex kw = Err TypeError.
Proof.
  induction ps as [|q ps IH]; intros b su ex kw p I E; [destruct I|].
  cbn [bind_params]. fold (bind_one q b su ex kw). destruct I as [I|I].
  - subst q. rewrite E. auto.
  - assert (T: bind_one q b su ex kw = Err TypeError \/ exists v, bind_one q b su ex kw = Ok v).
    { unfold bind_one. destruct (p_kind q); eauto;
        destruct (get b (p_name q)), (if fills_by_name q then get kw (p_name q) else None);
        destruct (p_default q); eauto. }
    destruct T as [T|[v T]]; rewrite T; auto. rewrite (IH b su ex kw p); auto.
Qed.

Section Bind.
  Variables s po pk vp ko vk : list param.
  Hypothesis SH : shaped s po pk vp ko vk.
  Variable args : list val.
  Variable kw : vars.
  Let ps := po ++ pk.
  Let b := fst (bind_positionals ps args).
  Let surplus := skipn (len ps) args.
  Let extra := unclaimed s kw.

  Lemma b_position i p : nth_error s i = Some p -> positional p ->
    get b (p_name p) = nth_error args i.
  Proof.
    intros A P. unfold b. apply bp_get.
    - apply (ps_nodup _ _ _ _ _ _ SH).
    - apply (nth_ps _ _ _ _ _ _ SH); auto.
  Qed.
  Lemma b_other p : In p s -> ~ positional p -> get b (p_name p) = None.
  Proof.
    intros I P. unfold b. apply bp_out. intros C. apply in_map_iff in C.
    destruct C as [q [E Q]]. apply P. rewrite <- (same_name _ _ _ _ _ _ SH q p); auto.
    - apply (ps_kind _ _ _ _ _ _ SH); auto.
    - apply (in_s _ _ _ _ _ _ SH). apply in_app_or in Q. tauto.
  Qed.

  Lemma unclaimed_value : extra = filter (fun e => negb (existsb
      (fun q => String.eqb (p_name q) (fst e)
                && match p_kind q with PosOrKw | KwOnly => true | _ => false end) s)) kw.
  Proof.
    unfold extra, unclaimed. apply filter_ext. intros [n v]. cbn [fst]. f_equal.
    apply eq_true_iff_eq. rewrite (existsb_named _ _ _ _ _ _ SH), (memb_In sok), in_map_iff.
    rewrite (filter_name _ _ _ _ _ _ SH). split; intros [q [X Y]]; exists q; auto.
  Qed.

  Lemma one_value i p : nth_error s i = Some p ->
    ~ (p_kind p = PosOrKw /\ i < len args /\ In (p_name p) (dkeys kw)) ->
    bind_one p b surplus extra kw =
      match value_of s args kw i p with Some v => Ok v | None => Err TypeError end.
  Proof.
    intros A T. pose proof (nth_error_In _ _ A) as I.
    unfold bind_one, value_of. destruct (p_kind p) eqn:K.
    - unfold fills_by_name. rewrite K. rewrite (b_position i p) by (auto; left; auto).
      destruct (nth_error args i); destruct (p_default p); auto.
    - unfold fills_by_name. rewrite K. rewrite (b_position i p) by (auto; right; auto).
      fold (get kw (p_name p)).
      destruct (nth_error args i) eqn:E.
      + destruct (get kw (p_name p)) eqn:G; auto. exfalso. apply T. split; auto. split.
        * apply nth_error_Some. congruence.
        * destruct (in_dec string_dec (p_name p) (dkeys kw)) as [J|J]; auto.
          apply get_None in J. congruence.
      + destruct (get kw (p_name p)); destruct (p_default p); auto.
    - rewrite (slots_ps _ _ _ _ _ _ SH). auto.
    - unfold fills_by_name. rewrite K. rewrite (b_other p); auto.
      2:{ intros [C|C]; congruence. }
      fold (get kw (p_name p)). destruct (get kw (p_name p)); destruct (p_default p); auto.
    - rewrite unclaimed_value. auto.
  Qed.

  Lemma kind_exists k : existsb (fun p => kind_eqb (p_kind p) k) s = true <->
    exists p, In p s /\ p_kind p = k.
  Proof.
    rewrite existsb_exists. split; intros [p [I E]]; exists p; split; auto.
    - destruct (p_kind p), k; auto; discriminate.
    - rewrite E. destruct k; reflexivity.
  Qed.

  Lemma py_bind_unfold : py_bind s args kw =
    if (match surplus with [] => false | _ => true end)
       && negb (existsb (fun p => kind_eqb (p_kind p) VarPos) s) then Err TypeError
    else if (match extra with [] => false | _ => true end)
       && negb (existsb (fun p => kind_eqb (p_kind p) VarKw) s) then Err TypeError
    else bind_params s b surplus extra kw.
  Proof.
    unfold py_bind. rewrite (filter_position _ _ _ _ _ _ SH). fold ps.
    rewrite (surjective_pairing (bind_positionals ps args)). rewrite bp_surplus. auto.
  Qed.

  Lemma surplus_nil : surplus = [] <-> len args <= slots s.
  Proof.
    rewrite (slots_ps _ _ _ _ _ _ SH). fold ps. unfold surplus. split; intros H.
    - assert (L: len (skipn (len ps) args) = 0) by (rewrite H; auto).
      rewrite skipn_length in L. lia.
    - apply skipn_all2. auto.
  Qed.

  Lemma extra_nil : extra = [] <->
    forall n, In n (dkeys kw) -> exists p, In p s /\ p_name p = n /\ by_name p.
  Proof.
    rewrite unclaimed_value. split.
    - intros H n I. unfold dkeys in I. apply in_map_iff in I. destruct I as [[m v] [E I]].
      simpl in E. subst m.
      destruct (existsb (fun q => String.eqb (p_name q) n
         && match p_kind q with PosOrKw | KwOnly => true | _ => false end) s) eqn:X.
      + apply (existsb_named _ _ _ _ _ _ SH) in X. destruct X as [q [Q N]].
        exists q. apply in_app_or in Q. split; [apply (in_s _ _ _ _ _ _ SH); tauto|]. split; auto.
        destruct Q as [Q|Q]; [left; apply (pk_kind _ _ _ _ _ _ SH)|right; apply (ko_kind _ _ _ _ _ _ SH)]; auto.
      + exfalso. assert (J: In (n, v) []); [|destruct J].
        rewrite <- H. apply filter_In. split; auto. cbn [fst]. rewrite X. auto.
    - intros H. apply filter_nil. intros [n v] I. cbn [fst]. apply negb_false_iff.
      apply (existsb_named _ _ _ _ _ _ SH). destruct (H n) as [p [P [N B]]].
      { apply (in_map fst) in I. auto. }
      exists p. split; auto. pose proof (of_kind _ _ _ _ _ _ SH p P) as O. apply in_or_app.
      destruct B as [B|B]; rewrite B in O; auto.
  Qed.

  Lemma bind_too_many : too_many s args kw -> py_bind s args kw = Err TypeError.
  Proof.
    intros H. rewrite py_bind_unfold. destruct H as [[L N]|[[n [I [N F]]]|[i [p [A [K [L I]]]]]]].
    - destruct surplus eqn:E.
      + apply surplus_nil in E. lia.
      + destruct (existsb (fun p => kind_eqb (p_kind p) VarPos) s) eqn:X; auto.
        apply kind_exists in X. tauto.
    - destruct (_ && _); auto. destruct extra eqn:E.
      + pose proof (proj1 extra_nil E n I) as [p [P [Q B]]]. exfalso. apply (F p); auto.
      + destruct (existsb (fun p => kind_eqb (p_kind p) VarKw) s) eqn:X; auto.
        apply kind_exists in X. tauto.
    - destruct (_ && _); auto. destruct (_ && _); auto.
      apply bind_params_err with (p := p); [apply nth_error_In in A; auto|].
      unfold bind_one, fills_by_name. rewrite K. rewrite (b_position i p) by (auto; right; auto).
      destruct (nth_error args i) eqn:E; [|apply nth_error_None in E; lia].
      destruct (get kw (p_name p)) eqn:G; auto. apply get_None in G. tauto.
  Qed.

  Lemma bind_accepted : python_accepts s args kw ->
    exists r, py_bind s args kw = Ok r /\ python_binding s args kw r /\ dkeys r = map p_name s.
  Proof.
    intros [L T]. rewrite py_bind_unfold.
    assert (T3: forall i p, nth_error s i = Some p ->
       ~ (p_kind p = PosOrKw /\ i < len args /\ In (p_name p) (dkeys kw))).
    { intros i p A C. apply T. right; right. exists i, p. tauto. }
    assert (T1: (match surplus with [] => false | _ => true end)
       && negb (existsb (fun p => kind_eqb (p_kind p) VarPos) s) = false).
    { destruct surplus eqn:E; auto. simpl. apply negb_false_iff.
      destruct (existsb (fun p => kind_eqb (p_kind p) VarPos) s) eqn:X; auto.
      exfalso. apply T. left. split.
      - destruct (Nat.lt_ge_cases (slots s) (len args)) as [Y|Y]; auto.
        apply surplus_nil in Y. congruence.
      - intros C. apply kind_exists in C. congruence. }
    assert (T2: (match extra with [] => false | _ => true end)
       && negb (existsb (fun p => kind_eqb (p_kind p) VarKw) s) = false).
    { destruct extra eqn:E; auto. simpl. apply negb_false_iff.
      destruct (existsb (fun p => kind_eqb (p_kind p) VarKw) s) eqn:X; auto.
      exfalso. apply T. right; left. rewrite unclaimed_value in E.
      assert (I: In p (p :: v)) by (left; auto). rewrite <- E in I. apply filter_In in I.
      destruct I as [I J]. destruct p as [n w]. cbn [fst] in J. apply negb_true_iff in J.
      exists n. split; [apply (in_map fst) in I; auto|]. split.
      - intros C. apply kind_exists in C. congruence.
      - intros q Q N B. assert (Y: existsb (fun q => String.eqb (p_name q) n
         && match p_kind q with PosOrKw | KwOnly => true | _ => false end) s = true).
        { apply existsb_exists. exists q. split; auto. rewrite N, String.eqb_refl.
          destruct B as [B|B]; rewrite B; auto. }
        congruence. }
    rewrite T1, T2.
    destruct (bind_params_ok s b surplus extra kw) as [r [R [K G]]].
    - intros p I. apply In_nth_error in I. destruct I as [i A]. rewrite (one_value i) by auto.
      destruct (value_of s args kw i p) as [v|] eqn:V; eauto.
      exfalso. apply L. exists i, p; auto.
    - apply (names_nodup _ _ _ _ _ _ SH).
    - exists r. split; auto. split; auto. split.
      + intros i p A. pose proof (G p (nth_error_In _ _ A)) as H. rewrite (one_value i) in H by auto.
        destruct (value_of s args kw i p), (get r (p_name p)); congruence.
      + intros n I. rewrite <- K. auto.
  Qed.

  Lemma bind_lacking : lacking s args kw -> py_bind s args kw = Err TypeError.
  Proof.
    intros [i [p [A V]]]. rewrite py_bind_unfold.
    destruct (_ && _); auto. destruct (_ && _); auto.
    apply bind_params_err with (p := p); [apply nth_error_In in A; auto|].
    rewrite (one_value i); auto.
    - rewrite V. auto.
    - intros [K [I _]]. unfold value_of in V. rewrite K in V.
      destruct (nth_error args i) eqn:E; [discriminate|]. apply nth_error_None in E. lia.
  Qed.
End Bind.

(* ---- call_with_arguments ---- *)
Definition dels (ps : list param) (d : vars) : vars :=
  fold_left (fun d p => del d (p_name p)) ps d.

Lemma dels_get : forall ps d n, dwf d ->
  get (dels ps d) n = if memb String.eqb n (map p_name ps) then None else get d n.
Proof.
  induction ps as [|p ps IH]; intros d n W; simpl; auto.
  unfold dels in *. cbn [fold_left]. rewrite IH by (apply ddel_wf; auto).
  destruct (String.eqb (p_name p) n) eqn:E.
  - apply String.eqb_eq in E. subst n. rewrite get_del_eq by auto.
    destruct (memb _ _ _); auto.
  - rewrite get_del_neq; auto. intros C. subst n. rewrite String.eqb_refl in E. discriminate.
Qed.
Lemma dels_wf : forall ps d, dwf d -> dwf (dels ps d).
Proof.
  induction ps as [|p ps IH]; intros d W; simpl; auto. apply IH. apply ddel_wf; auto.
Qed.

Definition collect (ps : list param) (d : vars) : list val :=
  flat_map (fun p => match get d (p_name p) with Some v => [v] | None => [] end) ps.
Definition kwpairs (ps : list param) (d : vars) : vars :=
  flat_map (fun p => match get d (p_name p) with Some v => [(p_name p, v)] | None => [] end) ps.
Definition absent (p : param) (d : vars) : Prop := get d (p_name p) = None /\ p_default p = None.

Lemma collect_del q ps d : ~ In (p_name q) (map p_name ps) -> collect ps (del d (p_name q)) = collect ps d.
Proof.
  unfold collect. induction ps as [|p ps IH]; simpl; intros H; auto.
  rewrite IH by tauto. rewrite get_del_neq by (intros C; apply H; auto). auto.
Qed.
Lemma kwpairs_del q ps d : ~ In (p_name q) (map p_name ps) -> kwpairs ps (del d (p_name q)) = kwpairs ps d.
Proof.
  unfold kwpairs. induction ps as [|p ps IH]; simpl; intros H; auto.
  rewrite IH by tauto. rewrite get_del_neq by (intros C; apply H; auto). auto.
Qed.

Lemma cw_pos : forall ps r args kw d,
  (forall p, In p ps -> positional p) -> NoDup (map p_name ps) ->
  (forall p, In p ps -> ~ absent p d) ->
  cw_loop (ps ++ r) args kw d = cw_loop r (args ++ collect ps d) kw (dels ps d).
Proof.
  induction ps as [|p ps IH]; intros r args kw d P N H.
  - simpl. rewrite app_nil_r. auto.
  - simpl in N. inversion N as [|x y X Y]; subst.
    assert (P': forall p, In p ps -> positional p) by (intros; apply P; right; auto).
    assert (Pp: positional p) by (apply P; left; auto).
    cbn [app cw_loop dels fold_left]. unfold collect. cbn [flat_map]. fold (collect ps d).
    assert (H1: forall q, In q ps -> ~ absent q (del d (p_name p))).
    { intros q I [A B]. apply (H q); [right; auto|]. split; auto.
      rewrite get_del_neq in A; auto. intros C. apply X. rewrite <- C. apply in_map; auto. }
    destruct (get d (p_name p)) as [v|] eqn:G.
    + transitivity (cw_loop (ps ++ r) (args ++ [v]) kw (del d (p_name p))).
      { destruct Pp as [K|K]; rewrite K; auto. }
      rewrite IH; auto. rewrite collect_del by auto. rewrite <- app_assoc. auto.
    + assert (D: del d (p_name p) = d) by (apply (ddel_notin sok); apply get_None; auto).
      rewrite D in *. simpl.
      transitivity (cw_loop (ps ++ r) args kw d).
      { destruct (p_default p) eqn:E.
        - destruct Pp as [K|K]; rewrite K; auto.
        - exfalso. apply (H p); [left; auto|]. split; auto. }
      apply IH; auto.
Qed.

Lemma set_new (d : vars) n v : ~ In n (dkeys d) -> set d n v = d ++ [(n, v)].
Proof.
  unfold set. induction d as [|[m w] d IH]; simpl; intros H; auto.
  destruct (String.eqb m n) eqn:E; [apply String.eqb_eq in E; subst; tauto|].
  f_equal. apply IH. tauto.
Qed.

Lemma cw_ko : forall ps r args kw d,
  (forall p, In p ps -> p_kind p = KwOnly) -> NoDup (map p_name ps) ->
  (forall p, In p ps -> ~ In (p_name p) (dkeys kw)) ->
  (forall p, In p ps -> ~ absent p d) ->
  cw_loop (ps ++ r) args kw d = cw_loop r args (kw ++ kwpairs ps d) (dels ps d).
Proof.
  induction ps as [|p ps IH]; intros r args kw d P N F H.
  - simpl. rewrite app_nil_r. auto.
  - simpl in N. inversion N as [|x y X Y]; subst.
    assert (P': forall p, In p ps -> p_kind p = KwOnly) by (intros; apply P; right; auto).
    assert (Pp: p_kind p = KwOnly) by (apply P; left; auto).
    cbn [app cw_loop dels fold_left]. unfold kwpairs. cbn [flat_map]. fold (kwpairs ps d).
    assert (H1: forall q, In q ps -> ~ absent q (del d (p_name p))).
    { intros q I [A B]. apply (H q); [right; auto|]. split; auto.
      rewrite get_del_neq in A; auto. intros C. apply X. rewrite <- C. apply in_map; auto. }
    destruct (get d (p_name p)) as [v|] eqn:G.
    + rewrite Pp. rewrite IH; auto.
      * rewrite kwpairs_del by auto. rewrite set_new by (apply F; left; auto).
        rewrite <- app_assoc. auto.
      * intros q I. rewrite set_new by (apply F; left; auto). unfold dkeys.
        rewrite map_app, in_app_iff. intros [C|[C|[]]].
        -- apply (F q); auto. right; auto.
        -- apply X. simpl in C. rewrite C. apply in_map; auto.
    + assert (D: del d (p_name p) = d) by (apply (ddel_notin sok); apply get_None; auto).
      rewrite D in *. simpl.
      transitivity (cw_loop (ps ++ r) args kw d).
      { rewrite Pp. destruct (p_default p) eqn:E; auto.
        exfalso. apply (H p); [left; auto|]. split; auto. }
      apply IH; auto. intros q I. apply F. right; auto.
Qed.

Lemma update_new : forall (m kw : vars), dwf m -> (forall n, In n (dkeys m) -> ~ In n (dkeys kw)) ->
  fold_left (fun k e => set k (fst e) (snd e)) m kw = kw ++ m.
Proof.
  induction m as [|[n v] m IH]; intros kw W H; simpl.
  - rewrite app_nil_r. auto.
  - unfold dwf in W. simpl in W. inversion W as [|x y X Y]; subst.
    rewrite set_new by (apply H; simpl; auto). rewrite IH; auto.
    + rewrite <- app_assoc. auto.
    + intros k I. unfold dkeys. rewrite map_app, in_app_iff. intros [C|[C|[]]].
      * apply (H k); simpl; auto.
      * simpl in C. subst. auto.
Qed.

Lemma cw_err : forall ps args kw d p, NoDup (map p_name ps) -> In p ps -> absent p d ->
  p_kind p <> VarPos -> p_kind p <> VarKw -> cw_loop ps args kw d = Err TypeError.
Proof.
  induction ps as [|q ps IH]; intros args kw d p N I [A B] K1 K2; [destruct I|].
  simpl in N. inversion N as [|x y X Y]; subst. cbn [cw_loop]. destruct I as [I|I].
  - subst q. rewrite A, B. destruct (p_kind p); auto; congruence.
  - assert (NE: p_name p <> p_name q).
    { intros C. apply X. rewrite <- C. apply in_map; auto. }
    assert (A': absent p (del d (p_name q))).
    { split; auto. rewrite get_del_neq; auto. }
    assert (A2: absent p d) by (split; auto).
    destruct (get d (p_name q)) as [v|].
    + destruct (p_kind q); try (eapply IH; eauto; fail); destruct v; auto; eapply IH; eauto.
    + destruct (p_kind q); try (eapply IH; eauto; fail); destruct (p_default q); auto; eapply IH; eauto.
Qed.

Definition star_values (vp : list param) (d : vars) : list val :=
  match vp with
  | p :: _ => match get d (p_name p) with Some (Tup l) => l | _ => [] end
  | [] => []
  end.
Definition star_dict (vk : list param) (d : vars) : vars :=
  match vk with
  | p :: _ => match get d (p_name p) with Some (Dct m) => m | _ => [] end
  | [] => []
  end.

Lemma collect_nil l d : (forall q, In q l -> get d (p_name q) = None) -> collect l d = [].
Proof.
  intros Z. unfold collect. induction l as [|b l IH]; simpl; auto.
  rewrite Z by (left; auto). simpl. apply IH. intros; apply Z; right; auto.
Qed.

Lemma kwpairs_keys ps d n : In n (dkeys (kwpairs ps d)) -> In n (map p_name ps).
Proof.
  unfold kwpairs, dkeys. induction ps as [|p ps IH]; simpl; auto.
  rewrite map_app, in_app_iff. intros [H|H]; auto.
  destruct (get d (p_name p)); simpl in H; tauto.
Qed.

Lemma kwpairs_get ps d p : NoDup (map p_name ps) -> In p ps ->
  get (kwpairs ps d) (p_name p) = get d (p_name p).
Proof.
  induction ps as [|q ps IH]; intros N I; [destruct I|].
  simpl in N. inversion N as [|x y X Y]; subst.
  unfold kwpairs. cbn [flat_map]. fold (kwpairs ps d). destruct I as [I|I].
  - subst q. destruct (get d (p_name p)) as [v|]; unfold get; simpl.
    + rewrite String.eqb_refl. auto.
    + fold (get (kwpairs ps d) (p_name p)). apply get_None. intros C. apply X.
      apply kwpairs_keys in C. auto.
  - assert (NE: p_name q <> p_name p).
    { intros C. apply X. rewrite C. apply in_map; auto. }
    destruct (get d (p_name q)) as [v|]; simpl; auto.
    unfold get at 1. simpl. destruct (String.eqb (p_name q) (p_name p)) eqn:E.
    + apply String.eqb_eq in E. congruence.
    + apply IH; auto.
Qed.

Lemma get_app (a b : vars) n : get (a ++ b) n = match get a n with Some v => Some v | None => get b n end.
Proof.
  unfold get. induction a as [|[m v] a IH]; simpl; auto. destruct (String.eqb m n); auto.
Qed.

Section CallWith.
  Variables s po pk vp ko vk : list param.
  Hypothesis SH : shaped s po pk vp ko vk.
  Variable d : vars.
  Hypothesis WD : dwf d.
  Let ps := po ++ pk.
  Let star := star_values vp d.
  Let dstar := star_dict vk d.
  Let cargs := collect ps d ++ star.
  Let ckw := kwpairs ko d ++ dstar.

  Lemma s_nodup4 : NoDup (map p_name ps ++ map p_name vp ++ map p_name ko ++ map p_name vk).
  Proof.
    pose proof (names_nodup _ _ _ _ _ _ SH) as N. rewrite (sh_s _ _ _ _ _ _ SH) in N.
    unfold ps. rewrite !map_app in *. auto.
  Qed.

  Lemma in_names l n : In n (map p_name l) -> exists p, In p l /\ p_name p = n.
  Proof. intros I. apply in_map_iff in I. destruct I as [p [E I]]. eauto. Qed.

  Lemma cw_missing p : In p s -> promised d p = None -> call_with_arguments s d = Err TypeError.
  Proof.
    intros I P. unfold promised in P. destruct (get d (p_name p)) eqn:G; [discriminate|].
    unfold call_with_arguments.
    rewrite (cw_err s [] [] d p); auto.
    - apply (names_nodup _ _ _ _ _ _ SH).
    - split; auto. destruct (p_kind p); auto; discriminate.
    - intros C. rewrite C in P. discriminate.
    - intros C. rewrite C in P. discriminate.
  Qed.

  Hypothesis SE : sensible s d.
  Hypothesis FULL : forall p, In p s -> promised d p <> None.

  Lemma not_absent p : In p s -> p_kind p <> VarPos -> p_kind p <> VarKw -> ~ absent p d.
  Proof.
    intros I K1 K2 [A B]. apply (FULL p I). unfold promised. rewrite A.
    destruct (p_kind p); auto; congruence.
  Qed.

  Lemma vp_s p : In p vp -> In p s.
  Proof. intros I. apply (in_s _ _ _ _ _ _ SH). tauto. Qed.
  Lemma vk_s p : In p vk -> In p s.
  Proof. intros I. apply (in_s _ _ _ _ _ _ SH). tauto. Qed.
  Lemma ko_s p : In p ko -> In p s.
  Proof. intros I. apply (in_s _ _ _ _ _ _ SH). tauto. Qed.
  Lemma pk_s p : In p pk -> In p s.
  Proof. intros I. apply (in_s _ _ _ _ _ _ SH). tauto. Qed.
  Lemma ps_s p : In p ps -> In p s.
  Proof. intros I. apply (in_s _ _ _ _ _ _ SH). apply in_app_or in I. tauto. Qed.

  Lemma disjoint_get l p (d0 : vars) : In p s -> ~ In p l -> (forall q, In q l -> In q s) -> dwf d0 ->
    get (dels l d0) (p_name p) = get d0 (p_name p).
  Proof.
    intros I N L W. rewrite dels_get by auto.
    destruct (memb String.eqb (p_name p) (map p_name l)) eqn:E; auto.
    apply (memb_In sok) in E. apply in_names in E. destruct E as [q [Q F]].
    exfalso. apply N. rewrite <- (same_name _ _ _ _ _ _ SH q p); auto.
  Qed.

  Lemma dstar_wf : dwf dstar.
  Proof.
    unfold dstar, star_dict. destruct (sh_vk _ _ _ _ _ _ SH) as [V|[p [V [K _]]]]; rewrite V.
    - constructor.
    - destruct (get d (p_name p)) as [v|] eqn:G; [|constructor].
      assert (I: In p s) by (apply vk_s; rewrite V; left; auto).
      destruct (SE p v I G) as [_ X]. destruct (X K) as [m [E [W _]]]. subst v. auto.
  Qed.
  Lemma dstar_free q : In q s -> by_name q -> ~ In (p_name q) (dkeys dstar).
  Proof.
    unfold dstar, star_dict. destruct (sh_vk _ _ _ _ _ _ SH) as [V|[p [V [K _]]]]; rewrite V.
    - simpl; auto.
    - destruct (get d (p_name p)) as [v|] eqn:G; [|simpl; auto].
      assert (I: In p s) by (apply vk_s; rewrite V; left; auto).
      destruct (SE p v I G) as [_ X]. destruct (X K) as [m [E [W Y]]]. subst v. auto.
  Qed.

  Lemma cw_whole : cw_loop s [] [] d = Ok (cargs, ckw, dels s d).
  Proof.
    pose proof s_nodup4 as N.
    rewrite (sh_s _ _ _ _ _ _ SH). fold ps. rewrite cw_pos.
    2:{ apply (ps_kind _ _ _ _ _ _ SH). }
    2:{ apply nodup_app_l in N. auto. }
    2:{ intros p I. pose proof (ps_kind _ _ _ _ _ _ SH p I) as P.
        apply not_absent; [apply ps_s; auto| |]; destruct P; congruence. }
    cbn [app].
    assert (S1: cw_loop (vp ++ ko ++ vk) (collect ps d) [] (dels ps d) =
                cw_loop (ko ++ vk) cargs [] (dels vp (dels ps d))).
    { unfold cargs, star, star_values.
      destruct (sh_vp _ _ _ _ _ _ SH) as [V|[p [V [K _]]]].
      - rewrite V. simpl. rewrite app_nil_r. auto.
      - assert (I: In p s) by (apply vp_s; rewrite V; left; auto).
        assert (G0: get (dels ps d) (p_name p) = get d (p_name p)).
        { apply disjoint_get; auto.
          - intros C. apply (ps_kind _ _ _ _ _ _ SH) in C. destruct C; congruence.
          - apply ps_s. }
        rewrite V. cbn [app cw_loop dels fold_left]. fold (dels ps d). rewrite G0, K.
        destruct (get d (p_name p)) as [v|] eqn:G.
        + destruct (SE p v I G) as [X _]. destruct (X K) as [l E]. subst v. auto.
        + rewrite app_nil_r. f_equal. symmetry. apply (ddel_notin sok).
          apply get_None. rewrite G0. auto. }
    rewrite S1. set (d2 := dels vp (dels ps d)).
    assert (W2: dwf d2) by (apply dels_wf; apply dels_wf; auto).
    assert (G2: forall p, In p ko \/ In p vk -> get d2 (p_name p) = get d (p_name p)).
    { intros p I. assert (Is: In p s) by (destruct I; [apply ko_s|apply vk_s]; auto).
      assert (Kp: p_kind p = KwOnly \/ p_kind p = VarKw).
      { destruct I; [left; apply (ko_kind _ _ _ _ _ _ SH)|right; apply (vk_kind _ _ _ _ _ _ SH)]; auto. }
      unfold d2. rewrite disjoint_get; auto.
      - apply disjoint_get; auto.
        + intros C. apply (ps_kind _ _ _ _ _ _ SH) in C. destruct C; intuition congruence.
        + apply ps_s.
      - intros C. apply (vp_kind _ _ _ _ _ _ SH) in C. intuition congruence.
      - apply vp_s.
      - apply dels_wf; auto. }
    rewrite cw_ko.
    2:{ apply (ko_kind _ _ _ _ _ _ SH). }
    2:{ apply nodup_app_r, nodup_app_r, nodup_app_l in N. auto. }
    2:{ simpl; auto. }
    2:{ intros p I [A B]. rewrite G2 in A by auto.
        apply (not_absent p); [apply ko_s; auto| | |split; auto];
          rewrite (ko_kind _ _ _ _ _ _ SH p I); congruence. }
    assert (E: kwpairs ko d2 = kwpairs ko d).
    { unfold kwpairs. apply flat_map_ext_in || idtac.
      assert (X: forall l, (forall p, In p l -> get d2 (p_name p) = get d (p_name p)) ->
        flat_map (fun p => match get d2 (p_name p) with Some v => [(p_name p, v)] | None => [] end) l =
        flat_map (fun p => match get d (p_name p) with Some v => [(p_name p, v)] | None => [] end) l).
      { induction l as [|a l IHl]; simpl; intros H; auto. rewrite H by auto. f_equal. apply IHl; auto. }
      apply X. auto. }
    rewrite E. cbn [app].
    assert (DE: dels (ps ++ vp ++ ko ++ vk) d = dels vk (dels ko d2)).
    { unfold d2, dels. rewrite !fold_left_app. auto. }
    rewrite DE.
    assert (G3: forall p, In p vk -> get (dels ko d2) (p_name p) = get d (p_name p)).
    { intros p I. rewrite disjoint_get; auto.
      - apply vk_s; auto.
      - intros C. apply (ko_kind _ _ _ _ _ _ SH) in C. apply (vk_kind _ _ _ _ _ _ SH) in I. congruence.
      - apply ko_s. }
    unfold ckw. pose proof dstar_wf as DW. pose proof dstar_free as DF.
    unfold dstar, star_dict in *.
    destruct (sh_vk _ _ _ _ _ _ SH) as [V|[p [V [K _]]]]; rewrite V in DW, DF |- *.
    - simpl. rewrite app_nil_r. auto.
    - assert (I: In p s) by (apply vk_s; rewrite V; left; auto).
      cbn [cw_loop dels fold_left]. fold (dels ko d2). rewrite G3 by (rewrite V; left; auto). rewrite K.
      destruct (get d (p_name p)) as [v|] eqn:G.
      + destruct (SE p v I G) as [_ X]. destruct (X K) as [m [Em _]]. subst v.
        rewrite update_new; auto. intros n J C. apply kwpairs_keys in C. apply in_names in C.
        destruct C as [q [Q F]]. subst n. apply (DF q); auto.
        * apply ko_s; auto.
        * right. apply (ko_kind _ _ _ _ _ _ SH); auto.
      + rewrite app_nil_r. do 2 f_equal. symmetry. apply (ddel_notin sok).
        apply get_None. rewrite G3 by (rewrite V; left; auto). auto.
  Qed.

  Lemma dels_all : dels s d = [] <-> forall n, In n (dkeys d) -> In n (map p_name s).
  Proof.
    split.
    - intros E n I. destruct (in_dec string_dec n (map p_name s)) as [J|J]; auto.
      exfalso. assert (G: get (dels s d) n = get d n).
      { rewrite dels_get by auto. destruct (memb String.eqb n (map p_name s)) eqn:M; auto.
        apply (memb_In sok) in M. tauto. }
      rewrite E in G. simpl in G. symmetry in G. apply get_None in G. auto.
    - intros H. destruct (dels s d) as [|[n v] r] eqn:E; auto. exfalso.
      assert (G: get (dels s d) n = Some v) by (rewrite E; unfold get; simpl; rewrite String.eqb_refl; auto).
      rewrite dels_get in G by auto.
      destruct (memb String.eqb n (map p_name s)) eqn:M; [discriminate|].
      apply (memb_false sok) in M. apply M, H.
      destruct (in_dec string_dec n (dkeys d)) as [J|J]; auto. apply get_None in J. congruence.
  Qed.

  Lemma cw_extra n : In n (dkeys d) -> ~ In n (map p_name s) ->
    call_with_arguments s d = Err ValueError.
  Proof.
    intros I N. unfold call_with_arguments. rewrite cw_whole.
    destruct (dels s d) eqn:E; auto. exfalso. apply N. apply (proj1 dels_all); auto.
  Qed.

  Lemma cw_ok : (forall n, In n (dkeys d) -> In n (map p_name s)) ->
    call_with_arguments s d = Ok (cargs, ckw).
  Proof.
    intros H. unfold call_with_arguments. rewrite cw_whole.
    rewrite (proj2 dels_all); auto.
  Qed.

  Hypothesis NG : ~ gap s d.

  Lemma collect_nth : forall l i p, (forall j q, nth_error l j = Some q -> nth_error l j = Some q) ->
    (forall j k p q, j < k -> nth_error l j = Some p -> nth_error l k = Some q ->
       get d (p_name p) = None -> get d (p_name q) = None) ->
    nth_error l i = Some p -> nth_error (collect l d) i = get d (p_name p).
  Proof.
    induction l as [|a l IH]; intros i p _ H A; [destruct i; discriminate|].
    unfold collect. cbn [flat_map]. fold (collect l d).
    assert (H': forall j k p q, j < k -> nth_error l j = Some p -> nth_error l k = Some q ->
       get d (p_name p) = None -> get d (p_name q) = None).
    { intros j k x y L X Y. apply (H (S j) (S k)); auto. lia. }
    destruct (get d (p_name a)) as [v|] eqn:G.
    - destruct i as [|i]; simpl in A; simpl.
      + injection A as <-. auto.
      + apply IH; auto.
    - assert (Z: forall q, In q l -> get d (p_name q) = None).
      { intros q Q. apply In_nth_error in Q. destruct Q as [k Q]. apply (H 0 (S k) a q); simpl; auto. lia. }
      assert (E: collect l d = []) by (apply collect_nil; auto).
      simpl. rewrite E. destruct i as [|i]; simpl in A.
      + injection A as <-. simpl. auto.
      + simpl. symmetry. apply Z. apply nth_error_In in A; auto.
  Qed.

  Lemma collect_le l : len (collect l d) <= len l.
  Proof.
    induction l as [|a l IH]; simpl; auto. unfold collect in *. simpl. rewrite app_length.
    destruct (get d (p_name a)); simpl; lia.
  Qed.
  Lemma collect_all l : (forall p, In p l -> get d (p_name p) <> None) -> len (collect l d) = len l.
  Proof.
    induction l as [|a l IH]; simpl; intros H; auto. unfold collect in *. simpl. rewrite app_length.
    rewrite IH by auto. destruct (get d (p_name a)) eqn:E; simpl; auto. exfalso. apply (H a); auto.
  Qed.

  Lemma no_gap_ps j k p q : j < k -> nth_error ps j = Some p -> nth_error ps k = Some q ->
       get d (p_name p) = None -> get d (p_name q) = None.
  Proof.
    intros L A B G. destruct (get d (p_name q)) as [v|] eqn:E; auto.
    exfalso. apply NG. exists j, k, p, q. split; auto.
    split; [apply (ps_nth _ _ _ _ _ _ SH); auto|]. split; [apply (ps_nth _ _ _ _ _ _ SH); auto|].
    split; [apply (ps_kind _ _ _ _ _ _ SH); apply nth_error_In in A; auto|]. split; auto.
    exists v. split; auto.
    pose proof (ps_kind _ _ _ _ _ _ SH q (nth_error_In _ _ B)) as [K|K]; auto.
  Qed.

  Lemma star_full : star <> [] -> forall p, In p ps -> get d (p_name p) <> None.
  Proof.
    intros S p I G. apply In_nth_error in I. destruct I as [j J]. apply NG.
    unfold star, star_values in S.
    destruct (sh_vp _ _ _ _ _ _ SH) as [V|[q [V [K _]]]]; rewrite V in S; [congruence|].
    destruct (get d (p_name q)) as [v|] eqn:E; [|congruence].
    assert (Iq: In q s) by (apply vp_s; rewrite V; left; auto).
    apply In_nth_error in Iq. destruct Iq as [k Kq].
    exists j, k, p, q. split.
    { destruct (Nat.lt_ge_cases j k); auto. exfalso.
      assert (k < len ps).
      { assert (j < len ps) by (apply nth_error_Some; congruence). lia. }
      pose proof Kq as Kq'. rewrite (sh_s _ _ _ _ _ _ SH) in Kq'.
      rewrite nth_error_app1 in Kq' by auto. apply nth_error_In in Kq'.
      apply (ps_kind _ _ _ _ _ _ SH) in Kq'. destruct Kq'; congruence. }
    split; [apply (ps_nth _ _ _ _ _ _ SH); auto|]. split; auto.
    split; [apply (ps_kind _ _ _ _ _ _ SH); apply nth_error_In in J; auto|]. split; auto.
    exists v. split; auto. right; right. split; auto. intros C. subst v. congruence.
  Qed.

  Lemma args_nth i p : nth_error ps i = Some p -> nth_error cargs i = get d (p_name p).
  Proof.
    intros A. pose proof (collect_nth ps i p (fun _ _ H => H) no_gap_ps A) as C.
    unfold cargs. destruct (get d (p_name p)) eqn:G.
    - rewrite nth_error_app1; auto. apply nth_error_Some. congruence.
    - destruct star eqn:S.
      + rewrite app_nil_r. auto.
      + exfalso. apply (star_full) with (p := p); auto; [congruence|]. apply nth_error_In in A; auto.
  Qed.

  Lemma args_skip : skipn (len ps) cargs = star.
  Proof.
    unfold cargs. destruct star eqn:S.
    - rewrite app_nil_r. apply skipn_all2. apply collect_le.
    - assert (L: len (collect ps d) = len ps).
      { apply collect_all. apply star_full. congruence. }
      rewrite skipn_app, L, Nat.sub_diag. simpl. rewrite skipn_all2; auto. lia.
  Qed.

  Lemma kw_pk p : In p pk -> get ckw (p_name p) = None.
  Proof.
    intros I. unfold ckw. rewrite get_app.
    replace (get (kwpairs ko d) (p_name p)) with (@None val).
    - apply get_None. apply dstar_free; [apply pk_s; auto|]. left. apply (pk_kind _ _ _ _ _ _ SH); auto.
    - symmetry. apply get_None. intros C. apply kwpairs_keys in C. apply in_names in C.
      destruct C as [q [Q F]]. assert (q = p).
      { apply (same_name _ _ _ _ _ _ SH); auto; [apply ko_s|apply pk_s]; auto. }
      subst q. apply (ko_kind _ _ _ _ _ _ SH) in Q. apply (pk_kind _ _ _ _ _ _ SH) in I. congruence.
  Qed.
  Lemma kw_ko p : In p ko -> get ckw (p_name p) = get d (p_name p).
  Proof.
    intros I. unfold ckw. rewrite get_app. rewrite kwpairs_get; auto.
    - destruct (get d (p_name p)) eqn:G; auto. apply get_None.
      apply dstar_free; [apply ko_s; auto|]. right. apply (ko_kind _ _ _ _ _ _ SH); auto.
    - pose proof s_nodup4 as N. apply nodup_app_r, nodup_app_r, nodup_app_l in N. auto.
  Qed.

  Lemma cw_value i p : nth_error s i = Some p -> value_of s cargs ckw i p = promised d p.
  Proof.
    intros A. pose proof (nth_error_In _ _ A) as I.
    pose proof (of_kind _ _ _ _ _ _ SH p I) as O.
    unfold value_of, promised. destruct (p_kind p) eqn:K.
    - rewrite args_nth with (p := p); auto. apply (nth_ps _ _ _ _ _ _ SH); auto. left; auto.
    - rewrite args_nth with (p := p) by (apply (nth_ps _ _ _ _ _ _ SH); auto; right; auto).
      fold (get ckw (p_name p)). rewrite kw_pk by auto. auto.
    - rewrite (slots_ps _ _ _ _ _ _ SH). fold ps. rewrite args_skip. unfold star, star_values.
      destruct (sh_vp _ _ _ _ _ _ SH) as [V|[q [V _]]].
      { rewrite V in O. destruct O. }
      rewrite V in O. rewrite V. destruct O as [O|[]]. subst q.
      destruct (get d (p_name p)) as [v|] eqn:G; auto.
      destruct (SE p v I G) as [X _]. destruct (X K) as [l E]. subst v. auto.
    - fold (get ckw (p_name p)). rewrite kw_ko by auto. auto.
    - assert (F: filter (fun e => negb (existsb
        (fun q => String.eqb (p_name q) (fst e)
                && match p_kind q with PosOrKw | KwOnly => true | _ => false end) s)) ckw = dstar).
      { unfold ckw. rewrite filter_app.
        rewrite filter_nil, filter_all; auto.
        - intros [n v] J. cbn [fst]. apply negb_true_iff.
          destruct (existsb _ s) eqn:X; auto. apply (existsb_named _ _ _ _ _ _ SH) in X.
          destruct X as [q [Q N]]. exfalso. apply (dstar_free q).
          + apply in_app_or in Q. destruct Q; [apply pk_s|apply ko_s]; auto.
          + apply in_app_or in Q. destruct Q as [Q|Q];
              [left; apply (pk_kind _ _ _ _ _ _ SH)|right; apply (ko_kind _ _ _ _ _ _ SH)]; auto.
          + apply (in_map fst) in J. simpl in J. rewrite N. auto.
        - intros [n v] J. cbn [fst]. apply negb_false_iff. apply (existsb_named _ _ _ _ _ _ SH).
          apply (in_map fst) in J. simpl in J. apply kwpairs_keys in J. apply in_names in J.
          destruct J as [q [Q N]]. exists q. split; auto. apply in_or_app; auto. }
      rewrite F. unfold dstar, star_dict.
      destruct (sh_vk _ _ _ _ _ _ SH) as [V|[q [V _]]].
      { rewrite V in O. destruct O. }
      rewrite V in O. rewrite V. destruct O as [O|[]]. subst q.
      destruct (get d (p_name p)) as [v|] eqn:G; auto.
      destruct (SE p v I G) as [_ X]. destruct (X K) as [m [E _]]. subst v. auto.
  Qed.

  Lemma cw_accepts : python_accepts s cargs ckw.
  Proof.
    split.
    - intros [i [p [A V]]]. rewrite cw_value in V by auto. apply (FULL p); auto.
      apply nth_error_In in A; auto.
    - intros [[L N]|[[n [I [N F]]]|[i [p [A [K [L I]]]]]]].
      + destruct star eqn:S.
        * unfold cargs in L. rewrite ?S, app_nil_r, (slots_ps _ _ _ _ _ _ SH) in L. fold ps in L.
          pose proof (collect_le ps). lia.
        * apply N. unfold star, star_values in S.
          destruct (sh_vp _ _ _ _ _ _ SH) as [V|[q [V [K _]]]]; rewrite V in S; [discriminate|].
          exists q. split; auto. apply vp_s. rewrite V. left; auto.
      + unfold ckw, dkeys in I. rewrite map_app, in_app_iff in I. destruct I as [I|I].
        * apply kwpairs_keys in I. apply in_names in I. destruct I as [q [Q E]].
          apply (F q); auto; [apply ko_s; auto|]. right. apply (ko_kind _ _ _ _ _ _ SH); auto.
        * apply N. unfold dstar, star_dict in I.
          destruct (sh_vk _ _ _ _ _ _ SH) as [V|[q [V [K _]]]]; rewrite V in I; [destruct I|].
          exists q. split; auto. apply vk_s. rewrite V. left; auto.
      + pose proof (of_kind _ _ _ _ _ _ SH p (nth_error_In _ _ A)) as O. rewrite K in O.
        apply kw_pk in O. apply get_None in O. auto.
  Qed.
End CallWith.

(* ---- the theorems, for writable signatures ---- *)
Lemma py_bind_err s args kw e : py_bind s args kw = Err e -> e = TypeError.
Proof.
  unfold py_bind. destruct (bind_positionals _ _) as [b su].
  destruct (_ && _); [congruence|]. destruct (_ && _); [congruence|].
  generalize (unclaimed s kw). intros ex. revert e.
  generalize s at 1. intros l. induction l as [|p l IH]; intros e H; [discriminate|].
  cbn [bind_params] in H. fold (bind_one p b su ex kw) in H.
  destruct (bind_one p b su ex kw) as [v|e'] eqn:O.
  - destruct (bind_params l b su ex kw); [discriminate|]. injection H as <-. auto.
  - injection H as <-. unfold bind_one in O. destruct (p_kind p); try discriminate;
      destruct (get b (p_name p)), (if fills_by_name p then get kw (p_name p) else None);
      try destruct (p_default p); congruence.
Qed.

Lemma call_rule s args kw : writable s ->
  (forall r, py_bind s args kw = Ok r ->
     python_accepts s args kw /\ python_binding s args kw r /\ dkeys r = map p_name s) /\
  (forall e, py_bind s args kw = Err e -> e = TypeError /\ ~ python_accepts s args kw).
Proof.
  intros W. destruct (writable_shaped _ W) as [po [pk [vp [ko [vk SH]]]]]. split.
  - intros r R.
    assert (A: python_accepts s args kw).
    { split; intros C.
      - rewrite (bind_lacking _ _ _ _ _ _ SH) in R by auto. discriminate.
      - rewrite (bind_too_many _ _ _ _ _ _ SH) in R by auto. discriminate. }
    split; auto. destruct (bind_accepted _ _ _ _ _ _ SH args kw A) as [r' [R' X]].
    congruence.
  - intros e E. split; [apply py_bind_err in E; auto|]. intros A.
    destruct (bind_accepted _ _ _ _ _ _ SH args kw A) as [r' [R' X]]. congruence.
Qed.

Lemma unreserved kw : (forall n, In n reserved -> ~ In n (dkeys kw)) ->
  has kw "function" || has kw "special_behaviour" = false.
Proof.
  intros H. rewrite !has_get.
  rewrite (proj2 (get_None kw "function")), (proj2 (get_None kw "special_behaviour")); auto;
    apply H; simpl; auto.
Qed.

Lemma get_arguments_binding s args kw : writable s -> dwf kw ->
  (forall n, In n reserved -> ~ In n (dkeys kw)) ->
  python_accepts s args kw -> ~ named_before_star s args ->
  exists b, get_arguments s args kw = Ok b /\ python_binding s args kw b.
Proof.
  intros W K R [L T] B. destruct (writable_shaped _ W) as [po [pk [vp [ko [vk SH]]]]].
  unfold get_arguments. rewrite unreserved by auto.
  destruct (ga_found _ _ _ _ _ _ SH args kw K L B) as [b [E [V [_ N]]]].
  exists b. split; auto. split; auto. intros i p A. apply V; auto. right.
  intros C. apply T. right; right. auto.
Qed.

Lemma get_arguments_missing s args kw : writable s -> dwf kw -> lacking s args kw ->
  get_arguments s args kw = Err TypeError.
Proof.
  intros W K L. destruct (writable_shaped _ W) as [po [pk [vp [ko [vk SH]]]]].
  unfold get_arguments. destruct (_ || _); auto. apply (ga_lacking _ _ _ _ _ _ SH); auto.
Qed.

Lemma get_arguments_star s args kw : writable s -> dwf kw -> named_before_star s args ->
  get_arguments s args kw = Err TypeError.
Proof.
  intros W K L. destruct (writable_shaped _ W) as [po [pk [vp [ko [vk SH]]]]].
  unfold get_arguments. destruct (_ || _); auto. apply (ga_skipped _ _ _ _ _ _ SH); auto.
Qed.

Lemma get_arguments_lenient s args kw : writable s -> dwf kw ->
  (forall n, In n reserved -> ~ In n (dkeys kw)) ->
  ~ lacking s args kw -> ~ named_before_star s args ->
  exists b, get_arguments s args kw = Ok b /\
    (forall i p, nth_error s i = Some p -> p_kind p <> VarKw ->
       get b (p_name p) = value_of s args kw i p) /\
    (forall n, In n (dkeys b) <-> In n (map p_name s)).
Proof.
  intros W K R L B. destruct (writable_shaped _ W) as [po [pk [vp [ko [vk SH]]]]].
  unfold get_arguments. rewrite unreserved by auto.
  destruct (ga_found _ _ _ _ _ _ SH args kw K L B) as [b [E [V [G N]]]].
  exists b. split; auto. split.
  - intros i p A C. apply V; auto.
  - intros n. split; auto. intros I. apply in_map_iff in I. destruct I as [p [<- I]].
    destruct (in_dec string_dec (p_name p) (dkeys b)) as [J|J]; auto.
    apply get_None in J. exfalso. apply (G p); auto.
Qed.

Lemma get_arguments_only s args kw e : get_arguments s args kw = Err e -> e = TypeError.
Proof.
  unfold get_arguments, get_arguments_. destruct (_ || _); [congruence|].
  destruct (ga_positionals _ _ _ _ _) as [lv al].
  generalize (ga_keywords false (filter (fun p => takes_keyword p && memb String.eqb (p_name p) al) s) kw lv).
  induction s as [|p s' IH]; simpl; intros v H; [discriminate|].
  destruct (has v (p_name p)); [eauto|congruence].
Qed.

Lemma gp_wf : forall ps args lv al, dwf lv -> dwf (fst (ga_positionals false ps args lv al)).
Proof.
  induction ps as [|p ps IH]; intros args lv al W; auto. cbn [ga_positionals].
  assert (W': forall v, dwf (set lv (p_name p) v)) by (intros; apply (dset_wf sok); auto).
  destruct (_ && _); auto. destruct args; auto. destruct (p_default p); auto.
Qed.
Lemma gk_wf : forall ks kw lv, dwf lv -> dwf (ga_keywords false ks kw lv).
Proof.
  induction ks as [|p ks IH]; intros kw lv W; auto. cbn [ga_keywords].
  assert (W': forall v, dwf (set lv (p_name p) v)) by (intros; apply (dset_wf sok); auto).
  destruct (_ && _); auto. destruct (get kw (p_name p)); auto. destruct (p_default p); auto.
Qed.
Lemma ga_wf s args kw b : get_arguments s args kw = Ok b -> dwf b.
Proof.
  unfold get_arguments, get_arguments_. destruct (_ || _); [discriminate|].
  destruct (ga_positionals false (filter takes_positional s) args [] (map p_name s)) as [lv al] eqn:E.
  assert (W: dwf lv).
  { change lv with (fst (lv, al)). rewrite <- E. apply gp_wf. constructor. }
  intros H. assert (X: forall ps v, ga_rest false ps v = Ok b -> v = b).
  { induction ps as [|p ps IH]; simpl; intros v X; [congruence|]. destruct (has v (p_name p)); auto.
    discriminate. }
  apply X in H. subst b. apply gk_wf; auto.
Qed.

Lemma call_with_missing s d p : writable s -> In p s -> promised d p = None ->
  call_with_arguments s d = Err TypeError.
Proof.
  intros W. destruct (writable_shaped _ W) as [po [pk [vp [ko [vk SH]]]]].
  apply (cw_missing _ _ _ _ _ _ SH).
Qed.

Lemma call_with_extra s d n : writable s -> dwf d -> sensible s d ->
  (forall p, In p s -> promised d p <> None) -> In n (dkeys d) -> ~ In n (map p_name s) ->
  call_with_arguments s d = Err ValueError.
Proof.
  intros W. destruct (writable_shaped _ W) as [po [pk [vp [ko [vk SH]]]]].
  intros. apply (cw_extra _ _ _ _ _ _ SH d) with (n := n); auto.
Qed.

Lemma call_with_values s d : writable s -> dwf d -> sensible s d ->
  (forall p, In p s -> promised d p <> None) -> (forall n, In n (dkeys d) -> In n (map p_name s)) ->
  ~ gap s d ->
  exists args kw, call_with_arguments s d = Ok (args, kw) /\ python_accepts s args kw /\
    forall i p, nth_error s i = Some p -> value_of s args kw i p = promised d p.
Proof.
  intros W WD SE F X G. destruct (writable_shaped _ W) as [po [pk [vp [ko [vk SH]]]]].
  do 2 eexists. split; [apply (cw_ok _ _ _ _ _ _ SH d); auto|]. split.
  - apply (cw_accepts _ _ _ _ _ _ SH d); auto.
  - intros i p A. apply (cw_value _ _ _ _ _ _ SH d); auto.
Qed.

Lemma same_dict : forall (a b : vars), dwf a -> dkeys a = dkeys b ->
  (forall n, In n (dkeys a) -> get a n = get b n) -> a = b.
Proof.
  induction a as [|[n v] a IH]; intros [|[m w] b] W K H; auto; try discriminate.
  simpl in K. injection K as K1 K2. subst m. unfold dwf in W. simpl in W.
  inversion W as [|x y X Y]; subst. f_equal.
  - specialize (H n (or_introl eq_refl)). unfold get in H. simpl in H.
    rewrite String.eqb_refl in H. congruence.
  - apply IH; auto. intros k I. specialize (H k (or_intror I)). unfold get in *. simpl in H.
    destruct (String.eqb n k) eqn:E; auto. apply String.eqb_eq in E. subst. tauto.
Qed.

Lemma round_trip s args kw b : writable s -> dwf kw -> python_accepts s args kw ->
  get_arguments s args kw = Ok b ->
  exists args' kw', call_with_arguments s b = Ok (args', kw') /\
    py_bind s args' kw' = py_bind s args kw.
Proof.
  intros W K A E. destruct (writable_shaped _ W) as [po [pk [vp [ko [vk SH]]]]].
  assert (B: ~ named_before_star s args).
  { intros C. rewrite get_arguments_star in E by auto. discriminate. }
  assert (R: forall n, In n reserved -> ~ In n (dkeys kw)).
  { intros n I C. unfold get_arguments in E.
    assert (X: has kw n = true).
    { rewrite has_get. destruct (get kw n) eqn:G; auto. apply get_None in G. tauto. }
    destruct I as [I|[I|[]]]; subst n; rewrite X in E; simpl in E; [|rewrite orb_true_r in E];
      discriminate. }
  destruct (get_arguments_binding s args kw W K R A B) as [b' [E' [V N]]].
  assert (b' = b) by congruence. subst b'.
  assert (F: forall p, In p s -> get b (p_name p) <> None).
  { intros p I C. apply In_nth_error in I. destruct I as [i I]. destruct A as [L _].
    apply L. exists i, p. split; auto. rewrite <- (V i p I). auto. }
  assert (PF: forall i p, nth_error s i = Some p -> promised b p = value_of s args kw i p).
  { intros i p I. rewrite <- (V i p I). unfold promised.
    destruct (get b (p_name p)) eqn:G; auto. exfalso. apply (F p); auto. apply nth_error_In in I; auto. }
  assert (WB: dwf b) by (apply ga_wf in E; auto).
  assert (FU: forall p, In p s -> promised b p <> None).
  { intros p I C. apply (F p I). unfold promised in C. destruct (get b (p_name p)); congruence. }
  assert (SE: sensible s b).
  { intros p v I G. apply In_nth_error in I. destruct I as [i I].
    rewrite (V i p I) in G. unfold value_of in G. split; intros KK; rewrite KK in G.
    - injection G as <-. eauto.
    - injection G as <-. eexists. split; [reflexivity|]. split.
      + apply filter_wf; auto.
      + intros q Q BN C. unfold dkeys in C. apply in_map_iff in C. destruct C as [[m w] [C1 C2]].
        apply filter_In in C2. destruct C2 as [_ C2]. cbn [fst] in *. subst m.
        apply negb_true_iff in C2. assert (X: existsb (fun q0 => String.eqb (p_name q0) (p_name q)
          && match p_kind q0 with PosOrKw | KwOnly => true | _ => false end) s = true).
        { apply existsb_exists. exists q. split; auto. rewrite String.eqb_refl.
          destruct BN as [BN|BN]; rewrite BN; auto. }
        congruence. }
  assert (NG: ~ gap s b).
  { intros [i [j [p [q [_ [I [_ [_ [G _]]]]]]]]]. apply (F p); auto. apply nth_error_In in I; auto. }
  destruct (call_with_values s b W WB SE FU N NG) as [args' [kw' [C [A' V']]]].
  exists args', kw'. split; auto.
  destruct (bind_accepted _ _ _ _ _ _ SH args kw A) as [r [R1 [[R2 _] R3]]].
  destruct (bind_accepted _ _ _ _ _ _ SH args' kw' A') as [r' [R1' [[R2' _] R3']]].
  rewrite R1, R1'. f_equal. apply same_dict.
  - unfold dwf. rewrite R3'. apply (wr_names W).
  - congruence.
  - intros n I. rewrite R3' in I. apply in_map_iff in I. destruct I as [p [<- I]].
    apply In_nth_error in I. destruct I as [i I].
    rewrite (R2 i p I), (R2' i p I). rewrite (V' i p I). apply PF; auto.
Qed.

(* ---- a decision procedure for examples ---- *)
Fixpoint nodupb (l : list string) : bool :=
  match l with [] => true | a :: t => negb (memb String.eqb a t) && nodupb t end.
Lemma nodupb_ok l : nodupb l = true -> NoDup l.
Proof.
  induction l as [|a l IH]; simpl; intros H; constructor; apply andb_true_iff in H; destruct H as [A B]; auto.
  apply negb_true_iff, (memb_false sok) in A. auto.
Qed.

Definition pair_ok (s : sig) (i j : nat) : bool :=
  match nth_error s i, nth_error s j with
  | Some p, Some q =>
      implb (i <? j) (rank (p_kind p) <=? rank (p_kind q)) &&
      implb (kind_eqb (p_kind p) VarPos && kind_eqb (p_kind q) VarPos) (i =? j) &&
      implb (kind_eqb (p_kind p) VarKw && kind_eqb (p_kind q) VarKw) (i =? j)
  | _, _ => true
  end.
Definition star_ok (p : param) : bool :=
  match p_kind p, p_default p with VarPos, Some _ | VarKw, Some _ => false | _, _ => true end.
Definition writableb (s : sig) : bool :=
  nodupb (map p_name s) &&
  forallb (fun i => forallb (pair_ok s i) (seq 0 (len s))) (seq 0 (len s)) &&
  forallb star_ok s.

Lemma writableb_ok s : writableb s = true -> writable s.
Proof.
  unfold writableb. intros H. apply andb_true_iff in H. destruct H as [H C].
  apply andb_true_iff in H. destruct H as [A B].
  assert (P: forall i j p q, nth_error s i = Some p -> nth_error s j = Some q -> pair_ok s i j = true).
  { intros i j p q I J. rewrite forallb_forall in B.
    assert (Bi: forallb (pair_ok s i) (seq 0 (len s)) = true).
    { apply B. apply in_seq. split; [lia|]. apply nth_error_Some. congruence. }
    rewrite forallb_forall in Bi. apply Bi. apply in_seq. split; [lia|]. apply nth_error_Some. congruence. }
  split.
  - apply nodupb_ok; auto.
  - intros i j p q L I J. specialize (P i j p q I J). unfold pair_ok in P. rewrite I, J in P.
    apply andb_true_iff in P. destruct P as [P _]. apply andb_true_iff in P. destruct P as [P _].
    apply Nat.ltb_lt in L. rewrite L in P. simpl in P. apply Nat.leb_le in P. auto.
  - intros i j p q I J Kp Kq. specialize (P i j p q I J). unfold pair_ok in P.
    rewrite I, J, Kp, Kq in P. apply andb_true_iff in P. destruct P as [P _].
    apply andb_true_iff in P. destruct P as [_ P]. simpl in P. apply Nat.eqb_eq in P. auto.
  - intros i j p q I J Kp Kq. specialize (P i j p q I J). unfold pair_ok in P.
    rewrite I, J, Kp, Kq in P. apply andb_true_iff in P. destruct P as [_ P].
    simpl in P. apply Nat.eqb_eq in P. auto.
  - intros p I K. rewrite forallb_forall in C. specialize (C p I). unfold star_ok in C.
    destruct K as [K|K]; rewrite K in C; destruct (p_default p); congruence.
Qed.

Lemma bound_accepts s args kw r : writableb s = true -> py_bind s args kw = Ok r ->
  python_accepts s args kw.
Proof. intros W E. apply (proj1 (call_rule s args kw (writableb_ok s W)) r E). Qed.
Lemma unbound_rejects s args kw : writableb s = true -> py_bind s args kw = Err TypeError ->
  ~ python_accepts s args kw.
Proof. intros W E. apply (proj2 (call_rule s args kw (writableb_ok s W)) _ E). Qed.
