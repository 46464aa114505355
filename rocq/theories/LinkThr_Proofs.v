From Verif Require Import Prelude Metrics_Spec MetrThr_Model MetrThr_Spec MetrThr_Proofs LinkThr_Model LinkThr_Spec.
Local Open Scope Z_scope.
Set Implicit Arguments.
Local Arguments Z.add : simpl never.

Lemma saw_snoc a l b a' : saw a (l ++ [(b, a')]) = if a' =? a then b :: saw a l else saw a l.
Proof. unfold saw. rewrite rev_app_distr. reflexivity. Qed.
Lemma told_snoc a s b a' : told_of a (tell s b a') = if a' =? a then told_of a s ++ [b] else told_of a s.
Proof. unfold told_of. simpl. rewrite filter_app, map_app. simpl. destruct (a' =? a); simpl; auto. apply app_nil_r. Qed.

Definition call_of (x : code) : bool * Z :=
  match x with
  | SZero a | SRead a | SWrite a _ | SWorking a | STest a | SSet a | STell a => (true, a)
  | FRead a | FWrite a _ | FZero a | FWorking a | FTest a | FSet a | FTell a => (false, a)
  end.
Lemma call_first d : call_of (first d) = d.
Proof. destruct d as [[|] a]; reflexivity. Qed.

Section Link.
  Variables N M : Z.
  Let cfg := config links (bool * Z) code unit.

  (** a step changes nothing of other addresses *)
  Lemma others x s a : snd (call_of x) <> a -> link_of (fst (exec N M x s)) a = link_of s a /\ told_of a (fst (exec N M x s)) = told_of a s.
  Proof.
    intros D. assert (E : a =? snd (call_of x) = false) by (apply Z.eqb_neq; auto). assert (E' : snd (call_of x) =? a = false) by (apply Z.eqb_neq; auto).
    destruct x; simpl in *; rewrite ?E, ?told_snoc, ?E'; auto.
  Qed.
  Lemma stays_call x s y : snd (exec N M x s) = Next y -> call_of y = call_of x.
  Proof. destruct x; simpl; try (injection 1 as <-; reflexivity); try discriminate; destruct (_ : bool); intros H; inversion H; reflexivity. Qed.

  (** inside a call about [a], when the outcomes of the calls before were [o] *)
  Definition mid (o : list bool) (x : code) (s : links) : Prop :=
    let a := snd (call_of x) in
    let f := fails (link_of s a) in let g := succs (link_of s a) in let u := up (link_of s a) in
    let before := u = online N M o in
    told_of a s = changes N M o /\
    match x with
    | SZero _ => f = streak false o /\ g = streak true o /\ before
    | SRead _ => f = 0 /\ g = streak true o /\ before
    | SWrite _ n => f = 0 /\ n = streak true o /\ before
    | SWorking _ => f = 0 /\ g = 1 + streak true o /\ before
    | STest _ => f = 0 /\ g = 1 + streak true o /\ before /\ online N M o = false
    | SSet _ => f = 0 /\ g = 1 + streak true o /\ g = M /\ online N M o = false
    | STell _ => f = 0 /\ g = 1 + streak true o /\ g = M /\ online N M o = false /\ u = true
    | FRead _ => f = streak false o /\ g = streak true o /\ before
    | FWrite _ n => n = streak false o /\ before
    | FZero _ => f = 1 + streak false o /\ before
    | FWorking _ => f = 1 + streak false o /\ g = 0 /\ before
    | FTest _ => f = 1 + streak false o /\ g = 0 /\ before /\ online N M o = true
    | FSet _ => f = 1 + streak false o /\ g = 0 /\ f = N /\ online N M o = true
    | FTell _ => f = 1 + streak false o /\ g = 0 /\ f = N /\ online N M o = true /\ u = false
    end.
  Definition right (o : list bool) (a : Z) (s : links) : Prop :=
    fails (link_of s a) = streak false o /\ succs (link_of s a) = streak true o /\ up (link_of s a) = online N M o /\ told_of a s = changes N M o.
  Lemma mid_first o d s : right o (snd d) s -> mid o (first d) s.
  Proof. destruct d as [[|] a]; intros (R1 & R2 & R3 & R4); unfold mid; simpl; auto. Qed.
  Lemma mid_step o x s : mid o x s ->
    match exec N M x s with
    | (s', Next y) => mid o y s'
    | (s', Returned _) => right (fst (call_of x) :: o) (snd (call_of x)) s'
    | (s', Raised _) => False
    end.
  Proof.
    intros [T H]. destruct x; unfold mid, right; simpl in *; rewrite ?Z.eqb_refl; simpl; rewrite ?told_snoc, ?Z.eqb_refl, ?T.
    - tauto.
    - tauto.
    - destruct H as (H1 & -> & H3). repeat split; auto; lia.
    - destruct H as (H1 & H2 & H3). destruct (up (link_of s a)) eqn:U; unfold mid, right; simpl; rewrite ?U, ?T, <- ?H3; simpl; rewrite ?app_nil_r; repeat split; auto.
    - destruct H as (H1 & H2 & H3 & H4). destruct (succs (link_of s a) =? M) eqn:E; unfold mid, right; simpl; rewrite ?T; [apply Z.eqb_eq in E; auto 6|].
      rewrite H3, H4. rewrite H2 in E. rewrite E. simpl. rewrite ?app_nil_r; repeat split; auto.
    - destruct H as (H1 & H2 & H3 & H4). auto 6.
    - destruct H as (H1 & H2 & H3 & H4 & H5). rewrite H4, H5. rewrite H2 in H3. apply Z.eqb_eq in H3. rewrite H3. simpl. auto.
    - tauto.
    - destruct H as (-> & H3). repeat split; auto; lia.
    - tauto.
    - destruct H as (H1 & H2 & H3). destruct (up (link_of s a)) eqn:U; unfold mid, right; simpl; rewrite ?U, ?T, <- ?H3; simpl; rewrite ?app_nil_r; repeat split; auto.
    - destruct H as (H1 & H2 & H3 & H4). destruct (fails (link_of s a) =? N) eqn:E; unfold mid, right; simpl; rewrite ?T; [apply Z.eqb_eq in E; auto 6|].
      rewrite H3, H4. rewrite H1 in E. rewrite E. simpl. rewrite ?app_nil_r; repeat split; auto.
    - destruct H as (H1 & H2 & H3 & H4). auto 6.
    - destruct H as (H1 & H2 & H3 & H4 & H5). rewrite H4, H5. rewrite H1 in H3. apply Z.eqb_eq in H3. rewrite H3. simpl. auto.
  Qed.

  (** *** one call at a time *)
  Lemma link_solo programs schedule : one_at_a_time first (exec N M) (link_start programs) schedule ->
    let c := link_run N M (link_start programs) schedule in idle c -> forall a, right_about N M a (ended c) (shared c).
  Proof.
    intros O. refine (proj2 (@solo_start _ _ _ _ first (exec N M) (fun L s => forall a, right_about N M a L s)
      (fun L d x s => call_of x = d /\ mid (saw (snd d) L) x s /\ forall a, a <> snd d -> right_about N M a L s) (fun _ _ _ => True) _ _ no_links programs schedule _ O)).
    - intros L d s H. split; [apply call_first|]. split; auto. apply mid_first. apply H.
    - intros L d x s (C & H & A). pose proof (mid_step H) as St. assert (Ot : forall a, a <> snd d -> right_about N M a L (fst (exec N M x s))).
      { intros a D. destruct (@others x s a) as [E1 E2]; [rewrite C; auto|]. unfold right_about. rewrite E1, E2. apply A. auto. }
      pose proof (@stays_call x s) as Y. destruct (exec N M x s) as [s' [y|r|e]]; simpl in *; auto.
      + split; [rewrite (Y y eq_refl); auto|]. auto.
      + split; auto. intros a. unfold right_about. subst d. destruct (call_of x) as [b a']. simpl in *. rewrite saw_snoc. destruct (Z.eqb_spec a' a) as [->|D]; [exact St|].
        apply Ot. auto.
    - intros a. unfold right_about. simpl. auto.
  Qed.

  (** *** an address that only one thread reports *)
  Record own (t : nat) (a : Z) (c : cfg) : Prop := {
    o_todo : forall u b, u <> t -> ~ In (b, a) (todo c u);
    o_call : forall u d x, current c u = Some (d, x) -> call_of x = d;
    o_cur : forall u d x, u <> t -> current c u = Some (d, x) -> snd d <> a;
    o_at : match current c t with
           | Some (d, x) => if snd d =? a then mid (saw a (ended c)) x (shared c) else right_about N M a (ended c) (shared c)
           | None => right_about N M a (ended c) (shared c)
           end }.
  Lemma right_same a L s s' : link_of s' a = link_of s a /\ told_of a s' = told_of a s -> right_about N M a L s -> right_about N M a L s'.
  Proof. intros [E1 E2]. unfold right_about. rewrite E1, E2. auto. Qed.
  Lemma mid_same a o x s s' : snd (call_of x) = a -> link_of s' a = link_of s a /\ told_of a s' = told_of a s -> mid o x s -> mid o x s'.
  Proof. intros <- [E1 E2]. unfold mid. rewrite E1, E2. auto. Qed.
  Lemma own_turn t a c u : own t a c -> own t a (turn first (exec N M) c u).
  Proof.
    intros [I1 I2 I3 I4]. unfold turn. destruct (current c u) as [[d x]|] eqn:C.
    - pose proof (I2 _ _ _ C) as Cx. pose proof (@others x (shared c) a) as Ot. pose proof (@mid_step (saw a (ended c)) x (shared c)) as St. pose proof (@stays_call x (shared c)) as Y.
      rewrite Cx in *. destruct (exec N M x (shared c)) as [s' n] eqn:E. simpl in Ot, Y.
      assert (Oth : u <> t -> link_of s' a = link_of (shared c) a /\ told_of a s' = told_of a (shared c)) by (intros D; apply Ot; eapply I3; eauto).
      (* what is known of thread t, if it is another one, is still so *)
      assert (Keep : forall L, (forall q, right_about N M a (ended c) q -> right_about N M a L q) -> (forall y q, mid (saw a (ended c)) y q -> mid (saw a L) y q) -> u <> t ->
        match current c t with Some (d, x) => if snd d =? a then mid (saw a L) x s' else right_about N M a L s' | None => right_about N M a L s' end).
      { intros L LR LM D. specialize (Oth D). destruct (current c t) as [[d' x']|] eqn:C'.
        - destruct (Z.eqb_spec (snd d') a) as [Q|Q]; [|eapply right_same; eauto]. apply LM. eapply (@mid_same a); eauto. rewrite (I2 _ _ _ C'). auto.
        - eapply right_same; eauto. }
      destruct n as [y|r|e].
      + constructor; simpl; auto.
        * intros u0 d0 x0. destruct (Nat.eq_dec u0 u) as [->|D]; [rewrite put_eq; intros X; injection X as <- <-; auto|rewrite put_neq; eauto].
        * intros u0 d0 x0 D0. destruct (Nat.eq_dec u0 u) as [->|D]; [rewrite put_eq; intros X; injection X as <- <-; eauto|rewrite put_neq; eauto].
        * destruct (Nat.eq_dec t u) as [->|D]; [|rewrite put_neq by auto; apply (Keep (ended c)); auto]. rewrite put_eq. rewrite C in I4. unfold ended in *. simpl.
          destruct (Z.eqb_spec (snd d) a) as [Q|Q]; [apply St; auto|]. eapply right_same; eauto.
      + assert (Sn : ended {| shared := s'; todo := todo c; current := put (current c) u None; log := log c ++ [(d, Ok r)] |} = ended c ++ [d]) by (unfold ended; simpl; rewrite map_app; reflexivity).
        constructor; rewrite ?Sn; simpl; auto.
        * intros u0 d0 x0. destruct (Nat.eq_dec u0 u) as [->|D]; [rewrite put_eq; discriminate|rewrite put_neq; eauto].
        * intros u0 d0 x0 D0. destruct (Nat.eq_dec u0 u) as [->|D]; [rewrite put_eq; discriminate|rewrite put_neq; eauto].
        * assert (Same : snd d <> a -> saw a (ended c ++ [d]) = saw a (ended c)).
          { intros Q. destruct d as [b a']. rewrite saw_snoc. simpl in Q. apply Z.eqb_neq in Q. rewrite Q. auto. }
          destruct (Nat.eq_dec t u) as [->|D].
          -- rewrite put_eq. rewrite C in I4. destruct (Z.eqb_spec (snd d) a) as [Q|Q].
             ++ specialize (St I4). unfold right_about. destruct d as [b a']. simpl in Q. subst a'. rewrite saw_snoc, Z.eqb_refl. exact St.
             ++ unfold right_about. rewrite Same by auto. eapply right_same; [apply Ot; auto|exact I4].
          -- rewrite put_neq by auto. assert (Q : snd d <> a) by (eapply I3; [|exact C]; auto). apply Keep; auto; unfold right_about; rewrite Same; auto.
      + exfalso. clear -E. destruct x; simpl in E; inversion E; destruct (_ : bool); discriminate.
    - destruct (todo c u) as [|d l] eqn:D; [constructor; auto|]. constructor; simpl.
      + intros u0 b U. destruct (Nat.eq_dec u0 u) as [->|Q]; [rewrite put_eq; intros X; apply (I1 u b); auto; rewrite D; right; auto|rewrite put_neq; auto].
      + intros u0 d0 x0. destruct (Nat.eq_dec u0 u) as [->|Q]; [rewrite put_eq; intros X; injection X as <- <-; apply call_first|rewrite put_neq; eauto].
      + intros u0 d0 x0 U. destruct (Nat.eq_dec u0 u) as [->|Q]; [rewrite put_eq; intros X; injection X as <- <-|rewrite put_neq; eauto].
        intros X. apply (I1 u (fst d)); auto. rewrite D. left. subst a. destruct d; auto.
      + destruct (Nat.eq_dec t u) as [->|Q]; [rewrite put_eq|rewrite put_neq by auto; exact I4]. rewrite C in I4. unfold ended in *. simpl.
        destruct (Z.eqb_spec (snd d) a) as [Q|Q]; auto. apply mid_first. rewrite Q. exact I4.
  Qed.
  Lemma own_run t a programs schedule : (forall u b, u <> t -> ~ In (b, a) (programs u)) -> own t a (link_run N M (link_start programs) schedule).
  Proof.
    intros P. unfold link_run. apply run_inv; [|intros; apply own_turn; auto]. constructor; simpl; auto; try discriminate. unfold right_about. simpl. auto.
  Qed.
End Link.

(** *** no callback without enough reports *)
Section Alarm.
  Variables N M : Z.
  Variable b : bool.
  Variable a : Z.
  Variable n : nat.
  Let cfg := config links (bool * Z) code unit.
  Definition wt (d : bool * Z) : Z := if Bool.eqb (fst d) b && (snd d =? a) then 1 else 0.
  Definition threshold : Z := if b then M else N.
  Definition kept (s : links) : Z := if b then succs (link_of s a) else fails (link_of s a).
  Definition adds (x : code) : bool :=
    match x with SZero _ | SRead _ | SWrite _ _ => true | FRead _ | FWrite _ _ => true | _ => false end.
  Definition pend (x : code) : Z := if adds x then wt (call_of x) else 0.
  Definition holds (x : code) (m : Z) : Prop := match x with SWrite a' v | FWrite a' v => wt (call_of x) = 1 -> 0 <= v <= m | _ => True end.
  Lemma wt_bit d : 0 <= wt d <= 1.
  Proof. unfold wt. destruct (_ && _); lia. Qed.
  Lemma alarm_step x s m : 0 <= kept s <= m -> holds x m -> 0 <= pend x ->
    match exec N M x s with
    | (s', Next y) => 0 <= kept s' <= m + pend x - pend y /\ holds y (m + pend x - pend y) /\ 0 <= pend y <= pend x
    | (s', Returned _) | (s', Raised _) => 0 <= kept s' <= m + pend x
    end.
  Proof.
    intros K H P. unfold kept, pend, holds, wt in *.
    destruct x as [a'|a'|a' v|a'|a'|a'|a'|a'|a' v|a'|a'|a'|a'|a']; simpl in *;
      repeat match goal with |- context [if up ?l then _ else _] => destruct (up l) | |- context [if ?p =? N then _ else _] => destruct (p =? N) | |- context [if ?p =? M then _ else _] => destruct (p =? M) end;
      simpl; rewrite ?(Z.eqb_sym a a'); destruct b; destruct (Z.eqb_spec a' a) as [->|]; simpl in *; try lia; repeat split; auto; try lia.
  Qed.
  Definition begun (programs : nat -> list (bool * Z)) (c : cfg) : Z := total (map wt (all_calls n programs)) - total (map wt (all_calls n (todo c))).
  Lemma less_todo c t : total (map wt (all_calls n (todo (turn first (exec N M) c t)))) <= total (map wt (all_calls n (todo c))).
  Proof.
    unfold all_calls. rewrite <- !over_flat. apply over_le. intros u _. unfold turn. destruct (current c t) as [[d x]|]; [destruct (exec N M x (shared c)) as [s' [y|r|e]]; simpl; lia|].
    destruct (todo c t) as [|d r] eqn:D; [simpl; lia|]. simpl. destruct (Nat.eq_dec u t) as [->|Q]; [rewrite put_eq, D|rewrite put_neq by auto; lia]. simpl. pose proof (wt_bit d). lia.
  Qed.
  Definition set_off (x : code) : bool := match x with SSet a' | STell a' => b && (a' =? a) | FSet a' | FTell a' => negb b && (a' =? a) | _ => false end.
  Record alarm (T : Z) (c : cfg) : Prop := {
    a_cur : forall t d x, current c t = Some (d, x) -> set_off x = true -> threshold + total (map wt (all_calls n (todo c))) <= T;
    a_told : In (b, a) (told (shared c)) -> threshold + total (map wt (all_calls n (todo c))) <= T;
    a_up : b = false -> up (link_of (shared c) a) = false -> threshold + total (map wt (all_calls n (todo c))) <= T }.
  Lemma bounded_kept T (c : cfg) : bounded wt pend kept holds n T c -> kept (shared c) + total (map wt (all_calls n (todo c))) <= T.
  Proof.
    intros (I1 & I2 & I3 & I4). unfold all_calls. rewrite <- over_flat. enough (over n (fun t => total (map wt (todo c t))) <= over n (left_of wt pend c)) by lia.
    apply over_le. intros u _. unfold left_of. destruct (current c u) as [[k y]|] eqn:E; [|lia]. destruct (I4 _ _ _ E). lia.
  Qed.
  Lemma alarm_turn T (c : cfg) t : bounded wt pend kept holds n T c -> alarm T c -> alarm T (turn first (exec N M) c t).
  Proof.
    intros B [A1 A2 A3]. pose proof (bounded_kept B) as K. pose proof (less_todo c t) as L. unfold turn in *. destruct (current c t) as [[d x]|] eqn:C.
    - pose proof (A1 _ _ _ C) as X. clear B.
      assert (Main : forall y, snd (exec N M x (shared c)) = Next y -> set_off y = true -> threshold + total (map wt (all_calls n (todo c))) <= T).
      { intros y E S. destruct (set_off x) eqn:Sx; auto. unfold set_off, kept, threshold in *.
        destruct x as [a'|a'|a' v|a'|a'|a'|a'|a'|a' v|a'|a'|a'|a'|a']; simpl in *;
        repeat match goal with H : context [if up ?l then _ else _] |- _ => destruct (up l) | H : context [if ?p =? N then _ else _] |- _ => destruct (Z.eqb_spec p N) | H : context [if ?p =? M then _ else _] |- _ => destruct (Z.eqb_spec p M) end;
        try discriminate; inversion E; subst y; try discriminate; apply andb_prop in S; destruct S as [S1 S2]; apply Z.eqb_eq in S2; subst a'; destruct b; try discriminate; try lia;
        rewrite Z.eqb_refl in Sx; discriminate. }
      assert (Told : In (b, a) (told (fst (exec N M x (shared c)))) -> threshold + total (map wt (all_calls n (todo c))) <= T).
      { intros I. unfold set_off in X. destruct x as [a'|a'|a' v|a'|a'|a'|a'|a'|a' v|a'|a'|a'|a'|a']; simpl in *; auto; apply in_app_or in I; destruct I as [I|[I|[]]]; auto; injection I as <- <-; apply X; rewrite Z.eqb_refl; auto. }
      assert (Up : b = false -> up (link_of (fst (exec N M x (shared c))) a) = false -> threshold + total (map wt (all_calls n (todo c))) <= T).
      { intros Bf. unfold set_off in X. destruct x as [a'|a'|a' v|a'|a'|a'|a'|a'|a' v|a'|a'|a'|a'|a']; simpl in *; auto; destruct (Z.eqb_spec a a') as [->|Q]; simpl; auto; try discriminate. 
        intros _. apply X. rewrite Bf, Z.eqb_refl. auto. }
      destruct (exec N M x (shared c)) as [s' [y|r|e]]; simpl in *; constructor; simpl; auto; intros u d0 x0; (destruct (Nat.eq_dec u t) as [->|Q]; [rewrite put_eq; intros Z0; try discriminate; injection Z0 as <- <-; apply Main; auto|rewrite put_neq by auto; apply A1]).
    - destruct (todo c t) as [|d l] eqn:D; [constructor; auto|]. simpl in *. constructor; simpl; [|intros I; specialize (A2 I); lia|intros I J; specialize (A3 I J); lia].
      intros u d0 x0. destruct (Nat.eq_dec u t) as [->|Q]; [rewrite put_eq; intros Z0; injection Z0 as <- <-; destruct d as [[|] a']; discriminate|rewrite put_neq by auto].
      intros Z0 S. specialize (A1 _ _ _ Z0 S). lia.
  Qed.
  Lemma total_reports l : total (map wt l) = Z.of_nat (reports b a l).
  Proof. induction l as [|d l IH]; auto. simpl. rewrite IH. unfold reports, wt. simpl. destruct (_ && _); simpl; lia. Qed.
  Lemma alarm_run programs schedule : threads_below n programs ->
    let c := link_run N M (link_start programs) schedule in
    (In (b, a) (told (shared c)) \/ b = false /\ up (link_of (shared c) a) = false) -> threshold + Z.of_nat (reports b a (all_calls n (todo c))) <= Z.of_nat (reports b a (all_calls n programs)).
  Proof.
    intros B c. rewrite <- !total_reports. set (T := total (map wt (all_calls n programs))).
    assert (I : bounded wt pend kept holds n T c /\ alarm T c).
    { unfold c, link_run. apply run_inv with (P := fun c => bounded wt pend kept holds n T c /\ alarm T c).
      - split.
        + split; [|split; [|split]]; simpl; auto.
          * intros t d _. apply wt_bit.
          * assert (Z0 : kept no_links = 0) by (unfold kept, no_links, new_link; simpl; destruct b; reflexivity). rewrite Z0.
            rewrite (over_ext (n := n) (fun t => total (map wt (programs t)))) by (intros u _; unfold left_of; simpl; lia). rewrite over_flat. unfold T, all_calls. lia.
          * discriminate.
        + constructor; simpl; try discriminate. tauto.
      - intros c0 t [I1 I2]. split; [|apply alarm_turn; auto]. apply bounded_turn; auto.
        + intros d. unfold pend. rewrite call_first. destruct d as [[|] a']; reflexivity.
        + intros d m H. destruct d as [[|] a']; simpl; auto.
        + intros x m m' H. unfold holds. destruct x; auto; intros Q W; specialize (Q W); lia.
        + intros x s m. apply alarm_step. }
    destruct I as [_ [A1 A2 A3]]. intros [H|[H1 H2]]; auto.
  Qed.
End Alarm.

(** *** a failure that nobody is told about *)
Section Missed.
  Variables N M : Z.
  Let cfg := config links (bool * Z) code unit.
  Notation F := (false, 0).
  Notation go_on := (run first (exec N M)).
  Lemma begin_ l (c : cfg) t d r : current c t = None -> todo c t = d :: r ->
    go_on c (t :: l) = go_on {| shared := shared c; todo := put (todo c) t r; current := put (current c) t (Some (d, first d)); log := log c |} l.
  Proof. intros C D. unfold run. simpl. unfold turn at 2. rewrite C, D. reflexivity. Qed.
  Lemma go_ l (c : cfg) t d x s y : current c t = Some (d, x) -> exec N M x (shared c) = (s, Next y) ->
    go_on c (t :: l) = go_on {| shared := s; todo := todo c; current := put (current c) t (Some (d, y)); log := log c |} l.
  Proof. intros C E. unfold run. simpl. unfold turn at 2. rewrite C, E. reflexivity. Qed.
  Lemma come_ l (c : cfg) t d x s : current c t = Some (d, x) -> exec N M x (shared c) = (s, Returned tt) ->
    go_on c (t :: l) = go_on {| shared := s; todo := todo c; current := put (current c) t None; log := log c ++ [(d, Ok tt)] |} l.
  Proof. intros C E. unfold run. simpl. unfold turn at 2. rewrite C, E. reflexivity. Qed.
  Record here (f : Z) (l : nat) (r0 r1 : list (bool * Z)) (c : cfg) : Prop := {
    h_f : fails (link_of (shared c) 0) = f; h_u : up (link_of (shared c) 0) = true; h_t : told (shared c) = [];
    h_0 : todo c 0%nat = r0; h_1 : todo c 1%nat = r1; h_n : forall t, (2 <= t)%nat -> todo c t = [];
    h_c : forall t, current c t = None; h_l : length (log c) = l; h_d : forall d, In d (ended c) -> d = F }.
  Definition eff (f : Z) (s : links) : Prop := fails (link_of s 0) = f /\ up (link_of s 0) = true /\ told s = [].
  Lemma e_read f s : eff f s -> exec N M (FRead 0) s = (s, Next (FWrite 0 f)).
  Proof. intros (<- & _). reflexivity. Qed.
  Lemma e_write f s v : eff f s -> exists s', exec N M (FWrite 0 v) s = (s', Next (FZero 0)) /\ eff (v + 1) s'.
  Proof. intros (E1 & E2 & E3). eexists. split; [reflexivity|]. split; simpl; auto. Qed.
  Lemma e_zero f s : eff f s -> exists s', exec N M (FZero 0) s = (s', Next (FWorking 0)) /\ eff f s'.
  Proof. intros (E1 & E2 & E3). eexists. split; [reflexivity|]. split; simpl; auto. Qed.
  Lemma e_working f s : eff f s -> exec N M (FWorking 0) s = (s, Next (FTest 0)).
  Proof. intros (E1 & E2 & E3). simpl. rewrite E2. reflexivity. Qed.
  Lemma e_test f s : eff f s -> f <> N -> exec N M (FTest 0) s = (s, Returned tt).
  Proof. intros (E1 & E2 & E3) Q. simpl. rewrite E1. apply Z.eqb_neq in Q. rewrite Q. reflexivity. Qed.
  Lemma fail_alone f l r0 r1 c : here f l (F :: r0) r1 c -> f + 1 <> N -> here (f + 1) (S l) r0 r1 (run first (exec N M) c [0;0;0;0;0;0]%nat).
  Proof.
    intros H Q. destruct H as [Hf Hu Ht H0 H1 Hn Hc Hl Hd]. assert (E : eff f (shared c)) by (repeat split; auto).
    destruct (@e_write f (shared c) f E) as (s1 & X1 & E1). destruct (e_zero E1) as (s2 & X2 & E2).
    rewrite (@begin_ _ c 0 F r0) by auto.
    erewrite go_; [|cbn [current]; rewrite ?put_neq by auto; apply put_eq|exact (e_read E)]. cbn [shared todo current log]. erewrite go_; [|cbn [current]; rewrite ?put_neq by auto; apply put_eq|exact X1]. cbn [shared todo current log]. erewrite go_; [|cbn [current]; rewrite ?put_neq by auto; apply put_eq|exact X2]. cbn [shared todo current log].
    erewrite go_; [|cbn [current]; rewrite ?put_neq by auto; apply put_eq|exact (e_working E2)]. cbn [shared todo current log]. erewrite come_; [|cbn [current]; rewrite ?put_neq by auto; apply put_eq|exact (e_test E2 Q)]. cbn [shared todo current log].
    unfold run. cbn [fold_left]. destruct E2 as (F1 & F2 & F3). constructor; cbn [shared todo current log]; auto.
    - intros t T. rewrite put_neq by lia. auto.
    - intros t. unfold put. destruct t; auto. cbn. auto.
    - rewrite app_length. simpl. lia.
    - intros d. unfold ended in *. cbn [log]. rewrite map_app. intros I. apply in_app_or in I. destruct I as [I|[I|[]]]; auto.
  Qed.
  Lemma run_two (c : cfg) l m : go_on c (l ++ m) = go_on (go_on c l) m.
  Proof. unfold run. apply fold_left_app. Qed.
  Lemma fail_many k : forall f l r0 r1 c, here f l (repeat F k ++ r0) r1 c -> (forall i, (1 <= i <= k)%nat -> f + Z.of_nat i <> N) ->
    exists schedule, here (f + Z.of_nat k) (l + k) r0 r1 (go_on c schedule).
  Proof.
    induction k as [|k IH]; intros f l r0 r1 c H Q.
    - exists []. replace (f + Z.of_nat 0) with f by lia. replace (l + 0)%nat with l by lia. exact H.
    - change (repeat F (S k) ++ r0) with (F :: (repeat F k ++ r0)) in H.
      assert (Q1 : f + 1 <> N) by (apply (Q 1%nat); lia). pose proof (fail_alone H Q1) as H'.
      assert (Q2 : forall i, (1 <= i <= k)%nat -> f + 1 + Z.of_nat i <> N) by (intros i I; assert (X := Q (S i)); lia).
      destruct (IH _ _ _ _ _ H' Q2) as [w W]. eexists (_ ++ w). rewrite run_two.
      replace (f + Z.of_nat (S k)) with (f + 1 + Z.of_nat k) by lia. replace (l + S k)%nat with (S l + k)%nat by lia. exact W.
  Qed.
  Lemma both_fail f l r0 r1 c : here f l (F :: r0) (F :: r1) c -> f + 1 + 1 <> N -> here (f + 1 + 1) (2 + l) r0 r1 (run first (exec N M) c [0;0;0; 1;1;1; 0;0;0; 1;1;1]%nat).
  Proof.
    intros H Q. destruct H as [Hf Hu Ht H0 H1 Hn Hc Hl Hd]. assert (E : eff f (shared c)) by (repeat split; auto).
    destruct (@e_write f (shared c) f E) as (s1 & X1 & E1). destruct (@e_write _ s1 (f + 1) E1) as (s2 & X2 & E2).
    destruct (e_zero E2) as (s3 & X3 & E3). destruct (e_zero E3) as (s4 & X4 & E4).
    rewrite (@begin_ _ c 0 F r0) by auto.
    erewrite go_; [|cbn [current]; rewrite ?put_neq by auto; apply put_eq|exact (e_read E)]. cbn [shared todo current log]. erewrite go_; [|cbn [current]; rewrite ?put_neq by auto; apply put_eq|exact X1]. cbn [shared todo current log].
    rewrite (@begin_ _ _ 1 F r1); [|cbn [current]; rewrite !put_neq by auto; auto|cbn [todo]; rewrite put_neq by auto; auto].
    erewrite go_; [|cbn [current]; rewrite ?put_neq by auto; apply put_eq|exact (e_read E1)]. cbn [shared todo current log]. erewrite go_; [|cbn [current]; rewrite ?put_neq by auto; apply put_eq|exact X2]. cbn [shared todo current log].
    erewrite go_; [|cbn [current]; rewrite ?put_neq by auto; apply put_eq|exact X3]. cbn [shared todo current log]. erewrite go_; [|cbn [current]; rewrite ?put_neq by auto; apply put_eq|exact (e_working E3)]. cbn [shared todo current log]. erewrite come_; [|cbn [current]; rewrite ?put_neq by auto; apply put_eq|exact (e_test E3 Q)]. cbn [shared todo current log].
    erewrite go_; [|cbn [current]; rewrite ?put_neq by auto; apply put_eq|exact X4]. cbn [shared todo current log]. erewrite go_; [|cbn [current]; rewrite ?put_neq by auto; apply put_eq|exact (e_working E4)]. cbn [shared todo current log]. erewrite come_; [|cbn [current]; rewrite ?put_neq by auto; apply put_eq|exact (e_test E4 Q)]. cbn [shared todo current log].
    unfold run. cbn [fold_left]. destruct E4 as (F1 & F2 & F3). constructor; cbn [shared todo current log]; auto.
    - intros t T. rewrite !put_neq by lia. auto.
    - intros t. unfold put. destruct t as [|[|t]]; auto. cbn. auto.
    - rewrite !app_length. simpl. lia.
    - intros d. unfold ended in *. cbn [log]. rewrite !map_app. intros I. apply in_app_or in I. destruct I as [I|[I|[]]]; auto. apply in_app_or in I. destruct I as [I|[I|[]]]; auto.
  Qed.
  Lemma missed k : 1 <= N -> exists programs schedule, let c := link_run N M (link_start programs) schedule in
    finished c /\ (forall d, In d (ended c) -> d = F) /\ N + Z.of_nat k < Z.of_nat (length (ended c)) /\ up (link_of (shared c) 0) = true /\ told (shared c) = [].
  Proof.
    intros P. set (m := Z.to_nat (N - 1)). assert (Hm : Z.of_nat m = N - 1) by (unfold m; lia).
    exists (fun t => match t with 0%nat => repeat F m ++ F :: repeat F k ++ [] | 1%nat => [F] | _ => [] end).
    match goal with |- exists schedule, let c := link_run N M (link_start ?p) schedule in _ => set (programs := p) end.
    destruct (@fail_many m 0 0 (F :: repeat F k ++ []) [F] (link_start programs)) as [w1 W1].
    - constructor; simpl; auto; try contradiction. intros [|[|t]]; auto; lia.
    - intros i I. lia.
    - assert (W2 := @both_fail _ _ _ _ _ W1 ltac:(lia)).
      destruct (@fail_many k _ _ _ _ _ W2) as [w3 W3]; [intros i I; lia|].
      exists (w1 ++ [0;0;0; 1;1;1; 0;0;0; 1;1;1]%nat ++ w3). unfold link_run. rewrite !run_two.
      destruct W3 as [Hf Hu Ht H0 H1 Hn Hc Hl Hd]. split; [split; [exact Hc|intros [|[|t]]; auto; apply Hn; lia]|]. split; auto. split; auto.
      unfold ended. rewrite map_length. rewrite Hl. lia.
  Qed.
End Missed.
