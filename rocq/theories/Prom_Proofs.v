From Coq Require Import String Ascii ZArith DecimalString DecimalZ.
From Verif Require Import Prelude PreludeFacts Prom_Model Prom_Spec.
Open Scope list_scope.
Open Scope nat_scope.

Lemma span_app : forall f a b, (forall c, In c a -> f c = true) -> match b with [] => True | c :: _ => f c = false end -> span f (a ++ b) = (a, b).
Proof.
  induction a as [|c a IH]; intros b H B; simpl.
  - destruct b as [|c b]; simpl; auto. rewrite B. auto.
  - rewrite (H c) by (simpl; auto). rewrite IH; auto. intros x I. apply H. simpl. auto.
Qed.
Lemma replace_app : forall c b s t, replace c b (s ++ t) = replace c b s ++ replace c b t.
Proof. intros. unfold replace. rewrite map_app, concat_app. auto. Qed.
Lemma replace_dot : forall n, replace "."%char (lit "_") n = map dot_to_underscore n.
Proof.
  induction n as [|c n IH]; auto. change (c :: n) with ([c] ++ n). rewrite replace_app, IH, map_app. f_equal. unfold replace. simpl. unfold dot_to_underscore.
  destruct (Ascii.eqb c "."); auto.
Qed.
Definition escaped (v : text) : text := replace """"%char ["\"%char; """"%char] (replace "\"%char ["\"%char; "\"%char] v).
Lemma escaped_cons : forall c v, escaped (c :: v) = (if Ascii.eqb c "\" then ["\"%char; "\"%char] else if Ascii.eqb c """" then ["\"%char; """"%char] else [c]) ++ escaped v.
Proof.
  intros c v. unfold escaped. change (c :: v) with ([c] ++ v). rewrite !replace_app. f_equal. unfold replace. simpl. destruct (Ascii.eqb c "\") eqn:E.
  - apply Ascii.eqb_eq in E as ->. reflexivity.
  - simpl. destruct (Ascii.eqb c """") eqn:Q; auto.
Qed.
Lemma read_quoted_ok : forall v r, ~ In newline v -> read_quoted (escaped v ++ """"%char :: r) = Some (v, r).
Proof.
  induction v as [|c v IH]; intros r N; [reflexivity|]. rewrite escaped_cons.
  assert (N1 : Ascii.eqb c newline = false) by (apply Ascii.eqb_neq; intros ->; apply N; simpl; auto).
  assert (N2 : ~ In newline v) by (intros I; apply N; simpl; auto). specialize (IH r N2).
  destruct (Ascii.eqb c "\") eqn:E.
  - apply Ascii.eqb_eq in E as ->. cbn [app]. change (read_quoted ("\"%char :: "\"%char :: escaped v ++ """"%char :: r)) with (option_map (fun p : text * text => ("\"%char :: fst p, snd p)) (read_quoted (escaped v ++ """"%char :: r))). rewrite IH. auto.
  - destruct (Ascii.eqb c """") eqn:Q.
    + apply Ascii.eqb_eq in Q as ->. cbn [app]. change (read_quoted ("\"%char :: """"%char :: escaped v ++ """"%char :: r)) with (option_map (fun p : text * text => (""""%char :: fst p, snd p)) (read_quoted (escaped v ++ """"%char :: r))). rewrite IH. auto.
    + cbn [app]. cbn [read_quoted]. rewrite Q, N1, E, IH. auto.
Qed.
Lemma join_cons2 : forall t u r, join (t :: u :: r) = t ++ lit "," ++ join (u :: r).
Proof. auto. Qed.
Lemma key_no_eq : key_char "="%char = false.
Proof. reflexivity. Qed.
Lemma read_labels_ok : forall ls fuel r, ls <> [] -> length ls <= fuel -> (forall k v, In (k, v) ls -> good_key k /\ ~ In newline v) ->
  read_labels fuel (join (map render_label ls) ++ "}"%char :: r) = Some (ls, r).
Proof.
  induction ls as [|[k v] ls IH]; intros fuel r NE L G; [congruence|]. destruct fuel as [|fuel]; [simpl in L; lia|].
  destruct (G k v (or_introl eq_refl)) as [[K1 K2] V0]. destruct k as [|c k]; [contradiction|].
  assert (E : forall rest, join (map render_label ((c :: k, v) :: ls)) ++ rest = (c :: k) ++ "="%char :: """"%char :: escaped v ++ """"%char :: (match ls with [] => rest | _ => ","%char :: join (map render_label ls) ++ rest end)).
  { intros rest. destruct ls as [|kv2 ls]; [|cbn [map]; rewrite join_cons2]; unfold render_label at 1; unfold render_label; cbn [fst snd map join]; fold (escaped v);
    rewrite <- ?app_assoc; cbn [app]; rewrite <- ?app_assoc; reflexivity. }
  rewrite E. cbn [read_labels]. rewrite span_app; auto. rewrite K1, read_quoted_ok; auto. destruct ls as [|kv2 ls]; auto.
  rewrite IH; auto; [discriminate|simpl in *; lia|]. intros k' v' I. apply G. simpl. auto.
Qed.

(** integers *)
Lemma digits_ok : forall d c, In c (lit (NilEmpty.string_of_uint d)) -> number_char c = true.
Proof. induction d; simpl; intros c I; try contradiction; destruct I as [<-|I]; auto. Qed.
Lemma show_int_ok : forall z c, In c (show_int z) -> number_char c = true.
Proof. intros z c. unfold show_int. destruct (Z.to_int z) as [d|d]; simpl; [apply digits_ok|]. intros [<-|I]; [reflexivity|]. eapply digits_ok; eauto. Qed.
Lemma read_show : forall z, read_int (show_int z) = Some z.
Proof.
  intros z. unfold read_int, show_int, lit. rewrite string_of_list_ascii_of_string. 
  rewrite NilEmpty.isi. simpl. rewrite DecimalZ.of_to. auto.
Qed.

Lemma join_length : forall ls, length ls <= length (join (map render_label ls)).
Proof.
  induction ls as [|kv ls IH]; auto. destruct ls as [|kv2 ls].
  - simpl. unfold render_label. rewrite !app_length. simpl. lia.
  - cbn [map] in *. rewrite join_cons2, !app_length. simpl length in *. lia.
Qed.
Lemma digit_dot : forall c, is_digit c = false -> is_digit (dot_to_underscore c) = false.
Proof. intros c H. unfold dot_to_underscore. destruct (Ascii.eqb c "."); auto. Qed.
Definition label_part (d : datum) : text := match labels d with [] => [] | l => lit "{" ++ join (map render_label l) ++ lit "}" end.
Definition time_part (d : datum) : text := match millis d with Some t => lit " " ++ show_int t | None => [] end.
Lemma render_eq : forall d rest, internal d = false -> render d ++ rest = map dot_to_underscore (name d) ++ label_part d ++ " "%char :: value d ++ time_part d ++ newline :: rest.
Proof.
  intros d rest I. unfold render. rewrite I, replace_dot. fold (label_part d). fold (time_part d). change (lit " ") with [" "%char]. rewrite <- !app_assoc. cbn [app]. rewrite <- ?app_assoc. reflexivity.
Qed.
Lemma read_sample_ok : forall d rest, internal d = false -> well_named d -> one_line d -> read_sample (render d ++ rest) = Some (seen_as d, rest).
Proof.
  intros d rest I ((N1 & N2) & KS & (V1 & V2)) O. rewrite render_eq by auto. unfold read_sample.
  rewrite span_app.
  - unfold seen_as. destruct (name d) as [|c n] eqn:Nm; [contradiction|]. cbn [map]. rewrite digit_dot by auto.
    assert (L : read_braces (label_part d ++ " "%char :: value d ++ time_part d ++ newline :: rest) = Some (labels d, " "%char :: value d ++ time_part d ++ newline :: rest)).
    { unfold label_part. destruct (labels d) as [|kv ls] eqn:Lb; [reflexivity|]. unfold read_braces. rewrite <- Lb in *. change (lit "{") with ["{"%char]. change (lit "}") with ["}"%char]. rewrite <- !app_assoc. cbn [app].
      apply read_labels_ok; [congruence| |].
      - rewrite app_length. etransitivity; [exact (join_length (labels d))|apply Nat.le_add_r].
      - intros k v In0. split; [apply (KS k v In0)|apply (O k v In0)]. }
    rewrite L. rewrite span_app; auto.
    + destruct (value d) as [|v0 v] eqn:Vl; [congruence|]. unfold time_part. destruct (millis d) as [t|]; [|reflexivity].
      change (lit " ") with [" "%char]. cbn [app]. rewrite span_app; auto; [|apply show_int_ok]. rewrite read_show. reflexivity.
    + unfold time_part. destruct (millis d); reflexivity.
  - intros c In0. apply in_map_iff in In0 as (x & <- & In0). auto.
  - unfold label_part. destruct (labels d); reflexivity.
Qed.
Lemma name_not_newline : forall c, name_char c = true -> Ascii.eqb c newline = false.
Proof. intros c H. apply Ascii.eqb_neq. intros ->. discriminate. Qed.
Lemma read_lines_ok : forall l fuel, (forall d, In d l -> internal d = false -> well_named d /\ one_line d) ->
  length (concat (map (fun d => if internal d then [] else render d) l)) <= fuel ->
  read_lines fuel (concat (map (fun d => if internal d then [] else render d) l)) = Some (map seen_as (filter (fun d => negb (internal d)) l)).
Proof.
  induction l as [|d l IH]; intros fuel G L; [destruct fuel; reflexivity|]. cbn [map concat filter] in *.
  assert (G' : forall d, In d l -> internal d = false -> well_named d /\ one_line d) by (intros x I; apply G; simpl; auto).
  destruct (internal d) eqn:I; cbn [negb app] in *; [apply IH; auto|]. destruct (G d (or_introl eq_refl) I) as [W O].
  set (rest := concat (map (fun d => if internal d then [] else render d) l)) in *.
  pose proof (read_sample_ok d rest I W O) as R. destruct W as ((N1 & N2) & _). rewrite app_length in L.
  assert (Sh : exists c t, render d = dot_to_underscore c :: t /\ In c (name d)).
  { pose proof (render_eq d [] I) as E. rewrite app_nil_r in E. destruct (name d) as [|c n] eqn:Nm; [contradiction|]. rewrite E. cbn [map app]. eexists c, _. split; [reflexivity|simpl; auto]. }
  destruct Sh as (c & t & Sh & Ic). rewrite Sh in *. simpl length in L. destruct fuel as [|fuel]; [lia|].
  change ((dot_to_underscore c :: t) ++ rest) with (dot_to_underscore c :: t ++ rest) in *. cbn [read_lines]. rewrite name_not_newline by auto. rewrite R, (IH fuel); auto. lia.
Qed.
Lemma decode_ok : forall l, (forall d, In d l -> internal d = false -> well_named d /\ one_line d) ->
  decode (to_prometheus l) = Some (map seen_as (filter (fun d => negb (internal d)) l)).
Proof.
  intros l G. destruct l as [|d l]; [reflexivity|]. unfold decode, to_prometheus. apply read_lines_ok; auto.
Qed.
Lemma labelled_ok : forall extra d, well_named d -> one_line d -> (forall k v, In (k, v) extra -> good_key k /\ ~ In newline v) ->
  well_named (labelled extra d) /\ one_line (labelled extra d).
Proof.
  intros extra d (A & B & C) D E.
  assert (M : forall k v, In (k, v) (labels (labelled extra d)) -> In (k, v) (labels d) \/ In (k, v) extra).
  { simpl. unfold MetricData_Model.label_merge. clear. revert d. assert (G : forall extra (cur : dict text text) k v,
      In (k, v) (fold_left (fun d kv => dset text_eqb d (fst kv) (snd kv)) extra cur) -> In (k, v) cur \/ In (k, v) extra).
    { clear. induction extra as [|[k0 v0] extra IH]; intros cur k v I; simpl in *; auto. apply IH in I as [I|I]; auto.
      assert (S0 : forall cur : dict text text, In (k, v) (dset text_eqb cur k0 v0) -> In (k, v) cur \/ (k0, v0) = (k, v)).
      { clear. assert (T : forall a b, text_eqb a b = true -> a = b) by (intros a b; unfold text_eqb; destruct (list_eq_dec ascii_dec a b); congruence).
        induction cur as [|[k1 v1] cur IH]; simpl; [intros [I|[]]; auto|]. destruct (text_eqb k1 k0) eqn:E.
        - apply T in E as ->. intros [I|I]; [right; congruence|auto].
        - intros [I|I]; auto. apply IH in I as [I|I]; auto. }
      apply S0 in I as [I|I]; auto. }
    intros d k v. apply G. }
  split; [split; [exact A|split; [|exact C]]|]; intros k v I; apply M in I as [I|I]; eauto; destruct (E k v I); auto.
Qed.
Lemma get_ok : forall extra l, (forall d, In d l -> internal d = false -> well_named d /\ one_line d) -> (forall k v, In (k, v) extra -> good_key k /\ ~ In newline v) ->
  decode (to_prometheus (map (labelled extra) l)) = Some (map (fun d => seen_as (labelled extra d)) (filter (fun d => negb (internal d)) l)).
Proof.
  intros extra l G E. rewrite decode_ok.
  - f_equal. clear. induction l as [|d l IH]; auto. cbn [map filter]. change (internal (labelled extra d)) with (internal d). destruct (negb (internal d)); cbn [map]; rewrite IH; auto.
  - intros d I J. apply in_map_iff in I as (d0 & <- & I). destruct (G d0 I J). apply labelled_ok; auto.
Qed.

Definition one (v : text) : datum := mk_datum (lit "requests.total") [(lit "path", v)] (lit "17") (Some 1500%Z) false.
Lemma one_named : forall v, well_named (one v).
Proof.
  intros v. split; [split; [reflexivity|]|split; [|split; [discriminate|]]].
  - intros c I. simpl in I. repeat (destruct I as [<-|I]; [reflexivity|]). destruct I.
  - intros k v0 [I|[]]. injection I as <- <-. split; [reflexivity|]. intros c I. simpl in I. repeat (destruct I as [<-|I]; [reflexivity|]). destruct I.
  - intros c I. simpl in I. repeat (destruct I as [<-|I]; [reflexivity|]). destruct I.
Qed.
Lemma newline_refuted : ~ (forall l, (forall d, In d l -> internal d = false -> well_named d) ->
  decode (to_prometheus l) = Some (map seen_as (filter (fun d => negb (internal d)) l))).
Proof.
  intros H. specialize (H [one [newline]]). assert (G : forall d, In d [one [newline]] -> internal d = false -> well_named d).
  { intros d [<-|[]] _. apply one_named. } specialize (H G). vm_compute in H. discriminate.
Qed.
Definition counter (n : string) : datum := mk_datum (lit n) [] (lit "1") None false.
Lemma collision_refuted : ~ (forall a b, well_named a -> well_named b -> one_line a -> one_line b -> internal a = false -> internal b = false ->
  to_prometheus [a] = to_prometheus [b] -> a = b).
Proof.
  intros H. assert (W : forall n, n = "a.b"%string \/ n = "a_b"%string -> well_named (counter n)).
  { intros n E. split; [split; [destruct E as [-> | ->]; reflexivity|]|split; [intros k v []|split; [discriminate|]]].
    - intros c I. destruct E as [-> | ->]; simpl in I; repeat (destruct I as [<-|I]; [reflexivity|]); destruct I.
    - intros c [<-|[]]. reflexivity. }
  specialize (H (counter "a.b") (counter "a_b")). assert (X : counter "a.b" = counter "a_b"); [|discriminate].
  apply H; auto; try reflexivity; intros k v [].
Qed.
Lemma undotted : forall n, ~ In "."%char n -> map dot_to_underscore n = n.
Proof.
  induction n as [|c n IH]; intros N; auto. simpl. rewrite IH by (intros I; apply N; simpl; auto). f_equal. unfold dot_to_underscore.
  destruct (Ascii.eqb c ".") eqn:E; auto. exfalso. apply Ascii.eqb_eq in E. apply N. simpl. auto.
Qed.
Lemma distinct : forall a b, well_named a -> well_named b -> one_line a -> one_line b -> internal a = false -> internal b = false ->
  ~ In "."%char (name a) -> ~ In "."%char (name b) -> to_prometheus [a] = to_prometheus [b] -> a = b.
Proof.
  intros a b Wa Wb Oa Ob Ia Ib Na Nb E. apply (f_equal decode) in E. rewrite !decode_ok in E.
  - simpl in E. rewrite Ia, Ib in E. simpl in E. unfold seen_as in E. rewrite !undotted in E by auto. destruct a, b. simpl in *. congruence.
  - intros d [<-|[]] _. auto.
  - intros d [<-|[]] _. auto.
Qed.
