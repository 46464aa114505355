From Coq Require Import List Bool Arith ZArith Lia.
From Verif Require Import Prelude PreludeFacts MoreFacts Sources_Model Sources_Spec Sources_Proofs FileSrc_Model FileSrc_Spec.
Import ListNotations.
Open Scope nat_scope.

(** ** Formats and files *)
Lemma complaint_iff f e : base_exception e || extra_exception f e = true <-> e = ConfigurationError \/ complaint f e.
Proof.
  unfold complaint. rewrite orb_true_iff. split.
  - intros [H|H]; [destruct e; try discriminate; auto 8|auto 8].
  - intros [->|[->|[->|[->|[->|[->|H]]]]]]; cbn; auto.
Qed.
Lemma format_understands decode f data d : understands decode data f d -> format_provide decode f data = Ok (TDict d).
Proof. unfold understands, text_of, format_provide, res_bind. intro H. rewrite H. reflexivity. Qed.
Lemma format_rejects decode f data : rejects decode data f -> format_provide decode f data = Err ConfigurationError.
Proof.
  unfold rejects, text_of, format_provide, res_bind. intro H.
  destruct (match decode data with Ok a => transform f a | Err e => Err e end) as [t|e].
  - destruct t; cbn in *; auto; contradiction.
  - apply complaint_iff in H. now rewrite H.
Qed.
Lemma format_breaks decode f data e : breaks decode data f e -> format_provide decode f data = Err e.
Proof.
  unfold breaks, text_of, format_provide, res_bind. intros (H & N & C). rewrite H.
  destruct (base_exception e || extra_exception f e) eqn:E; auto. apply complaint_iff in E. tauto.
Qed.
Lemma format_all decode f data : (exists d, understands decode data f d) \/ rejects decode data f \/ (exists e, breaks decode data f e).
Proof.
  unfold understands, rejects, breaks. destruct (text_of decode f data) as [t|e] eqn:E.
  - destruct t; eauto.
  - right. destruct (base_exception e || extra_exception f e) eqn:Q; [left; now apply complaint_iff|].
    right. exists e. split; auto. split; intro C; (enough (X : base_exception e || extra_exception f e = true) by congruence; apply complaint_iff; auto).
Qed.

Lemma file_loop_skip decode data before after : Forall (rejects decode data) before -> file_loop decode data (before ++ after) = file_loop decode data after.
Proof. induction 1 as [|f l H _ IH]; auto. cbn [app file_loop]. rewrite (format_rejects _ _ _ H). exact IH. Qed.

Lemma dget_find (es : list (nat * fs)) n : dget Nat.eqb es n = option_map snd (find (fun e => fst e =? n) es).
Proof. induction es as [|[k v] r IH]; cbn; auto. rewrite ?(Nat.eqb_sym n k). destruct (k =? n); cbn; auto. Qed.
Lemma walk_at t names : walk_fs t names = at_names t names.
Proof.
  revert t. induction names as [|n r IH]; intros t; [destruct t; auto|]. destruct t as [d|es| |]; cbn; auto. rewrite dget_find.
  destruct (find (fun e => fst e =? n) es) as [[k v]|]; cbn; auto.
Qed.
Lemma lookup_whole root cwd p : lookup root cwd p = at_names root (whole cwd p).
Proof. unfold lookup, whole. rewrite walk_at. destruct (absolute p); auto. Qed.

Section File.
  Variables (root : fs) (cwd : list nat) (decode : bytes -> res bytes) (p : path) (data : bytes).
  Hypothesis H : at_names root (whole cwd p) = Some (FFile (Ok data)).
  Lemma read_ok : read_file root cwd p = Ok data.
  Proof. unfold read_file. now rewrite lookup_whole, H. Qed.
  Lemma file_first before f after d : Forall (rejects decode data) before -> understands decode data f d ->
    file_provide root cwd decode (before ++ f :: after) p = Ok (TDict d).
  Proof.
    intros B U. unfold file_provide. rewrite read_ok. cbn [res_bind]. rewrite file_loop_skip by exact B. cbn [file_loop].
    rewrite (format_understands _ _ _ _ U). reflexivity.
  Qed.
  Lemma file_none formats : Forall (rejects decode data) formats -> file_provide root cwd decode formats p = Err ConfigurationError.
  Proof.
    intros B. unfold file_provide. rewrite read_ok. cbn [res_bind]. rewrite <- (app_nil_r formats), file_loop_skip by exact B. reflexivity.
  Qed.
  Lemma file_breaks before f after e : Forall (rejects decode data) before -> breaks decode data f e -> is_oserror e = false ->
    file_provide root cwd decode (before ++ f :: after) p = Err e.
  Proof.
    intros B U O. unfold file_provide. rewrite read_ok. cbn [res_bind]. rewrite file_loop_skip by exact B. cbn [file_loop].
    rewrite (format_breaks _ _ _ _ U). destruct U as (_ & N & _). destruct e; cbn in *; auto; congruence.
  Qed.
End File.
Lemma file_unreadable root cwd decode formats p :
  match at_names root (whole cwd p) with Some (FFile (Ok _)) => False | Some (FFile (Err e)) => e = OSErrorExn \/ e = FileNotFound | _ => True end ->
  file_provide root cwd decode formats p = Err ConfigurationError.
Proof.
  unfold file_provide, read_file. rewrite lookup_whole. intro H.
  destruct (at_names root (whole cwd p)) as [[[d|e]|es| |]|]; cbn in *; auto; try contradiction. destruct H as [-> | ->]; reflexivity.
Qed.
Lemma file_loop_dict decode data formats t : file_loop decode data formats = Ok t -> exists d, t = TDict d.
Proof.
  induction formats as [|f r IH]; cbn; [discriminate|]. unfold format_provide.
  destruct (res_bind (decode data) (transform f)) as [u|e].
  - destruct u; cbn; try exact IH. intros [= <-]. eauto.
  - destruct (_ || _); [exact IH|]. destruct e; try discriminate; exact IH.
Qed.
Lemma file_dict root cwd decode formats p t : file_provide root cwd decode formats p = Ok t -> exists d, t = TDict d.
Proof.
  unfold file_provide. destruct (read_file root cwd p) as [data|e]; cbn; [|destruct (is_oserror e); discriminate].
  destruct (file_loop decode data formats) as [u|e] eqn:E; cbn; [|destruct (is_oserror e); discriminate]. intros [= <-]. eapply file_loop_dict; eauto.
Qed.
(** the dictionary came out of one of the parsers *)
Lemma file_loop_from decode data formats t : file_loop decode data formats = Ok t -> exists f text, In f formats /\ transform f text = Ok t.
Proof.
  induction formats as [|f r IH]; cbn; [discriminate|]. intro H.
  destruct (format_provide decode f data) as [u|e] eqn:E.
  - destruct (negb (tree_is_dict u)); [destruct (IH H) as (g & x & I & T); eauto|]. injection H as <-.
    unfold format_provide in E. destruct (decode data) as [x|e]; cbn in E; [|destruct (_ || _); discriminate].
    destruct (transform f x) as [u'|e] eqn:T; [|destruct (_ || _); discriminate]. destruct (negb _); [discriminate|]. injection E as ->. eauto.
  - assert (exists g x, In g r /\ transform g x = Ok t) as (g & x & I & T) by (destruct e; try discriminate; auto). eauto.
Qed.
Lemma file_from root cwd decode formats p t : file_provide root cwd decode formats p = Ok t -> exists f text, In f formats /\ transform f text = Ok t.
Proof.
  unfold file_provide. destruct (read_file root cwd p) as [data|e]; cbn; [|destruct (is_oserror e); discriminate].
  destruct (file_loop decode data formats) as [u|e] eqn:E; cbn; [|destruct (is_oserror e); discriminate]. intros [= <-]. eapply file_loop_from; eauto.
Qed.

(** ** Directories *)
Lemma at_names_app t a b u : at_names t a = Some u -> at_names t (a ++ b) = at_names u b.
Proof.
  revert t. induction a as [|n r IH]; intros t H; cbn in *; [destruct t; now injection H as <-|].
  destruct t as [d|es| |]; try discriminate. destruct (find _ es) as [[k v]|]; [auto|discriminate].
Qed.
Lemma find_In (es : list (nat * fs)) n e : find (fun e => fst e =? n) es = Some e -> In e es /\ fst e = n.
Proof. intro H. apply find_some in H. destruct H as [I E]. apply Nat.eqb_eq in E. auto. Qed.
Lemma In_find (es : list (nat * fs)) k t : NoDup (map fst es) -> In (k, t) es -> find (fun e => fst e =? k) es = Some (k, t).
Proof.
  induction es as [|[k' t'] r IH]; cbn; intros W I; [contradiction|]. inversion W as [|? ? N W']; subst.
  destruct I as [[= -> ->]|I]; [now rewrite Nat.eqb_refl|].
  destruct (Nat.eqb_spec k' k) as [->|]; [|auto]. exfalso. apply N. apply (in_map fst) in I. exact I.
Qed.
Lemma distinct_sub es k t : names_distinct (FDir es) -> In (k, t) es -> names_distinct t.
Proof. cbn. intros [_ A] I. induction es as [|[k' t'] r IH]; [contradiction|]. destruct A as [A B]. destruct I as [[= -> ->]|I]; auto. Qed.
Lemma height_sub es k t : In (k, t) es -> height t < height (FDir es).
Proof.
  cbn. intros I. induction es as [|[k' t'] r IH]; [contradiction|].
  destruct I as [[= -> ->]|I]; [lia|]. specialize (IH I). lia.
Qed.
Lemma at_distinct root names t : names_distinct root -> at_names root names = Some t -> names_distinct t.
Proof.
  revert root. induction names as [|n r IH]; intros root N H; cbn in H; [destruct root; injection H as <-; exact N|].
  destruct root as [d|es| |]; try discriminate. destruct (find _ es) as [[k v]|] eqn:E; [|discriminate]. apply find_In in E. destruct E as [I _].
  apply (IH v); auto. eapply distinct_sub; eauto.
Qed.
Lemma at_height root names t : at_names root names = Some t -> height t <= height root.
Proof.
  revert root. induction names as [|n r IH]; intros root H; cbn in H; [destruct root; injection H as <-; lia|].
  destruct root as [d|es| |]; try discriminate. destruct (find _ es) as [[k v]|] eqn:E; [|discriminate]. apply find_In in E. destruct E as [I _].
  apply height_sub in I. specialize (IH v H). lia.
Qed.

Lemma position_app done x t r : ~ In x (map fst done) -> position x (done ++ (x, t) :: r) = length done.
Proof. induction done as [|[k v] d IH]; cbn; intro N; [now rewrite Nat.eqb_refl|]. destruct (Nat.eqb_spec k x); [tauto|]. f_equal. apply IH. tauto. Qed.

Section Directory.
  Variables (root : fs) (cwd : list nat) (keep : path -> bool) (sub : bool) (on_fail : Z).
  Hypothesis ND : names_distinct root.

  Definition good (D : list nat) (es : list (nat * fs)) (names_ok : list nat -> Prop) (r : res (list path)) : Prop :=
    (exists l, r = Ok (map (fun names => absolute_path (D ++ names)) l) /\
       (forall names, In names l <-> wanted keep sub D (FDir es) names /\ names_ok names) /\ in_order (FDir es) l /\
       (on_fail = 1%Z \/ forall names, names_ok names -> ~ unreadable keep sub D (FDir es) names)) \/
    (r = Err ConfigurationError /\ on_fail <> 1%Z /\ exists names, names_ok names /\ unreadable keep sub D (FDir es) names).

  Lemma wanted_cons D es x t names : NoDup (map fst es) -> In (x, t) es ->
    (wanted keep sub D (FDir es) (x :: names) <->
     keep (absolute_path (D ++ [x])) = true /\ match names with [] => exists data, t = FFile data | _ => sub = true /\ wanted keep sub (D ++ [x]) t names end).
  Proof.
    intros W I. pose proof (In_find es x t W I) as F. unfold wanted. cbn [at_names]. rewrite F. split.
    - intros ((data & A) & _ & S & K). split; [apply (K [x] names); [reflexivity|discriminate]|].
      destruct names as [|n r]; [destruct t; injection A as ->; eauto|].
      split; [destruct S as [S|S]; auto; discriminate|]. split; [eauto|]. split; [discriminate|]. split; [destruct S as [S|S]; [auto|discriminate]|].
      intros b r' E B. rewrite <- app_assoc. cbn [app]. apply (K (x :: b) r'); [cbn; congruence|discriminate].
    - intros (K & R). destruct names as [|n r].
      + destruct R as (data & ->). split; [cbn; eauto|]. split; [discriminate|]. split; [auto|].
        intros b r' E B. destruct b as [|y b]; [contradiction|]. injection E as <- E. destruct b; [exact K|discriminate].
      + destruct R as (S & (A & _ & _ & K')). split; [exact A|]. split; [discriminate|]. split; [auto|].
        intros b r' E B. destruct b as [|y b]; [contradiction|]. injection E as <- E. destruct b as [|z b]; [exact K|].
        change (x :: z :: b) with ([x] ++ (z :: b)). rewrite app_assoc. apply (K' (z :: b) r'); [exact E|discriminate].
  Qed.
  Lemma unreadable_cons D es x t names : NoDup (map fst es) -> In (x, t) es ->
    (unreadable keep sub D (FDir es) (x :: names) <->
     keep (absolute_path (D ++ [x])) = true /\ match names with [] => t = FLocked /\ sub = true | _ => unreadable keep sub (D ++ [x]) t names end).
  Proof.
    intros W I. pose proof (In_find es x t W I) as F. unfold unreadable. cbn [at_names]. rewrite F. split.
    - intros (A & S & K). split; [apply (K [x] names); [reflexivity|discriminate]|].
      destruct names as [|n r]; [destruct t; try discriminate; auto|].
      split; [exact A|]. split; [auto|].
      intros b r' E B. rewrite <- app_assoc. cbn [app]. apply (K (x :: b) r'); [cbn; congruence|discriminate].
    - intros (K & R). destruct names as [|n r].
      + destruct R as (-> & S). split; [reflexivity|]. split; [exact S|].
        intros b r' E B. destruct b as [|y b]; [contradiction|]. injection E as <- E. destruct b; [exact K|discriminate].
      + destruct R as (A & S & K'). split; [exact A|]. split; [auto|].
        intros b r' E B. destruct b as [|y b]; [contradiction|]. injection E as <- E. destruct b as [|z b]; [exact K|].
        change (x :: z :: b) with ([x] ++ (z :: b)). rewrite app_assoc. apply (K' (z :: b) r'); [exact E|discriminate].
  Qed.

  Lemma lookup_abs names : lookup root cwd (absolute_path names) = at_names root names.
  Proof. apply lookup_whole. Qed.

  Lemma in_order_nil t : in_order t []. Proof. intros i j p q H. destruct i; discriminate. Qed.
  Lemma in_order_app t l1 l2 : in_order t l1 -> in_order t l2 -> (forall p q, In p l1 -> In q l2 -> listed_before t p q) -> in_order t (l1 ++ l2).
  Proof.
    intros A B C i j p q Hi Hj L.
    destruct (Nat.lt_ge_cases j (length l1)) as [J|J].
    - rewrite nth_error_app1 in Hi, Hj by lia. eauto.
    - rewrite nth_error_app2 in Hj by lia. destruct (Nat.lt_ge_cases i (length l1)) as [I|I].
      + rewrite nth_error_app1 in Hi by lia. apply C; eapply nth_error_In; eauto.
      + rewrite nth_error_app2 in Hi by lia. eapply B; eauto. lia.
  Qed.
  Lemma in_order_cons es x t l : NoDup (map fst es) -> In (x, t) es -> in_order t l -> in_order (FDir es) (map (cons x) l).
  Proof.
    intros W I O i j p q Hi Hj L. rewrite nth_error_map in Hi, Hj.
    destruct (nth_error l i) as [p'|] eqn:Ei; [|discriminate]. destruct (nth_error l j) as [q'|] eqn:Ej; [|discriminate].
    injection Hi as <-. injection Hj as <-. cbn. right. split; auto. rewrite (In_find es x t W I). eauto.
  Qed.

  Lemma dir_good fuel : forall D es, at_names root D = Some (FDir es) -> height (FDir es) <= fuel ->
    good D es (fun _ => True) (get_sources root cwd keep sub on_fail fuel (absolute_path D)).
  Proof.
    induction fuel as [|fuel IH]; intros D es HD HF; [cbn in HF; lia|].
    cbn [get_sources]. rewrite lookup_abs, HD.
    pose proof (at_distinct _ _ _ ND HD) as DD. pose proof DD as [W _].
    enough (G : forall done rest, es = done ++ rest ->
              good D es (fun names => exists x r, names = x :: r /\ In x (map fst rest))
                (dir_loop root cwd sub (get_sources root cwd keep sub on_fail fuel) (absolute_path D)
                   (filter keep (map (fun x => join_path (absolute_path D) {| absolute := false; parts := [x] |}) (map fst rest))))).
    { specialize (G [] es eq_refl). unfold dkeys. destruct G as [(l & E & M & O & U)|(E & N & names & _ & U)].
      - left. exists l. split; [exact E|]. split; [|split; [exact O|]].
        + intro names. rewrite M. split; [tauto|]. intro Wn. split; [tauto|]. destruct Wn as [Wn _].
          destruct Wn as ((data & A) & NN & _). destruct names as [|x r]; [contradiction|]. exists x, r. split; auto.
          cbn in A. destruct (find _ es) as [[k v]|] eqn:F; [|discriminate]. apply find_In in F. destruct F as [I <-]. apply (in_map fst) in I. exact I.
        + destruct U as [U|U]; [auto|right]. intros names _ R. apply (U names); [|exact R]. destruct R as (A & _). destruct names as [|x r]; [discriminate|].
          exists x, r. split; auto. cbn in A. destruct (find _ es) as [[k v]|] eqn:F; [|discriminate]. apply find_In in F. destruct F as [I <-]. apply (in_map fst) in I. exact I.
      - right. split; auto. split; auto. exists names. auto. }
    intros done rest. revert done. induction rest as [|[x t] rest IHr]; intros done E.
    { left. exists []. split; [reflexivity|]. split; [|split; [apply in_order_nil|right; intros names (x & r & _ & [])]].
      intro names. split; [contradiction|]. intros (_ & x & r & _ & []). }
    assert (IN : In (x, t) es) by (rewrite E; apply in_or_app; right; left; reflexivity).
    specialize (IHr (done ++ [(x, t)])). rewrite <- app_assoc in IHr. specialize (IHr E).
    assert (NX : ~ In x (map fst done) /\ ~ In x (map fst rest)).
    { rewrite E, map_app in W. cbn in W. apply NoDup_remove_2 in W. rewrite in_app_iff in W. tauto. }
    cbn [map fst filter].
    change (join_path (absolute_path D) {| absolute := false; parts := [x] |}) with (absolute_path (D ++ [x])).
    assert (LB : forall p y r, In y (map fst rest) -> listed_before (FDir es) (x :: p) (y :: r)).
    { intros p y r Iy. cbn. left. rewrite E. rewrite position_app by tauto.
      apply in_map_iff in Iy. destruct Iy as ([y' t'] & <- & Iy). cbn [fst]. apply in_split in Iy. destruct Iy as (r1 & r2 & Er).
      rewrite Er. change (done ++ (x, t) :: r1 ++ (y', t') :: r2) with (done ++ ((x, t) :: r1) ++ (y', t') :: r2). rewrite app_assoc, position_app; [rewrite app_length; cbn; lia|].
      rewrite E, Er in W. change (done ++ (x, t) :: r1 ++ (y', t') :: r2) with (done ++ ((x, t) :: r1) ++ (y', t') :: r2) in W. rewrite app_assoc in W.
      rewrite map_app in W. cbn [map fst] in W. apply NoDup_remove_2 in W. intro Q. apply W. apply in_or_app. left. exact Q. }
    (* the entry that was just looked at *)
    assert (STEP : forall (here : res (list path)),
      ((exists lh, here = Ok (map (fun names => absolute_path (D ++ x :: names)) lh) /\
          (forall names, In names lh <-> wanted keep sub D (FDir es) (x :: names)) /\ in_order (FDir es) (map (cons x) lh) /\
          (on_fail = 1%Z \/ forall names, ~ unreadable keep sub D (FDir es) (x :: names))) \/
       (here = Err ConfigurationError /\ on_fail <> 1%Z /\ exists names, unreadable keep sub D (FDir es) (x :: names))) ->
      good D es (fun names => exists y r, names = y :: r /\ In y (map fst ((x, t) :: rest)))
        (res_bind here (fun h => res_bind (dir_loop root cwd sub (get_sources root cwd keep sub on_fail fuel) (absolute_path D)
           (filter keep (map (fun x => join_path (absolute_path D) {| absolute := false; parts := [x] |}) (map fst rest)))) (fun r => Ok (h ++ r))))).
    { intros here [(lh & -> & MH & OH & UH)|(-> & NF & names & U)].
      2:{ right. cbn. split; auto. split; auto. exists (x :: names). split; auto. exists x, names. cbn. auto. }
      destruct IHr as [(l & El & M & O & U)|(El & NF & names & (y & r & En & Iy) & U)].
      2:{ right. cbn [res_bind]. rewrite El. split; [reflexivity|]. split; auto. exists names. split; [|exact U]. exists y, r. split; auto. cbn. auto. }
      left. cbn [res_bind]. rewrite El. cbn [res_bind]. exists (map (cons x) lh ++ l). split.
      { f_equal. rewrite map_app, map_map. reflexivity. }
      split; [|split].
      - intro names. rewrite in_app_iff, in_map_iff, M. split.
        + intros [(n' & <- & I)|(I & y & r & En & Iy)]; [apply MH in I; split; auto; exists x, n'; cbn; auto|]. split; auto. exists y, r. cbn. auto.
        + intros (Wn & y & r & -> & [<-|Iy]); [left; exists r; split; auto; now apply MH|]. right. split; auto. eauto.
      - apply in_order_app; auto. intros p q Ip Iq. apply in_map_iff in Ip. destruct Ip as (p' & <- & _). apply M in Iq. destruct Iq as (_ & y & r & -> & Iy). auto.
      - destruct UH as [UH|UH]; [auto|]. destruct U as [U|U]; [auto|]. right. intros names (y & r & -> & [<-|Iy]); [apply UH|]. apply U. eauto. }
    destruct (keep (absolute_path (D ++ [x]))) eqn:K.
    - cbn [dir_loop]. change (join_path (absolute_path D) (absolute_path (D ++ [x]))) with (absolute_path (D ++ [x])).
      rewrite lookup_abs, (at_names_app _ _ _ _ HD). cbn [at_names]. rewrite (In_find es x t W IN). destruct t as [data|es'| |]; cbn [at_names].
      + apply STEP. left. exists [[]]. split; [reflexivity|]. split; [|split].
        * intro names. rewrite (wanted_cons D es x _ names W IN). split.
          -- intros [<-|[]]. eauto.
          -- intros (_ & R). destruct names as [|n r]; [left; reflexivity|]. destruct R as (_ & (d & A) & _). destruct r; discriminate.
        * intros i j p q Hi Hj L. cbn in *. destruct i as [|i]; [|destruct i; discriminate]. destruct j as [|j]; [lia|destruct j; discriminate].
        * right. intros names R. apply (unreadable_cons D es x _ names W IN) in R. destruct R as (_ & R). destruct names; [destruct R; discriminate|]. destruct R as (A & _). destruct names; discriminate.
      + assert (SUB : sub = true \/ sub = false) by (destruct sub; auto). destruct SUB as [SUB|SUB].
        * match goal with |- context [if sub then ?a else ?b] => replace (if sub then a else b) with a by (rewrite SUB; reflexivity) end. assert (HD' : at_names root (D ++ [x]) = Some (FDir es')) by (rewrite (at_names_app _ _ _ _ HD); cbn [at_names]; now rewrite (In_find es x _ W IN)).
          assert (HF' : height (FDir es') <= fuel) by (apply height_sub in IN; lia).
          specialize (IH (D ++ [x]) es' HD' HF'). apply STEP. destruct IH as [(l & El & M & O & U)|(El & NF & names & _ & U)].
          -- left. exists l. split; [rewrite El; f_equal; apply map_ext; intro a; rewrite <- app_assoc; reflexivity|]. split; [|split].
             ++ intro names. rewrite M, (wanted_cons D es x _ names W IN). destruct names as [|n r].
                ** split; [intros [(_ & N & _) _]; contradiction|intros (_ & d & Q); discriminate].
                ** tauto.
             ++ eapply in_order_cons; eauto.
             ++ destruct U as [U|U]; [auto|right]. intros names R. apply (unreadable_cons D es x _ names W IN) in R. destruct R as (_ & R).
                destruct names as [|n r]; [destruct R; discriminate|]. apply (U (n :: r) I R).
          -- right. split; auto. split; auto. exists names. apply (unreadable_cons D es x _ names W IN). split; auto.
             destruct names as [|n r]; [|exact U]. destruct U as (A & _). discriminate.
        * match goal with |- context [if sub then ?a else ?b] => replace (if sub then a else b) with b by (rewrite SUB; reflexivity) end. apply STEP. left. exists []. split; [reflexivity|]. split; [|split; [apply in_order_nil|right]].
          -- intro names. split; [contradiction|]. intro R. apply (wanted_cons D es x _ names W IN) in R. destruct R as (_ & R).
             destruct names as [|n r]; [destruct R; discriminate|]. destruct R; congruence.
          -- intros names (_ & S & _). congruence.
      + assert (SUB : sub = true \/ sub = false) by (destruct sub; auto). destruct SUB as [SUB|SUB].
        * match goal with |- context [if sub then ?a else ?b] => replace (if sub then a else b) with a by (rewrite SUB; reflexivity) end. apply STEP.
          assert (WN : forall names, ~ wanted keep sub D (FDir es) (x :: names)).
          { intros names R. apply (wanted_cons D es x _ names W IN) in R. destruct R as (_ & R). destruct names as [|n r]; [destruct R; discriminate|].
            destruct R as (_ & (d & A) & _). destruct r; discriminate. }
          assert (UN : unreadable keep sub D (FDir es) [x]) by (apply (unreadable_cons D es x _ [] W IN); auto).
          destruct fuel as [|fuel']; [apply height_sub in IN; cbn [height] in *; lia|]. cbn [get_sources]. rewrite lookup_abs, (at_names_app _ _ _ _ HD). cbn [at_names]. rewrite (In_find es x _ W IN). cbn [at_names].
          destruct (Z.eqb_spec on_fail 1) as [OF|OF].
          -- left. exists []. split; [reflexivity|]. split; [|split; [apply in_order_nil|auto]]. intro names. split; [contradiction|apply WN].
          -- right. split; auto. split; auto. exists []. exact UN.
        * match goal with |- context [if sub then ?a else ?b] => replace (if sub then a else b) with b by (rewrite SUB; reflexivity) end. apply STEP. left. exists []. split; [reflexivity|]. split; [|split; [apply in_order_nil|right]].
          -- intro names. split; [contradiction|]. intro R. apply (wanted_cons D es x _ names W IN) in R. destruct R as (_ & R).
             destruct names as [|n r]; [destruct R; discriminate|]. destruct R; congruence.
          -- intros names (_ & S & _). congruence.
      + apply STEP. left. exists []. split; [reflexivity|]. split; [|split; [apply in_order_nil|right]].
        * intro names. split; [contradiction|]. intro R. apply (wanted_cons D es x _ names W IN) in R. destruct R as (_ & R).
          destruct names as [|n r]; [destruct R; discriminate|]. destruct R as (_ & (d & A) & _). destruct r; discriminate.
        * intros names R. apply (unreadable_cons D es x _ names W IN) in R. destruct R as (_ & R).
          destruct names as [|n r]; [destruct R; discriminate|]. destruct R as (A & _). destruct r; discriminate.
    - destruct IHr as [(l & El & M & O & U)|(El & NF & names & (y & r & En & Iy) & U)].
      + left. exists l. split; [exact El|]. split; [|split; [exact O|]].
        * intro names. rewrite M. split; [intros (A & y & r & B & C); split; auto; exists y, r; cbn; auto|].
          intros (A & y & r & -> & [<-|C]); [|split; auto; eauto]. apply (wanted_cons D es x t r W IN) in A. destruct A; congruence.
        * destruct U as [U|U]; [auto|right]. intros names (y & r & -> & [<-|C]) R; [apply (unreadable_cons D es x t r W IN) in R; destruct R; congruence|].
          apply (U (y :: r)); eauto.
      + right. split; [exact El|]. split; auto. exists names. split; [|exact U]. exists y, r. cbn. auto.
  Qed.
End Directory.

Lemma at_root root names u : at_names root names = Some u -> forall n, at_names root (names ++ [n]) = at_names u [n].
Proof. intros H n. now apply at_names_app. Qed.

Lemma relative_doubles root cwd keep sub on_fail fuel d es :
  at_names root (cwd ++ d) = Some (FDir es) -> (forall x, In x (map fst es) -> at_names root (cwd ++ d ++ d ++ [x]) = None) ->
  get_sources root cwd keep sub on_fail (S fuel) {| absolute := false; parts := d |} = Ok [].
Proof.
  intros H N. cbn [get_sources]. rewrite lookup_whole. cbn [whole absolute parts]. rewrite H. unfold dkeys.
  induction (map fst es) as [|x r IH]; auto. cbn [map filter]. assert (IH' := IH (fun y I => N y (or_intror I))).
  destruct (keep _); [|exact IH']. cbn [dir_loop].
  assert (LK : lookup root cwd (join_path {| absolute := false; parts := d |} (join_path {| absolute := false; parts := d |} {| absolute := false; parts := [x] |})) = None)
    by (rewrite lookup_whole; exact (N x (or_introl eq_refl))).
  rewrite LK.
  cbn [res_bind]. rewrite IH'. reflexivity.
Qed.

Lemma relative_exact root cwd keep on_fail fuel d es : at_names root (cwd ++ d) = Some (FDir es) ->
  get_sources root cwd keep false on_fail (S fuel) {| absolute := false; parts := d |} =
  Ok (map (fun x => {| absolute := false; parts := d ++ d ++ [x] |})
        (filter (fun x => keep {| absolute := false; parts := d ++ [x] |} && match at_names root (cwd ++ d ++ d ++ [x]) with Some (FFile _) => true | _ => false end) (map fst es))).
Proof.
  intros H. cbn [get_sources]. rewrite lookup_whole. cbn [whole absolute parts]. rewrite H. unfold dkeys.
  induction (map fst es) as [|x r IH]; auto. cbn [map filter].
  change (join_path {| absolute := false; parts := d |} {| absolute := false; parts := [x] |}) with {| absolute := false; parts := d ++ [x] |}.
  destruct (keep {| absolute := false; parts := d ++ [x] |}); [|exact IH]. cbn [dir_loop andb].
  change (join_path {| absolute := false; parts := d |} {| absolute := false; parts := d ++ [x] |}) with {| absolute := false; parts := d ++ d ++ [x] |}.
  rewrite lookup_whole. cbn [whole absolute parts]. destruct (at_names root (cwd ++ d ++ d ++ [x])) as [[?|?| |]|]; cbn [res_bind]; rewrite IH; reflexivity.
Qed.

Lemma directory_missing root cwd keep sub on_fail fuel p : match at_names root (whole cwd p) with Some (FDir _) => False | _ => True end ->
  get_sources root cwd keep sub on_fail (S fuel) p = if Z.eqb on_fail 1 then Ok [] else Err ConfigurationError.
Proof. intro H. cbn [get_sources]. rewrite lookup_whole. destruct (at_names root (whole cwd p)) as [[d|es| |]|]; auto; contradiction. Qed.

(** merging what the files give *)
Lemma loads_rep m rs : (forall r t, In r rs -> r = Ok t -> tree_wf t) -> srcs_rep m (map SLoad rs) (map SLoad rs) [].
Proof.
  induction rs as [|r l IH]; cbn; intro H; [constructor|].
  change (@nil nat) with (@nil nat ++ []). constructor; [constructor; intros t E; eapply H; eauto|]. apply IH. intros; eapply H; eauto.
Qed.
Lemma directory_merges root cwd decode keep sub on_fail formats dfuel p ps :
  (forall f text t, In f formats -> transform f text = Ok t -> tree_wf t) ->
  get_sources root cwd keep sub on_fail dfuel p = Ok ps ->
  forall m, exists n, forall fuel, n <= fuel -> exists s m' r,
    directory_source root cwd decode keep sub on_fail formats dfuel p = Ok s /\ provide fuel m s = (m', r) /\
    answers m' r (merged on_fail true (map (file_provide root cwd decode formats) ps)).
Proof.
  intros HW HS m. set (rs := map (file_provide root cwd decode formats) ps).
  assert (R : src_rep m (SMerging (map SLoad rs) on_fail true) (SMerging (map SLoad rs) on_fail true) []).
  { constructor. apply loads_rep. intros r t I E. unfold rs in I. apply in_map_iff in I. destruct I as (q & Q & _). subst r.
    destruct (file_from _ _ _ _ _ _ E) as (f & x & I & T). eapply HW; eauto. }
  destruct (provide_first _ _ _ _ R (NoDup_nil _)) as (n & P). exists n. intros fuel L. destruct (P fuel L) as (m' & r & E & A).
  exists (SMerging (map SLoad rs) on_fail true), m', r. split; [|split; [exact E|]].
  - unfold directory_source. rewrite HS. cbn [res_bind]. unfold rs. rewrite map_map. reflexivity.
  - cbn [outcome] in A. rewrite map_map in A. cbn [outcome] in A. rewrite map_id in A. exact A.
Qed.

(** ** Environment *)
Lemma environment_ok environ cast env_name config_name own s v : environ env_name = Some s -> cast s = Ok v ->
  environment_provide environ cast env_name config_name own = Ok (TDict [(match config_name with Some n => n | None => own env_name end, v)]).
Proof. intros H C. unfold environment_provide. now rewrite H, C. Qed.
Lemma environment_missing environ cast env_name config_name own : environ env_name = None ->
  environment_provide environ cast env_name config_name own = Err ConfigurationError.
Proof. intros H. unfold environment_provide. now rewrite H. Qed.
Lemma environment_cast environ cast env_name config_name own s e : environ env_name = Some s -> cast s = Err e ->
  environment_provide environ cast env_name config_name own = Err (match e with ValueError | TypeError | KeyError | ConfigurationValidationError => ConfigurationError | _ => e end).
Proof. intros H C. unfold environment_provide. rewrite H, C. destruct e; reflexivity. Qed.
Lemma env_vars_ok environ json env_name s :
  environ env_name = Some s ->
  (forall d, understands Ok s json d -> env_vars_provide environ json env_name = Ok (TDict d)) /\
  (rejects Ok s json -> env_vars_provide environ json env_name = Err ConfigurationError) /\
  (forall e, breaks Ok s json e -> env_vars_provide environ json env_name = Err e).
Proof.
  intro H. unfold env_vars_provide. rewrite H. split; [|split].
  - intros d U. change (fun b : bytes => Ok b) with (@Ok bytes). now rewrite (format_understands _ _ _ _ U).
  - intros U. change (fun b : bytes => Ok b) with (@Ok bytes). now rewrite (format_rejects _ _ _ U).
  - intros e U. change (fun b : bytes => Ok b) with (@Ok bytes). rewrite (format_breaks _ _ _ _ U). destruct U as (_ & _ & C).
    destruct e; auto. exfalso. apply C. unfold complaint. auto.
Qed.
Lemma env_vars_missing environ json env_name : environ env_name = None -> env_vars_provide environ json env_name = Err ConfigurationError.
Proof. intro H. unfold env_vars_provide. now rewrite H. Qed.

(** ** Descriptions *)
Section Load.
  Variables (is_source is_extra : nat -> bool) (extra_raises : jv -> option exn) (ctor_raises : nat -> list arg -> list (nat * arg) -> option exn) (truth : jv -> bool) (letters : nat -> option (list nat)).
  Notation load := (load is_source is_extra extra_raises ctor_raises truth letters).
  Notation to_arg := (to_arg is_source is_extra extra_raises).
  Notation writable := (writable is_source is_extra (fun t a k => ctor_raises t a k = None) (fun v => extra_raises v = None)).
  Notation writable_arg := (writable_arg is_source is_extra (fun t a k => ctor_raises t a k = None) (fun v => extra_raises v = None)).

  Definition writes (l : list arg) := map write_arg l.
  Definition writes_kw (l : list (nat * arg)) := map (fun kv : nat * arg => (fst kv, write_arg (snd kv))) l.
  Lemma write_built opt t args kwargs : write opt (Built t args kwargs) =
    JDict ((0, JAtom t) :: match args with [] => [] | [a] => [(1, write_arg a)] | _ => [(2, JList (writes args))] end ++ (if opt then [(3, JAtom 1)] else []) ++ writes_kw kwargs).
  Proof.
    assert (A : forall l, (fix all (l : list arg) : list jv := match l with [] => [] | a :: r => write_arg a :: all r end) l = writes l)
      by (induction l as [|a r IH]; [reflexivity|]; cbn [writes map]; rewrite IH; reflexivity).
    assert (B : forall l, (fix all (l : list (nat * arg)) : list (nat * jv) := match l with [] => [] | (k, a) :: r => (k, write_arg a) :: all r end) l = writes_kw l)
      by (induction l as [|[k a] r IH]; [reflexivity|]; cbn [writes_kw map fst snd]; rewrite IH; reflexivity).
    cbn [write]. rewrite B. destruct args as [|a [|b r]]; [reflexivity..|]. now rewrite A.
  Qed.
  Lemma writable_built t args kwargs : writable (Built t args kwargs) <->
    is_source t = true /\ ctor_raises t args kwargs = None /\ NoDup (map fst kwargs) /\ Forall (fun kv => reserved (fst kv) = false) kwargs /\
    Forall writable_arg args /\ Forall (fun kv => writable_arg (snd kv)) kwargs.
  Proof.
    cbn [FileSrc_Spec.writable].
    assert (A : forall l, (fix all (l : list arg) := match l with [] => True | a :: r => writable_arg a /\ all r end) l <-> Forall writable_arg l).
    { induction l as [|a r IH]; split; intro H; auto; [destruct H; constructor; [auto|now apply IH]|inversion H; split; [auto|now apply IH]]. }
    assert (B : forall l, (fix all (l : list (nat * arg)) := match l with [] => True | (_, a) :: r => writable_arg a /\ all r end) l <-> Forall (fun kv => writable_arg (snd kv)) l).
    { induction l as [|[k a] r IH]; split; intro H; auto; [destruct H; constructor; [auto|now apply IH]|inversion H; split; [auto|now apply IH]]. }
    rewrite A, B. tauto.
  Qed.

  Lemma height_list l x : In x l -> jv_height x < jv_height (JList l).
  Proof. cbn. intro I. induction l as [|y r IH]; [contradiction|]. destruct I as [->|I]; [lia|]. specialize (IH I). lia. Qed.
  Lemma height_dict (d : list (nat * jv)) k x : In (k, x) d -> jv_height x < jv_height (JDict d).
  Proof. cbn. intro I. induction d as [|[k' y] r IH]; [contradiction|]. destruct I as [[= -> ->]|I]; [lia|]. specialize (IH I). lia. Qed.

  Lemma map_res_ok {A B} (f : A -> res B) l l' : Forall2 (fun x y => f x = Ok y) l l' -> map_res f l = Ok l'.
  Proof. induction 1 as [|x y l l' H _ IH]; cbn; auto. rewrite H, IH. reflexivity. Qed.

  Lemma kw_fresh l k : k < 4 -> Forall (fun kv : nat * arg => reserved (fst kv) = false) l ->
    dget Nat.eqb (writes_kw l) k = None /\ ddel Nat.eqb (writes_kw l) k = writes_kw l.
  Proof.
    intros K. induction 1 as [|[k' a] r H _ [IH1 IH2]]; [auto|]. unfold writes_kw in *. cbn [map fst snd dget] in *. unfold reserved in H. apply Nat.ltb_ge in H.
    assert (E1 : (k' =? k) = false) by (apply Nat.eqb_neq; lia). assert (E2 : (k =? k') = false) by (apply Nat.eqb_neq; lia).
    rewrite ?E1, ?E2. cbn. rewrite IH1. split; auto. unfold ddel in *. cbn. rewrite ?E1, ?E2. cbn. f_equal. exact IH2.
  Qed.

  Lemma to_arg_source g opt t a k : is_extra t = false -> is_source t = true ->
    to_arg g (write opt (Built t a k)) = res_map ASource (g (write opt (Built t a k))).
  Proof. intros X S. rewrite write_built. unfold FileSrc_Model.to_arg. cbn [dget]. rewrite Nat.eqb_refl, X, S. reflexivity. Qed.

  Hypothesis T : truth (JAtom 1) = true.

  Lemma load_write fuel : forall t args kwargs (opt : bool), writable (Built t args kwargs) -> jv_height (write opt (Built t args kwargs)) <= fuel ->
    load fuel (write opt (Built t args kwargs)) = Ok (if opt then OptionalOf (Built t args kwargs) else Built t args kwargs).
  Proof.
    induction fuel as [|f IH]; intros t args kwargs opt W L; [destruct opt; cbn in L; lia|].
    rewrite write_built in *. apply writable_built in W. destruct W as (S & C & ND & RS & WA & WK).
    assert (AR : forall a, writable_arg a -> jv_height (write_arg a) <= f -> to_arg (load f) (write_arg a) = Ok a).
    { intros a Wa La. destruct a as [v|t' v|s].
      - cbn in *. destruct v as [n|l|d]; auto. unfold FileSrc_Model.to_arg. now rewrite Wa.
      - cbn in *. destruct v as [n|l|d]; try contradiction. destruct Wa as (X & D & E). unfold FileSrc_Model.to_arg. now rewrite D, X, E.
      - destruct Wa as (X & Ws). destruct s as [t' a' k'|[t' a' k'|s]]; [| |contradiction].
        + change (writable (Built t' a' k')) in Ws. change (jv_height (write false (Built t' a' k')) <= f) in La.
          change (write_arg (ASource (Built t' a' k'))) with (write false (Built t' a' k')).
          rewrite to_arg_source by (auto; apply (proj1 (writable_built _ _ _) Ws)). rewrite IH by auto. reflexivity.
        + change (writable (Built t' a' k')) in Ws. change (jv_height (write true (Built t' a' k')) <= f) in La.
          change (write_arg (ASource (OptionalOf (Built t' a' k')))) with (write true (Built t' a' k')).
          rewrite to_arg_source by (auto; apply (proj1 (writable_built _ _ _) Ws)). rewrite IH by auto. reflexivity. }
    set (rest := (if opt then [(3, JAtom 1)] else []) ++ writes_kw kwargs) in *.
    set (A := match args with [] => [] | [a] => [(1, write_arg a)] | _ => [(2, JList (writes args))] end) in *.
    assert (HK : map_res (fun kv : nat * jv => res_map (pair (fst kv)) (to_arg (load f) (snd kv))) (writes_kw kwargs) = Ok kwargs).
    { apply map_res_ok. assert (LK : forall k a, In (k, a) kwargs -> jv_height (write_arg a) <= f).
      { intros k a I. enough (jv_height (write_arg a) < jv_height (JDict ((0, JAtom t) :: A ++ rest))) by lia. apply (height_dict _ k). right. apply in_or_app. right.
        unfold rest. apply in_or_app. right. unfold writes_kw. apply in_map_iff. exists (k, a). auto. }
      clear - AR WK LK. induction WK as [|[k a] r Wa _ IHk]; constructor; [|apply IHk; intros; eapply LK; right; eauto].
      cbn [fst snd] in *. rewrite (AR a Wa (LK k a (or_introl eq_refl))). reflexivity. }
    assert (HA : map_res (to_arg (load f)) (writes args) = Ok args).
    { apply map_res_ok. assert (LA : forall a, In a args -> jv_height (write_arg a) <= f).
      { intros a I. assert (Q : jv_height (write_arg a) < jv_height (JDict ((0, JAtom t) :: A ++ rest))); [|lia].
        unfold A. destruct args as [|a1 [|a2 r]]; [contradiction| |].
        - destruct I as [<-|[]]. apply (height_dict _ 1). right. left. reflexivity.
        - etransitivity; [apply (height_list (writes (a1 :: a2 :: r))); apply in_map; exact I|]. apply (height_dict _ 2). right. left. reflexivity. }
      clear - AR WA LA. induction WA as [|a r Wa _ IHk]; constructor; [|apply IHk; intros; apply LA; right; auto].
      apply AR; [exact Wa|apply LA; left; reflexivity]. }
    destruct (kw_fresh kwargs 1 ltac:(lia) RS) as (G1 & D1). destruct (kw_fresh kwargs 2 ltac:(lia) RS) as (G2 & D2).
    destruct (kw_fresh kwargs 3 ltac:(lia) RS) as (G3 & D3). destruct (kw_fresh kwargs 0 ltac:(lia) RS) as (_ & D0).
    cbn [FileSrc_Model.load].
    assert (P : pop ((0, JAtom t) :: A ++ rest) 0 = A ++ rest).
    { unfold pop, ddel in *. cbn. unfold A, rest. destruct args as [|a1 [|a2 r]]; destruct opt; cbn; rewrite ?D0; reflexivity. }
    change (dget Nat.eqb ((0, JAtom t) :: A ++ rest) 0) with (Some (JAtom t)). cbv iota beta. rewrite P. clear P.
    assert (Q : (match dget Nat.eqb (A ++ rest) 1 with
                 | Some a => (JList [a], pop (A ++ rest) 1)
                 | None => match dget Nat.eqb (A ++ rest) 2 with Some a => (a, pop (A ++ rest) 2) | None => (JList [], A ++ rest) end
                 end) = (JList (writes args), rest)).
    { unfold A, rest, pop, ddel in *. destruct args as [|a1 [|a2 r]]; destruct opt; cbn; rewrite ?G1, ?G2, ?D1, ?D2; reflexivity. }
    rewrite Q. clear Q.
    assert (Q : (match dget Nat.eqb rest 3 with Some o => (truth o, pop rest 3) | None => (false, rest) end) = (opt, writes_kw kwargs)).
    { unfold rest, pop, ddel in *. destruct opt; cbn; rewrite ?G3, ?D3, ?T; reflexivity. }
    rewrite Q. clear Q. cbn [iter_args res_bind]. rewrite HK. cbn [res_bind]. rewrite S. cbn [negb]. rewrite HA. cbn [res_bind]. rewrite C.
    destruct opt; reflexivity.
  Qed.

  Lemma load_round s fuel : writable s -> jv_height (write false s) <= fuel -> load fuel (write false s) = Ok s.
  Proof.
    intros W L. destruct s as [t a k|[t a k|s]].
    - exact (load_write fuel t a k false W L).
    - exact (load_write fuel t a k true W L).
    - contradiction.
  Qed.
End Load.

Section LoadErrors.
  Variables (is_source is_extra : nat -> bool) (extra_raises : jv -> option exn) (ctor_raises : nat -> list arg -> list (nat * arg) -> option exn) (truth : jv -> bool) (letters : nat -> option (list nat)).
  Hypothesis XD : forall v, extra_raises v <> Some Diverges.
  Hypothesis CD : forall t a k, ctor_raises t a k <> Some Diverges.
  Notation load := (load is_source is_extra extra_raises ctor_raises truth letters).
  Notation to_arg := (to_arg is_source is_extra extra_raises).

  Lemma map_res_fine {A B} (f : A -> res B) l : (forall x, In x l -> f x <> Err Diverges) -> map_res f l <> Err Diverges.
  Proof.
    induction l as [|x r IH]; cbn; intro H; [discriminate|]. specialize (IH (fun y I => H y (or_intror I))). specialize (H x (or_introl eq_refl)).
    destruct (f x) as [y|e]; cbn; [|congruence]. destruct (map_res f r); cbn; congruence.
  Qed.
  Lemma ddel_In (d : list (nat * jv)) k x : In x (pop d k) -> In x d.
  Proof. unfold pop. induction d as [|[k' y] r IH]; cbn; [tauto|]. destruct (k' =? k); cbn; tauto. Qed.
  Lemma dget_pop (d : list (nat * jv)) k x : dget Nat.eqb d k = Some x -> In (k, x) d.
  Proof. intro H. exact (dget_In nateqb_ok d k H). Qed.

  Lemma load_fine fuel : forall v, jv_height v <= fuel -> (exists s, load fuel v = Ok s) \/ load fuel v = Err ConfigurationError.
  Proof.
    induction fuel as [|f IH]; intros v L; [destruct v; cbn in L; lia|].
    assert (AR : forall a, jv_height a <= f -> to_arg (load f) a <> Err Diverges).
    { intros a La. unfold FileSrc_Model.to_arg. destruct a as [n|l|d]; try discriminate. destruct (dget Nat.eqb d 0) as [[t|l|d']|]; try discriminate.
      destruct (is_extra t). { pose proof (XD (JDict d)). destruct (extra_raises (JDict d)); congruence. }
      destruct (is_source t); [|discriminate]. destruct (IH _ La) as [(s & ->)| ->]; discriminate. }
    cbn [FileSrc_Model.load].
    match goal with |- context [rethrow_configuration ?r] => set (R := r); enough (N : R <> Err Diverges) end.
    { unfold rethrow_configuration. destruct R as [s|e]; [eauto|]. right. destruct e; congruence. }
    unfold R. clear R. destruct v as [n|l|d0]; try discriminate. destruct (dget Nat.eqb d0 0) as [type_|] eqn:G0; [|discriminate].
    assert (L0 : forall k x, In (k, x) (pop d0 0) -> jv_height x <= f) by (intros k x I; apply ddel_In in I; apply height_dict in I; lia).
    set (d1 := pop d0 0) in *.
    destruct (match dget Nat.eqb d1 1 with
              | Some a => (JList [a], pop d1 1)
              | None => match dget Nat.eqb d1 2 with Some a => (a, pop d1 2) | None => (JList [], d1) end
              end) as [args d2] eqn:E.
    assert (LA : (forall args1, iter_args letters args = Ok args1 -> forall x, In x args1 -> jv_height x <= f) /\ forall x, In x d2 -> In x d1).
    { assert (F : 1 <= f) by (destruct f as [|f]; [|lia]; destruct d0 as [|[k x] r]; [discriminate G0|]; cbn [jv_height] in L; destruct x; cbn [jv_height] in L; lia).
      destruct (dget Nat.eqb d1 1) as [a|] eqn:G1.
      - injection E as <- <-. split; [|intros x I; eapply ddel_In; eauto]. intros args1 [= <-] x [<-|[]]. apply dget_pop in G1. eauto.
      - destruct (dget Nat.eqb d1 2) as [a|] eqn:G2; injection E as <- <-.
        + split; [|intros x I; eapply ddel_In; eauto]. apply dget_pop in G2. apply L0 in G2. intros args1 H x I. destruct a as [n|l|d]; cbn [iter_args] in H.
          * destruct (letters n); [|discriminate]. injection H as <-. apply in_map_iff in I. destruct I as (y & <- & _). exact F.
          * injection H as <-. apply height_list in I. lia.
          * injection H as <-. apply in_map_iff in I. destruct I as (y & <- & _). exact F.
        + split; [|auto]. intros args1 [= <-] x []. }
    destruct LA as [LA LD].
    destruct (match dget Nat.eqb d2 3 with Some o => (truth o, pop d2 3) | None => (false, d2) end) as [optional d3] eqn:E3.
    assert (L3 : forall x, In x d3 -> In x d2) by (destruct (dget Nat.eqb d2 3); injection E3 as _ <-; auto; intros x I; eapply ddel_In; eauto).
    destruct (iter_args letters args) as [args1|e] eqn:EA; cbn [res_bind].
    2:{ destruct args as [n|l|d]; cbn in EA; try discriminate. destruct (letters n); [discriminate|]. congruence. }
    pose proof (map_res_fine (fun kv : nat * jv => res_map (pair (fst kv)) (to_arg (load f) (snd kv))) d3) as MK.
    destruct (map_res _ d3) as [kwargs|e]; cbn [res_bind].
    2:{ intros [= ->]. apply MK; [|reflexivity]. intros [k x] I. apply L3, LD, L0, AR in I. cbn [fst snd]. destruct (to_arg (load f) x); cbn; congruence. }
    destruct type_ as [t|l|d]; try discriminate. destruct (is_source t); cbn [negb]; [|discriminate].
    pose proof (map_res_fine (to_arg (load f)) args1) as MA. destruct (map_res _ args1) as [args2|e]; cbn [res_bind].
    2:{ intros [= ->]. apply MA; [|reflexivity]. intros x I. apply AR. eapply LA; eauto. }
    pose proof (CD t args2 kwargs). destruct (ctor_raises t args2 kwargs); congruence.
  Qed.

  Lemma load_class fuel d s : load fuel (JDict d) = Ok s ->
    exists t args kwargs, dget Nat.eqb d 0 = Some (JAtom t) /\ is_source t = true /\ ctor_raises t args kwargs = None /\
      (s = Built t args kwargs \/ s = OptionalOf (Built t args kwargs) /\ exists o, In (3, o) d /\ truth o = true).
  Proof.
    destruct fuel as [|f]; [discriminate|]. cbn [FileSrc_Model.load].
    match goal with |- context [rethrow_configuration ?r] => set (R := r) end.
    intro H. assert (HR : R = Ok s) by (unfold rethrow_configuration in H; destruct R as [s'|e]; [auto|destruct e; discriminate]). clear H. unfold R in HR. clear R.
    destruct (dget Nat.eqb d 0) as [type_|] eqn:G; [|discriminate].
    destruct (match dget Nat.eqb (pop d 0) 1 with
              | Some a => (JList [a], pop (pop d 0) 1)
              | None => match dget Nat.eqb (pop d 0) 2 with Some a => (a, pop (pop d 0) 2) | None => (JList [], pop d 0) end
              end) as [args d2] eqn:E.
    assert (L2 : forall x, In x d2 -> In x d).
    { intros x I. apply (ddel_In d 0). destruct (dget Nat.eqb (pop d 0) 1); [|destruct (dget Nat.eqb (pop d 0) 2)]; injection E as _ <-; auto; eapply ddel_In; eauto. }
    destruct (match dget Nat.eqb d2 3 with Some o => (truth o, pop d2 3) | None => (false, d2) end) as [optional d3] eqn:E3.
    destruct (iter_args letters args) as [args1|e]; [|discriminate]. cbn [res_bind] in HR.
    destruct (map_res _ d3) as [kwargs|e]; [|discriminate]. cbn [res_bind] in HR. destruct type_ as [t|l|d']; try discriminate.
    destruct (is_source t) eqn:S; [|discriminate]. cbn [negb] in HR. destruct (map_res _ args1) as [args2|e]; [|discriminate]. cbn [res_bind] in HR.
    destruct (ctor_raises t args2 kwargs) eqn:C; [discriminate|]. injection HR as <-. exists t, args2, kwargs. split; auto. split; auto. split; auto.
    destruct optional; [right|auto]. split; auto. destruct (dget Nat.eqb d2 3) as [o|] eqn:G3; [|discriminate]. injection E3 as E3 _. exists o. split; auto. apply L2. now apply dget_pop.
  Qed.

  Lemma load_list_is fuel l : load_list is_source is_extra extra_raises ctor_raises truth letters fuel l = map_res (load fuel) l.
  Proof. reflexivity. Qed.
End LoadErrors.
