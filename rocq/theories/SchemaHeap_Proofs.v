From Coq Require Import String Lia.
From Verif Require Import Prelude PreludeFacts MoreFacts SchemaHeap_Model SchemaHeap_Spec.
Set Implicit Arguments.

Lemma kept_refl h : kept h h. Proof. split; auto. Qed.
Lemma kept_trans h1 h2 h3 : kept h1 h2 -> kept h2 h3 -> kept h1 h3.
Proof. intros [A B] [C D]. split; [lia|]. intros n H. rewrite D by lia. auto. Qed.
Lemma kept_alloc h c : kept h (fst (alloc h c)).
Proof. split; cbn; [lia|]. intros n H. destruct (Nat.eqb_spec n (next h)); [lia|auto]. Qed.
(** a write to an object that is newer than [h] *)
Lemma kept_write h h' m c : kept h h' -> next h <= m -> kept h (write h' m c).
Proof. intros [A B] M. split; cbn; auto. intros n H. destruct (Nat.eqb_spec n m); [lia|auto]. Qed.

Section Kept.
  Variable call : desc -> heap -> val -> heap * res val.
  Hypothesis K : forall d h v, kept h (fst (call d h v)).
  Lemma list_kept d l : forall h acc, kept h (fst (list_loop call d h l acc)).
  Proof.
    induction l as [|p l IH]; intros h acc; cbn; [apply kept_refl|]. pose proof (K d h p) as H. destruct (call d h p) as [h' [w|e]]; cbn in *; auto.
    eapply kept_trans; eauto.
  Qed.
  Lemma keys_kept h0 m keys : next h0 <= m -> forall h out, kept h0 h -> kept h0 (fst (keys_loop call keys h m out)).
  Proof.
    intros M. induction keys as [|[key [[opt def] kd]] keys IH]; intros h out H; cbn; auto.
    destruct (cells h m) as [l|l|d]; auto. destruct (dget String.eqb d key) as [v|].
    - set (h1 := write h m (DCell (ddel String.eqb d key))). assert (H1 : kept h0 h1) by (apply kept_write; auto).
      pose proof (K kd h1 v) as H2. destruct (call kd h1 v) as [h' [w|e]]; cbn in *.
      + apply IH. eapply kept_trans; eauto.
      + eapply kept_trans; eauto.
    - destruct opt; auto.
  Qed.
  Lemma union_kept ds v : forall h, kept h (fst (union_loop call ds h v)).
  Proof.
    induction ds as [|d ds IH]; intros h; cbn; [apply kept_refl|]. pose proof (K d h v) as H. destruct (call d h v) as [h' [w|e]]; cbn in *; auto.
    destruct e; auto. eapply kept_trans; eauto.
  Qed.
End Kept.

Lemma copy_kept h v : kept h (fst (copy h v)).
Proof. destruct v as [n|n]; cbn; [apply kept_refl|]. destruct (cells h n); try apply (kept_alloc h); apply kept_refl. Qed.

Lemma call_kept : forall fuel d h v, kept h (fst (call fuel d h v)).
Proof.
  induction fuel as [|fuel IH]; intros d h v; [apply kept_refl|]. destruct d as [make|td|keys mapper|ds]; cbn [call].
  - apply kept_refl.
  - destruct v as [n|n]; [apply kept_refl|].
    assert (Q : forall l, kept h (fst (let (h1, m) := alloc h (LCell l) in
          match list_loop (call fuel) td h1 l [] with
          | (h2, Ok ws) => let (h3, k) := alloc h2 (LCell ws) in (h3, Ok (VRef k))
          | (h2, Err e) => (h2, Err e)
          end))).
    { intros l. pose proof (kept_alloc h (LCell l)) as A. destruct (alloc h (LCell l)) as [h1 m]. cbn [fst] in A.
      pose proof (list_kept (call fuel) IH td l h1 []) as B. destruct (list_loop (call fuel) td h1 l []) as [h2 [ws|e]]; cbn [fst] in *.
      - pose proof (kept_alloc h2 (LCell ws)) as C. destruct (alloc h2 (LCell ws)) as [h3 k]. cbn [fst] in *. eapply kept_trans; [eapply kept_trans|]; eauto.
      - eapply kept_trans; eauto. }
    destruct (cells h n) as [l|l|d]; auto. apply kept_refl.
  - pose proof (copy_kept h v) as A. destruct (copy h v) as [h1 v1]. cbn [fst] in A.
    destruct v1 as [n|n]; [exact A|]. destruct (cells h1 n) as [l|l|d]; [exact A|exact A|].
    pose proof (kept_alloc h1 (DCell d)) as B. destruct (alloc h1 (DCell d)) as [h2 m] eqn:E. cbn [fst] in B.
    assert (M : next h <= m) by (injection E as _ <-; apply A).
    assert (C : kept h h2) by (eapply kept_trans; eauto).
    pose proof (keys_kept (call fuel) IH keys M [] C) as D. destruct (keys_loop (call fuel) keys h2 m []) as [h3 [out|e]]; cbn [fst] in D; [|exact D].
    destruct (cells h3 m) as [l|l|rest]; [exact D|exact D|]. destruct (unknown_loop mapper rest out) as [o|e]; [|exact D].
    pose proof (kept_alloc h3 (DCell o)) as F. destruct (alloc h3 (DCell o)) as [h4 k]. cbn [fst] in *. eapply kept_trans; eauto.
  - apply union_kept. auto.
Qed.

(** ** What a thorough descriptor gives shares nothing with what was there *)
Definition in_ (G : nat -> Prop) (v : val) : Prop := match v with VAtom _ => True | VRef n => G n end.
(** the objects of [G] are newer than [k] and refer to each other only *)
Definition island (k : nat) (h : heap) (G : nat -> Prop) : Prop :=
  (forall n, G n -> k <= n < next h) /\ forall n v, G n -> In v (contents (cells h n)) -> in_ G v.
Definition apart (k : nat) (h : heap) (v : val) : Prop := exists G, island k h G /\ in_ G v.
Definition all_apart (k : nat) (h : heap) (l : list val) : Prop := exists G, island k h G /\ Forall (in_ G) l.

Lemma island_kept k h h' G : island k h G -> kept h h' -> island k h' G.
Proof.
  intros [A B] [C D]. split.
  - intros n H. specialize (A n H). lia.
  - intros n v H I. rewrite D in I by (apply A; auto). eapply B; eauto.
Qed.
Lemma island_down k k' h G : island k h G -> k' <= k -> island k' h G.
Proof. intros [A B] L. split; auto. intros n H. specialize (A n H). lia. Qed.
Lemma island_union k h G1 G2 : island k h G1 -> island k h G2 -> island k h (fun n => G1 n \/ G2 n).
Proof.
  intros [A B] [C D]. split.
  - intros n [H|H]; auto.
  - intros n v [H|H] I; [specialize (B n v H I)|specialize (D n v H I)]; destruct v; cbn in *; auto.
Qed.
Lemma in_l G1 (G2 : nat -> Prop) v : in_ G1 v -> in_ (fun n => G1 n \/ G2 n) v. Proof. destruct v; cbn; auto. Qed.
Lemma in_r (G1 : nat -> Prop) G2 v : in_ G2 v -> in_ (fun n => G1 n \/ G2 n) v. Proof. destruct v; cbn; auto. Qed.
(** a new object whose contents are on an island *)
Lemma island_alloc k h c : k <= next h -> all_apart k h (contents c) -> apart k (fst (alloc h c)) (VRef (next h)).
Proof.
  intros L (G & I & F). exists (fun n => n = next h \/ G n). split; [|cbn; auto]. split.
  - intros n [->|H]; cbn; [lia|]. apply I in H. lia.
  - cbn. intros n v [->|H] IN.
    + rewrite Nat.eqb_refl in IN. rewrite Forall_forall in F. apply in_r. auto.
    + destruct I as [A B]. destruct (Nat.eqb_spec n (next h)) as [->|N]; [specialize (A _ H); lia|]. apply in_r. eapply B; eauto.
Qed.
Lemma all_apart_kept k h h' l : all_apart k h l -> kept h h' -> all_apart k h' l.
Proof. intros (G & I & F) K. exists G. split; auto. eapply island_kept; eauto. Qed.
Lemma all_apart_snoc k k' h l w : all_apart k h l -> apart k' h w -> k <= k' -> all_apart k h (l ++ [w]).
Proof.
  intros (G & I & F) (G' & I' & W) L. exists (fun n => G n \/ G' n). split.
  - apply island_union; auto. eapply island_down; eauto.
  - apply Forall_app. split.
    + eapply Forall_impl; [|exact F]. intros v. apply in_l.
    + constructor; auto. apply in_r; auto.
Qed.
Lemma all_apart_atom k h l v : all_apart k h l -> atom v -> all_apart k h (l ++ [v]).
Proof. intros (G & I & F) A. exists G. split; auto. apply Forall_app. split; auto. constructor; auto. destruct v; cbn in *; tauto. Qed.
Lemma all_apart_sub k h l l' : all_apart k h l -> (forall v, In v l' -> In v l) -> all_apart k h l'.
Proof. intros (G & I & F) S. exists G. split; auto. rewrite Forall_forall in *. auto. Qed.
Lemma apart_atom k h v : atom v -> apart k h v.
Proof. intros A. exists (fun _ => False). split; [split; tauto|]. destruct v; cbn in *; tauto. Qed.
Lemma dset_values (d : dict string val) key w v : In v (map snd (dset String.eqb d key w)) -> In v (map snd d ++ [w]).
Proof.
  induction d as [|[k x] d IH]; cbn; auto. destruct (String.eqb k key); cbn; intros [H|H]; subst.
  - right. apply in_or_app. right. left. auto.
  - right. apply in_or_app. auto.
  - auto.
  - right. auto.
Qed.

Section Apart.
  Variable call : desc -> heap -> val -> heap * res val.
  Hypothesis K : forall d h v, kept h (fst (call d h v)).
  Hypothesis T : forall d h v h' w, thorough d -> call d h v = (h', Ok w) -> apart (next h) h' w.
  Lemma list_apart d (TD : thorough d) k : forall l h acc h' ws, k <= next h -> all_apart k h acc ->
    list_loop call d h l acc = (h', Ok ws) -> all_apart k h' ws.
  Proof.
    induction l as [|p l IH]; intros h acc h' ws L A E; cbn in E.
    - injection E as <- <-. auto.
    - pose proof (K d h p) as H. destruct (call d h p) as [h1 [w|e]] eqn:C; [|discriminate]. cbn [fst] in H.
      refine (IH h1 _ _ _ _ _ E); [destruct H; lia|].
      eapply all_apart_snoc; [eapply all_apart_kept; eauto|eapply T; eauto|auto].
  Qed.
  Definition all_apart' (k : nat) (h : heap) (m : nat) (l : list val) : Prop := exists G, island k h G /\ Forall (in_ G) l /\ ~ G m.
  Lemma keys_apart keys (TD : Forall (fun k => atom (snd (fst (snd k))) /\ thorough (snd (snd k))) keys) k m : forall h out h' out', k <= next h -> m < next h ->
    all_apart' k h m (map snd out) -> keys_loop call keys h m out = (h', Ok out') -> all_apart' k h' m (map snd out') /\ kept h {| cells := fun n => if Nat.eqb n m then cells h m else cells h' n; next := next h' |}.
  Proof.
    induction TD as [|[key [[opt def] kd]] keys [AT TH] TD IH]; intros h out h' out' L M A E; cbn in E.
    - injection E as <- <-. split; auto. split; cbn; auto. intros n _. destruct (Nat.eqb_spec n m); congruence.
    - destruct (cells h m) as [l|l|d] eqn:CM; try discriminate. destruct (dget String.eqb d key) as [v|].
      + set (h1 := write h m (DCell (ddel String.eqb d key))) in *.
        pose proof (K kd h1 v) as H. pose proof (@T kd h1 v) as H'. destruct (call kd h1 v) as [h2 [w|e]] eqn:C; [|discriminate]. cbn [fst snd] in *.
        specialize (H' h2 w TH eq_refl). destruct H as [HN HC]. cbn in HN.
        assert (A2 : all_apart' k h2 m (map snd (dset String.eqb out key w))).
        { destruct A as (G & [G1 G2] & F & N). destruct H' as (G' & [G1' G2'] & W).
          exists (fun n => G n \/ G' n). split; [|split].
          - apply island_union.
            + split; [intros n H; specialize (G1 n H); lia|]. intros n x H I. rewrite HC in I by (cbn; apply G1; auto). cbn in I.
              destruct (Nat.eqb_spec n m) as [->|]; [tauto|]. eapply G2; eauto.
            + split; auto. intros n H. specialize (G1' n H). cbn in G1'. lia.
          - apply Forall_forall. intros x X. apply dset_values in X. apply in_app_or in X. destruct X as [X|[<-|[]]].
            + apply in_l. rewrite Forall_forall in F. auto.
            + apply in_r. auto.
          - intros [H|H]; auto. specialize (G1' m H). cbn in G1'. lia. }
        destruct (IH h2 _ h' out' ltac:(lia) ltac:(lia) A2 E) as [R1 [R2 R3]]. split; auto. split; cbn in *; [lia|].
        intros n Hn. destruct (Nat.eqb_spec n m) as [->|NM]; [auto|]. specialize (R3 n ltac:(lia)). destruct (Nat.eqb_spec n m); [tauto|]. rewrite R3.
        rewrite HC by (cbn; lia). cbn. destruct (Nat.eqb_spec n m); tauto.
      + destruct opt; [|discriminate]. rewrite <- CM. refine (IH h _ h' out' L M _ E). destruct A as (G & I & F & N). exists G. split; auto. split; auto.
        apply Forall_forall. intros x X. apply dset_values in X. apply in_app_or in X. rewrite Forall_forall in F. destruct X as [X|[<-|[]]]; auto.
        cbn in AT. destruct def; cbn in *; tauto.
  Qed.
  Lemma union_apart ds (TD : Forall thorough ds) v k : forall h h' w, k <= next h -> union_loop call ds h v = (h', Ok w) -> apart k h' w.
  Proof.
    induction TD as [|d ds TH TD IH]; intros h h' w L E; cbn in E; [discriminate|].
    pose proof (K d h v) as H. destruct (call d h v) as [h1 [x|e]] eqn:C; cbn [fst] in H.
    - injection E as <- <-. destruct (@T d h v _ _ TH C) as (G & I & W). exists G. split; auto. eapply island_down; eauto.
    - destruct e; try discriminate. refine (IH h1 _ _ _ E). destruct H; lia.
  Qed.
End Apart.

Lemma unknown_values mapper : forall value out out', (forall k v w, mapper k v = Ok w -> atom w) -> unknown_loop mapper value out = Ok out' ->
  forall v, In v (map snd out') -> In v (map snd out) \/ atom v.
Proof.
  induction value as [|[k x] value IH]; intros out out' M E v I; cbn in E.
  - injection E as <-. auto.
  - destruct (mapper k x) as [w|e] eqn:X; [|discriminate]. destruct (IH _ _ M E v I) as [H|H]; auto.
    apply dset_values in H. apply in_app_or in H. destruct H as [H|[<-|[]]]; auto. right. eapply M; eauto.
Qed.

Lemma call_apart : forall fuel d h v h' w, thorough d -> call fuel d h v = (h', Ok w) -> apart (next h) h' w.
Proof.
  induction fuel as [|fuel IH]; intros d h v h' w TH E; [discriminate|].
  destruct TH as [make M|td TD|keys mapper TK TM|ds TD]; cbn [call] in E.
  - injection E as <- E. apply apart_atom. destruct (make v) as [x|e] eqn:X; [injection E as <-; eapply M; eauto|destruct e; discriminate].
  - destruct v as [n|n]; [discriminate|].
    assert (Q : forall l, (let (h1, m) := alloc h (LCell l) in
          match list_loop (call fuel) td h1 l [] with
          | (h2, Ok ws) => let (h3, k) := alloc h2 (LCell ws) in (h3, Ok (VRef k))
          | (h2, Err e) => (h2, Err e)
          end) = (h', Ok w) -> apart (next h) h' w).
    { clear E. intros l E. pose proof (kept_alloc h (LCell l)) as A. destruct (alloc h (LCell l)) as [h1 m]. cbn [fst] in A.
      pose proof (list_kept (call fuel) (call_kept fuel) td l h1 []) as B.
      destruct (list_loop (call fuel) td h1 l []) as [h2 [ws|e]] eqn:X; cbn [fst] in *; [|discriminate].
      assert (L : next h <= next h1) by apply A. assert (L2 : next h1 <= next h2) by apply B.
      assert (Y : all_apart (next h) h2 ws).
      { eapply (list_apart (call fuel) (call_kept fuel)); eauto. exists (fun _ => False). split; [split; tauto|constructor]. }
      assert (L3 : next h <= next h2) by lia. pose proof (island_alloc (LCell ws) L3 Y) as Z. cbn in E. injection E as <- <-. exact Z. }
    destruct (cells h n) as [l|l|d]; [eauto|eauto|discriminate].
  - pose proof (copy_kept h v) as A. destruct (copy h v) as [h1 v1]. cbn [fst] in A.
    destruct v1 as [n|n]; [discriminate|]. destruct (cells h1 n) as [l|l|d]; [discriminate|discriminate|].
    pose proof (kept_alloc h1 (DCell d)) as B. destruct (alloc h1 (DCell d)) as [h2 m] eqn:EA. cbn [fst] in B.
    assert (LL : next h <= next h1) by apply A.
    assert (EM : m = next h1 /\ next h2 = S (next h1)) by (injection EA as <- <-; auto). destruct EM as [-> EN].
    destruct (keys_loop (call fuel) keys h2 (next h1) []) as [h3 [out|e]] eqn:X; [|discriminate].
    destruct (@keys_apart (call fuel) (call_kept fuel) IH keys TK (next h) (next h1) h2 [] h3 out) as [R1 [R2 R3]]; [lia|lia| |exact X|].
    { exists (fun _ => False). split; [split; tauto|]. split; [constructor|tauto]. }
    cbn in R2. destruct (cells h3 (next h1)) as [l|l|rest]; [discriminate|discriminate|].
    destruct (unknown_loop mapper rest out) as [o|e] eqn:U; [|discriminate].
    cbn in E. injection E as <- <-. apply (island_alloc (DCell o)); [lia|].
    destruct R1 as (G & I & F & _). exists G. split; auto. apply Forall_forall. intros x HX. cbn in HX.
    destruct (unknown_values mapper rest out TM U x HX) as [H|H]; [rewrite Forall_forall in F; auto|]. destruct x; cbn in *; tauto.
  - eapply (union_apart (call fuel) (call_kept fuel)); eauto.
Qed.
