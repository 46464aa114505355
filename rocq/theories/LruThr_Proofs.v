(** Proofs about LruThr_Model. *)
From Verif Require Import Prelude PreludeFacts MoreFacts CacheDict_Model CacheDict_Spec CacheLRU_Proofs MetrThr_Model MetrThr_Spec MetrThr_Proofs LruThr_Model LruThr_Spec.
Set Implicit Arguments.

Section LruThrProofs.
  Context {K V : Type}.
  Variable eqb : K -> K -> bool.
  Hypothesis ok : eqb_ok eqb.
  Variable max_size : nat.
  Hypothesis some : 1 <= max_size.
  Variable getter : K -> option V.
  Notation cfg := (config (lru_state K V) (call K V) (code K V) (option V)).
  Notation exec := (exec eqb max_size getter).
  Notation still := (still (V := V) max_size).
  Notation cache := (cst K V).

  (** ** one call at a time *)
  Definition put_lru (s : cache) l : cache := CacheDict_Model.set_lru s l.
  Definition unit_res (p : cache * option exn) : cache * res (option V) := (fst p, match snd p with None => Ok None | Some e => Err e end).
  Definition room (s : cache) : cache * option exn := cd_make_room eqb still (S (length (cd_lru s))) max_size s.
  Definition store3 (s : cache) k v p : cache * res (option V) :=
    match p with User => (s, Ok None) | Fetched => (put_lru s (lru_add eqb (cd_lru s) k), Ok (Some v)) | Fed => (put_lru s (lru_add eqb (cd_lru s) k), Ok None) end.
  Definition store (s : cache) k v p : cache * res (option V) := store3 (match p with Fed => base_feed eqb s k v None 0 | _ => base_setitem eqb s k v 0 end) k v p.
  Definition mark (s : cache) k : cache := put_lru s (lru_mark eqb (cd_lru s) k).
  Definition roomy (s : cache) k v p : cache * res (option V) :=
    match room s with
    | (s', Some e) => (s', Err e)
    | (s', None) => store (match p with Fed => s' | _ => mark s' k end) k v p
    end.
  Definition after4 (s : cache) (r : reason) : cache * res (option V) :=
    match r with Failed => (s, Err KeyError) | Evicted k' v p => roomy s k' v p | _ => (s, Ok None) end.
  Definition after3 (k : K) (r : reason) (p : cache * option exn) : cache * res (option V) :=
    match r with UserDel => unit_res p | _ => after4 (put_lru (fst p) (fst (lru_remove eqb (cd_lru (fst p)) k))) r end.
  Definition del3 (s : cache) k : cache * option exn := let (l, e) := lru_remove eqb (cd_lru s) k in (put_lru s l, e).
  Definition del2 (s : cache) k : cache * option exn :=
    if dmem eqb (cd_ts s) k
    then del3 {| cd_data := cd_data s; cd_ts := ddel eqb (cd_ts s) k; cd_missed := remove_first eqb k (cd_missed s); cd_lru := cd_lru s; cd_pending := cd_pending s |} k
    else (s, Some KeyError).
  Definition get2 (s : cache) k : cache * res (option V) :=
    match dget eqb (cd_ts s) k with
    | None => (s, Err KeyError)
    | Some _ => (s, match dget eqb (cd_data s) k with Some v => Ok (Some v) | None => Err KeyError end)
    end.
  Definition ask (s : cache) k : cache * res (option V) :=
    match getter k with Some v => roomy s k v Fetched | None => after3 k Failed (cd_delitem eqb still s k) end.
  Definition get1 (s : cache) k : cache * res (option V) := if dmem eqb (cd_data s) k then get2 s k else ask s k.
  (* what the rest of the call does if nobody interferes *)
  Definition rest (a : code K V) (s : cache) : cache * res (option V) :=
    match a with
    | CMark k UseGet => get1 (mark s k) k
    | CMark k (UseSet v p) => store (mark s k) k v p
    | CMove k u => if memb eqb k (cd_lru s) then match u with UseGet => get1 (mark s k) k | UseSet v p => store (mark s k) k v p end else (s, Err KeyError)
    | CAdd k u => let s := put_lru s (lru_add eqb (cd_lru s) k) in match u with UseGet => get1 s k | UseSet v p => store s k v p end
    | GIn k => get1 s k
    | GStamp k => get2 s k
    | GRead k => (s, match dget eqb (cd_data s) k with Some v => Ok (Some v) | None => Err KeyError end)
    | GAsk k => ask s k
    | FIn k v => if dmem eqb (cd_data s) k then store s k v Fed else roomy s k v Fed
    | SRoom k v p => roomy s k v p
    | EPop k v p => roomy (cd_evict eqb still s) k v p
    | SData k v p => store s k v p
    | SStamp k v p => store3 {| cd_data := cd_data s; cd_ts := dset eqb (cd_ts s) k 0%Z; cd_missed := remove_first eqb k (cd_missed s); cd_lru := cd_lru s; cd_pending := cd_pending s |} k v p
    | SLru k v p => (put_lru s (lru_add eqb (cd_lru s) k), Ok (match p with Fetched => Some v | _ => None end))
    | D1 k r => after3 k r (cd_delitem eqb still s k)
    | D2 k r => after3 k r (del2 s k)
    | D3 k r => after3 k r (del3 s k)
    | D4 k r => after4 (put_lru s (fst (lru_remove eqb (cd_lru s) k))) r
    end.
  Lemma remove_first_same k l : fst (lru_remove eqb l k) = remove_first eqb k l.
  Proof. unfold lru_remove. destruct (memb eqb k l) eqn:M; auto. simpl. apply (memb_false ok) in M. rewrite (remove_first_notin ok); auto. Qed.
  Lemma stamped k l : dmem eqb (map (fun k => (k, 0%Z)) l) k = memb eqb k l.
  Proof. unfold dmem. induction l as [|x l IH]; simpl; auto. destruct (eqb x k); auto. Qed.
  Lemma stamps_set k l : dset eqb (map (fun k => (k, 0%Z)) l) k 0%Z = map (fun k => (k, 0%Z)) (added eqb k l).
  Proof.
    unfold added. induction l as [|x l IH]; simpl; auto. destruct (eqb x k) eqn:E; simpl; [apply ok in E; subst; auto|].
    rewrite IH. destruct (memb eqb k l); auto.
  Qed.
  Lemma stamps_del k l : ddel eqb (map (fun k => (k, 0%Z)) l) k = map (fun k => (k, 0%Z)) (remove_first eqb k l).
  Proof. induction l as [|x l IH]; simpl; auto. destruct (eqb x k) eqn:E; simpl; auto. rewrite IH. auto. Qed.
  Lemma remove_shorter k (l : list K) : length (remove_first eqb k l) <= length l.
  Proof. induction l as [|x l IH]; simpl; auto. destruct (eqb x k); simpl; lia. Qed.
  Lemma invalidate_shorter (s : cache) k : length (cd_lru (cd_invalidate eqb still s k)) <= length (cd_lru s).
  Proof.
    unfold cd_invalidate, base_invalidate. simpl. rewrite remove_first_same. etransitivity; [apply remove_shorter|].
    unfold cd_delitem, base_delitem. simpl. destruct (dmem eqb (cd_data s) k); simpl; auto. destruct (dmem eqb (cd_ts s) k); simpl; auto.
    unfold lru_remove. destruct (memb eqb k (cd_lru s)); simpl; auto. apply remove_shorter.
  Qed.
  Lemma evict_shorter (s : cache) : length (cd_lru (cd_evict eqb still s)) <= pred (length (cd_lru s)).
  Proof. unfold cd_evict, lru_evict. destruct (cd_lru s) as [|k l] eqn:E; [rewrite E; auto|]. simpl. etransitivity; [apply invalidate_shorter|auto]. Qed.
  Lemma room_fuel n : forall f (s : cache), length (cd_lru s) <= n -> n < f -> cd_make_room eqb still f max_size s = cd_make_room eqb still (S n) max_size s.
  Proof.
    induction n as [|n IH]; intros f s L F.
    - assert (E : cd_evict eqb still s = s) by (unfold cd_evict, lru_evict; destruct (cd_lru s); [auto|simpl in L; lia]).
      simpl. rewrite E. destruct (Nat.ltb (max_size - 1) (length (cd_data s))) eqn:B.
      + destruct f as [|f]; [lia|]. clear F. induction f as [|f IH]; simpl; rewrite B, E; [rewrite B; auto|exact IH].
      + destruct f; simpl; rewrite B; auto.
    - destruct f as [|f]; [lia|]. pose proof (evict_shorter s) as E. simpl. destruct (Nat.ltb (max_size - 1) (length (cd_data s))); auto.
      rewrite (IH f) by lia. reflexivity.
  Qed.
  Lemma room_evict (s : cache) : max_size <= length (cd_data s) -> room s = room (cd_evict eqb still s).
  Proof.
    intros H. unfold room at 1. simpl. destruct (Nat.ltb (max_size - 1) (length (cd_data s))) eqn:B; [|apply Nat.ltb_ge in B; lia].
    destruct (cd_lru s) as [|k l] eqn:E.
    - assert (Ev : cd_evict eqb still s = s) by (unfold cd_evict, lru_evict; rewrite E; auto). simpl. rewrite !Ev, B.
      unfold room. rewrite E. simpl. rewrite B, Ev, B. reflexivity.
    - apply room_fuel; simpl; auto. pose proof (evict_shorter s) as Es. rewrite E in Es. simpl in Es. lia.
  Qed.
  Lemma room_free (s : cache) : length (cd_data s) < max_size -> room s = (s, None).
  Proof. intros H. unfold room. simpl. destruct (Nat.ltb (max_size - 1) (length (cd_data s))) eqn:B; auto. apply Nat.ltb_lt in B. lia. Qed.
  Lemma goes_on (a : code K V) (s : lru_state K V) :
    match exec a s with
    | (s', Next a') => rest a' (as_cache s') = rest a (as_cache s)
    | (s', Returned r) => rest a (as_cache s) = (as_cache s', Ok r)
    | (s', Raised e) => rest a (as_cache s) = (as_cache s', Err e)
    end.
  Proof.
    destruct a; simpl.
    - destruct (memb eqb k (lru s)) eqn:M; simpl; [rewrite M; destruct u; auto|]. unfold mark, lru_mark, lru_add. simpl. rewrite M. destruct u; auto.
    - destruct (memb eqb k (lru s)) eqn:M; [|auto]. unfold mark, lru_mark. simpl. rewrite M. destruct u; auto.
    - destruct u; auto.
    - unfold get1. simpl. destruct (dmem eqb (data s) k) eqn:M; auto.
    - unfold get2. simpl. pose proof (stamped k (stamps s)) as E. unfold dmem in E. destruct (memb eqb k (stamps s)); simpl; destruct (dget eqb _ k); auto; discriminate.
    - destruct (dget eqb (data s) k); auto.
    - unfold ask. destruct (getter k); auto.
    - destruct (dmem eqb (data s) k); auto.
    - destruct (Nat.leb_spec max_size (length (data s))) as [H|H].
      + unfold roomy. simpl. rewrite (@room_evict (as_cache s)) by auto. auto.
      + unfold roomy. rewrite (@room_free (as_cache s)) by auto. destruct p; auto.
    - destruct (lru s) as [|k' l] eqn:E; simpl.
      + unfold cd_evict, lru_evict. simpl. rewrite E. auto.
      + unfold cd_evict, lru_evict. simpl. rewrite E. auto.
    - unfold store, store3. destruct p; reflexivity.
    - unfold store3. simpl. rewrite stamps_set. destruct p; auto.
    - destruct p; auto.
    - unfold cd_delitem, base_delitem. simpl. destruct (dmem eqb (data s) k); simpl.
      + unfold del2. simpl. destruct (dmem eqb _ k); auto.
      + destruct r; try reflexivity.
    - unfold del2. simpl. rewrite stamped. destruct (memb eqb k (stamps s)) eqn:M; simpl; [rewrite stamps_del; auto|]. destruct r; reflexivity.
    - unfold del3. simpl. unfold lru_remove at 1. destruct (memb eqb k (lru s)) eqn:M; simpl; destruct r; simpl; unfold lru_remove; simpl; rewrite ?M; reflexivity.
    - rewrite !remove_first_same. simpl. destruct r; reflexivity.
  Qed.
  Definition answer (p : cache * cd_out K V) : cache * res (option V) := (fst p, as_result (snd p)).
  Lemma set_room (s : cache) k v t : cd_setitem eqb still s k v t = match room s with (s', Some e) => (s', Some e) | (s', None) => (base_setitem eqb (mark s' k) k v t, None) end.
  Proof. reflexivity. Qed.
  Lemma feed_room (s : cache) k v : cd_feed eqb still s k v None 0 =
    match (if dmem eqb (cd_data s) k then (s, None) else room s) with (s', Some e) => (s', Some e) | (s', None) => (put_lru (base_feed eqb s' k v None 0) (lru_add eqb (cd_lru s') k), None) end.
  Proof. reflexivity. Qed.
  Lemma begins (d : call K V) (s : lru_state K V) : rest (first d) (as_cache s) = answer (cd_step eqb still (as_cache s) (as_op getter d)).
  Proof.
    destruct d; simpl.
    - unfold get1, cd_getitem. simpl. rewrite andb_true_r. destruct (dmem eqb (data s) k) eqn:M; simpl.
      + unfold get2. simpl. destruct (dget eqb (map _ (stamps s)) k) as [ts|] eqn:T; [|reflexivity].
        assert (ts = 0%Z) as ->. { apply (dget_In ok) in T. apply in_map_iff in T. destruct T as (x & E & _). congruence. }
        unfold dmem in M. destruct (dget eqb (data s) k); [reflexivity|discriminate].
      + unfold called, answer. simpl. unfold ask, cd_get_value_block, asked. destruct (getter k) as [v|].
        * rewrite set_room. unfold roomy. change (CacheDict_Model.set_lru (as_cache s) (lru_mark eqb (lru s) k)) with (mark (as_cache s) k). destruct (room (mark (as_cache s) k)) as [s' [e|]]; reflexivity.
        * simpl. unfold cd_on_failure, cd_invalidate, base_invalidate. reflexivity.
    - rewrite set_room. unfold roomy. destruct (room (as_cache s)) as [s' [e|]]; reflexivity.
    - rewrite feed_room. unfold roomy. simpl. destruct (dmem eqb (data s) k); [reflexivity|]. destruct (room (as_cache s)) as [s' [e|]]; reflexivity.
    - unfold unit_out, answer. simpl. destruct (cd_delitem eqb still (as_cache s) k) as [s' [e|]]; reflexivity.
    - reflexivity.
  Qed.

  Lemma cd_run_snoc ops : forall (s : cache) o, cd_run eqb still s (ops ++ [o]) =
    let (outs, s1) := cd_run eqb still s ops in let (s2, out) := cd_step eqb still s1 o in (outs ++ [out], s2).
  Proof.
    induction ops as [|x l IH]; intros s o; simpl; [destruct (cd_step eqb still s o); auto|].
    destruct (cd_step eqb still s x) as [s1 out]. rewrite IH. destruct (cd_run eqb still s1 l) as [outs s2]. destruct (cd_step eqb still s2 o); auto.
  Qed.
  Lemma one_more l d : one_by_one eqb max_size getter (l ++ [d]) =
    let (outs, s) := one_by_one eqb max_size getter l in let (s', r) := answer (cd_step eqb still s (as_op getter d)) in (outs ++ [r], s').
  Proof.
    unfold one_by_one. rewrite map_app. simpl. rewrite cd_run_snoc. destruct (cd_run eqb still cd_init _) as [outs s1]. unfold answer.
    destruct (cd_step eqb still s1 _) as [s2 out]. simpl. rewrite map_app. auto.
  Qed.
  Definition alone (c : cfg) : Prop :=
    (idle c /\ one_by_one eqb max_size getter (ended c) = (map snd (log c), as_cache (shared c))) \/
    exists t d a s0, current c t = Some (d, a) /\ (forall u, u <> t -> current c u = None) /\
      one_by_one eqb max_size getter (ended c) = (map snd (log c), s0) /\ rest a (as_cache (shared c)) = answer (cd_step eqb still s0 (as_op getter d)).
  Lemma alone_turn (c : cfg) t : (todo c t = [] /\ current c t = None \/ forall u, u <> t -> current c u = None) -> alone c ->
    alone (turn (@first K V) exec c t).
  Proof.
    intros [[T0 T1]|O]; [unfold turn; rewrite T1, T0; auto|]. intros A. unfold turn. destruct (current c t) as [[d a]|] eqn:E.
    - assert (M : exists s0, one_by_one eqb max_size getter (ended c) = (map snd (log c), s0) /\ rest a (as_cache (shared c)) = answer (cd_step eqb still s0 (as_op getter d))).
      { destruct A as [[I _]|(t' & d' & a' & s0 & C & O' & M)]; [rewrite I in E; discriminate|]. destruct (Nat.eq_dec t' t) as [->|N]; [|rewrite O in C; auto; discriminate].
        rewrite E in C. inversion C; subst. eauto. }
      destruct M as (s0 & M1 & M2). pose proof (goes_on a (shared c)) as G. destruct (exec a (shared c)) as [s [a'|r|e]].
      + right. exists t, d, a', s0. simpl. rewrite put_eq. split; auto. split; [intros u U; rewrite put_neq; auto|]. split; auto. congruence.
      + left. split; [intros u; simpl; destruct (Nat.eq_dec u t) as [->|U]; [apply put_eq|rewrite put_neq; auto]|].
        unfold ended in *. simpl. rewrite !map_app. simpl. rewrite one_more, M1, <- M2, G. auto.
      + left. split; [intros u; simpl; destruct (Nat.eq_dec u t) as [->|U]; [apply put_eq|rewrite put_neq; auto]|].
        unfold ended in *. simpl. rewrite !map_app. simpl. rewrite one_more, M1, <- M2, G. auto.
    - destruct (todo c t) as [|d r] eqn:T; auto. destruct A as [[I M]|(t' & d' & a' & s0 & C & O' & M)].
      + right. exists t, d, (first d), (as_cache (shared c)). simpl. rewrite put_eq. split; auto. split; [intros u U; rewrite put_neq; auto|]. split; auto. apply begins.
      + destruct (Nat.eq_dec t' t) as [->|N]; [congruence|]. rewrite O in C; auto. discriminate.
  Qed.
  Lemma alone_run schedule : forall c : cfg, one_at_a_time (@first K V) exec c schedule -> alone c -> alone (run (@first K V) exec c schedule).
  Proof. induction schedule as [|t r IH]; intros c O A; auto. destruct O as [O1 O2]. simpl. apply IH; auto. apply alone_turn; auto. Qed.
  Lemma alone_start programs schedule : one_at_a_time (@first K V) exec (lru_start programs) schedule -> alone (lru_run eqb max_size getter (lru_start programs) schedule).
  Proof. intros O. apply alone_run; auto. left. split; [intros t; auto|reflexivity]. Qed.
  Lemma solo programs schedule : one_at_a_time (@first K V) exec (lru_start programs) schedule ->
    let c := lru_run eqb max_size getter (lru_start programs) schedule in
    idle c -> one_by_one eqb max_size getter (ended c) = (map snd (log c), as_cache (shared c)).
  Proof. intros O c I. destruct (@alone_start programs schedule O) as [[_ A]|(t & d & a & s0 & C & _)]; auto. fold c in C. rewrite I in C. discriminate. Qed.

  (** ** and such calls end *)
  Fixpoint through (n : nat) (a : code K V) (s : lru_state K V) : option (lru_state K V * res (option V)) :=
    match n with
    | O => None
    | S n => match exec a s with (s', Next a') => through n a' s' | (s', Returned r) => Some (s', Ok r) | (s', Raised e) => Some (s', Err e) end
    end.
  Definition ends a s : Prop := exists n x, through n a s = Some x.
  Lemma ends_next a s a' s' : exec a s = (s', Next a') -> ends a' s' -> ends a s.
  Proof. intros E (n & x & T). exists (S n), x. simpl. rewrite E. auto. Qed.
  Lemma ends_here a s : (match snd (exec a s) with Next _ => False | _ => True end) -> ends a s.
  Proof. intros E. exists 1. simpl. destruct (exec a s) as [s' [a'|r|e]]; [destruct E|eauto|eauto]. Qed.
  Lemma ends_step a s : (forall a' s', exec a s = (s', Next a') -> ends a' s') -> ends a s.
  Proof. intros H. destruct (exec a s) as [s' [a'|r|e]] eqn:E; [eapply ends_next; eauto|apply ends_here; rewrite E; simpl; auto|apply ends_here; rewrite E; simpl; auto]. Qed.
  Lemma ends_slru k v p s : ends (SLru k v p) s.
  Proof. apply ends_here. simpl. auto. Qed.
  Lemma ends_sstamp k v p s : ends (SStamp k v p) s.
  Proof. apply ends_step. simpl. intros a' s' H. destruct p; inversion H; subst; apply ends_slru. Qed.
  Lemma ends_sdata k v p s : ends (SData k v p) s.
  Proof. eapply ends_next; [reflexivity|apply ends_sstamp]. Qed.
  Lemma ends_use k v p s : ends (CMark k (UseSet v p)) s.
  Proof.
    eapply ends_next; [reflexivity|]. apply ends_step. intros a' s' H.
    destruct (memb eqb k (lru s)) eqn:M; simpl in H; [rewrite M in H|]; inversion H; subst; apply ends_sdata.
  Qed.
  Definition steady (a : code K V) s : Prop := snd (rest a (as_cache s)) <> Err Diverges.
  Lemma steady_next a s a' s' : steady a s -> exec a s = (s', Next a') -> steady a' s'.
  Proof. unfold steady. intros H E. pose proof (goes_on a s) as G. rewrite E in G. rewrite G. auto. Qed.
  Lemma ends_sroom n : forall k v p s, length (lru s) <= n -> steady (SRoom k v p) s -> ends (SRoom k v p) s.
  Proof.
    induction n as [|n IH]; intros k v p s L St; destruct (Nat.leb_spec max_size (length (data s))) as [Full|Free].
    - exfalso. apply St. simpl. unfold roomy, room. simpl. destruct (lru s) eqn:E; [|simpl in L; lia]. simpl.
      destruct (Nat.ltb (max_size - 1) (length (data s))) eqn:B; [|apply Nat.ltb_ge in B; lia].
      assert (Ev : cd_evict eqb still (as_cache s) = as_cache s) by (unfold cd_evict, lru_evict; simpl; rewrite E; auto). rewrite Ev. simpl. rewrite B. auto.
    - apply ends_step. simpl. intros a' s' H. destruct (Nat.leb_spec max_size (length (data s))); [lia|]. inversion H; subst. destruct p; [apply ends_use|apply ends_use|apply ends_sdata].
    - assert (E1 : exec (SRoom k v p) s = (s, Next (EPop k v p))) by (simpl; destruct (Nat.leb_spec max_size (length (data s))); [auto|lia]).
      eapply ends_next; [exact E1|]. pose proof (steady_next St E1) as St1. destruct (lru s) as [|k' l] eqn:E.
      { exfalso. apply St. simpl. unfold roomy, room. simpl. rewrite E. simpl. destruct (Nat.ltb (max_size - 1) (length (data s))) eqn:B; [|apply Nat.ltb_ge in B; lia].
        assert (Ev : cd_evict eqb still (as_cache s) = as_cache s) by (unfold cd_evict, lru_evict; simpl; rewrite E; auto). rewrite Ev. simpl. rewrite B. auto. }
      assert (E2 : exec (EPop k v p) s = (set_lru s l, Next (D1 k' (Evicted k v p)))) by (simpl; rewrite E; auto).
      eapply ends_next; [exact E2|]. pose proof (steady_next St1 E2) as St2. simpl in L.
      assert (H4 : forall s', length (lru s') <= n -> steady (D4 k' (Evicted k v p)) s' -> ends (D4 k' (Evicted k v p)) s').
      { intros s' L' St'. eapply ends_next; [reflexivity|]. apply IH; [simpl; etransitivity; [apply remove_shorter|auto]|]. eapply steady_next; [exact St'|reflexivity]. }
      assert (H3 : forall s', length (lru s') <= n -> steady (D3 k' (Evicted k v p)) s' -> ends (D3 k' (Evicted k v p)) s').
      { intros s' L' St'. apply ends_step. intros a' s'' X. pose proof (steady_next St' X) as Y. simpl in X. destruct (memb eqb k' (lru s')); inversion X; subst; apply H4; auto.
        simpl. etransitivity; [apply remove_shorter|auto]. }
      assert (H2 : forall s', length (lru s') <= n -> steady (D2 k' (Evicted k v p)) s' -> ends (D2 k' (Evicted k v p)) s').
      { intros s' L' St'. apply ends_step. intros a' s'' X. pose proof (steady_next St' X) as Y. simpl in X. destruct (memb eqb k' (stamps s')); inversion X; subst; auto. }
      apply ends_step. intros a' s'' X. pose proof (steady_next St2 X) as Y. simpl in X. destruct (dmem eqb (data s) k'); inversion X; subst; [apply H2|apply H4]; simpl; auto; lia.
    - apply ends_step. simpl. intros a' s' H. destruct (Nat.leb_spec max_size (length (data s))); [lia|]. inversion H; subst. destruct p; [apply ends_use|apply ends_use|apply ends_sdata].
  Qed.
  Lemma ends_d k r s : (match r with Evicted _ _ _ => False | _ => True end) -> ends (D1 k r) s.
  Proof.
    intros R. assert (H4 : forall s, ends (D4 k r) s) by (intros s'; apply ends_here; simpl; destruct r; auto; destruct R).
    assert (H3 : forall s, ends (D3 k r) s).
    { intros s'. apply ends_step. simpl. intros a' s'' X. destruct (memb eqb k (lru s')); destruct r; inversion X; subst; auto. }
    assert (H2 : forall s, ends (D2 k r) s).
    { intros s'. apply ends_step. simpl. intros a' s'' X. destruct (memb eqb k (stamps s')); [inversion X; subst; auto|]. destruct r; inversion X; subst; auto. }
    apply ends_step. simpl. intros a' s'' X. destruct (dmem eqb (data s) k); [inversion X; subst; auto|]. destruct r; inversion X; subst; auto.
  Qed.
  Lemma ends_first d s : steady (first d) s -> ends (first d) s.
  Proof.
    destruct d; simpl first; intros St.
    - assert (HG : forall s, steady (GIn k) s -> ends (GIn k) s).
      { intros s' St'. apply ends_step. intros a' s'' X. pose proof (steady_next St' X) as Y. simpl in X. inversion X; subst. destruct (dmem eqb (data s'') k).
        - apply ends_step. simpl. intros a3 s3 Z. destruct (memb eqb k (stamps s'')); inversion Z; subst. apply ends_here. simpl. destruct (dget eqb (data s3) k); auto.
        - apply ends_step. intros a3 s3 Z. pose proof (steady_next Y Z) as Y3. simpl in Z. destruct (getter k); inversion Z; subst; [eapply ends_sroom; eauto|apply ends_d; auto]. }
      apply ends_step. intros a' s' X. pose proof (steady_next St X) as Y. apply ends_step. intros a'' s'' X'. pose proof (steady_next Y X') as Y'.
      assert (a'' = GIn k) as ->; [|auto]. simpl in X. inversion X; subst. destruct (memb eqb k (lru s')) eqn:M; simpl in X'; [rewrite M in X'|]; inversion X'; auto.
    - eapply ends_sroom; eauto.
    - apply ends_step. intros a' s' X. pose proof (steady_next St X) as Y. simpl in X. inversion X; subst. destruct (dmem eqb (data s') k); [apply ends_sdata|eapply ends_sroom; eauto].
    - apply ends_d. auto.
    - apply ends_d. auto.
  Qed.
  Lemma through_turns n : forall (c : cfg) t d a s' r, current c t = Some (d, a) -> through n a (shared c) = Some (s', r) ->
    exists m, let c' := run (@first K V) exec c (repeat t m) in
      shared c' = s' /\ current c' t = None /\ (forall u, u <> t -> current c' u = current c u) /\ log c' = log c ++ [(d, r)] /\ todo c' = todo c.
  Proof.
    induction n as [|n IH]; intros c t d a s' r C T; [discriminate|]. simpl in T. destruct (exec a (shared c)) as [s1 [a1|x|e]] eqn:E.
    - destruct (IH (turn (@first K V) exec c t) t d a1 s' r) as (m & Hm).
      + unfold turn. rewrite C, E. simpl. apply put_eq.
      + unfold turn. rewrite C, E. auto.
      + exists (S m). cbv zeta in *. simpl. destruct Hm as (H1 & H2 & H3 & H4 & H5). split; auto. split; auto. split.
        { intros u U. rewrite H3; auto. unfold turn. rewrite C, E. simpl. apply put_neq; auto. }
        rewrite H4, H5. unfold turn. rewrite C, E. auto.
    - inversion T; subst. exists 1. simpl. unfold turn. rewrite C, E. simpl. rewrite put_eq. repeat split; auto. intros u U. apply put_neq; auto.
    - inversion T; subst. exists 1. simpl. unfold turn. rewrite C, E. simpl. rewrite put_eq. repeat split; auto. intros u U. apply put_neq; auto.
  Qed.
  Lemma never_diverges l d s outs : one_by_one eqb max_size getter l = (outs, s) -> snd (answer (cd_step eqb still s (as_op getter d))) <> Err Diverges.
  Proof.
    intros H X. destruct (@lru_capacity K V eqb ok still max_size eq_refl some (map (as_op getter) (l ++ [d]))) as [C _].
    { apply Forall_forall. intros o I. apply in_map_iff in I. destruct I as (k & <- & _). destruct k; simpl; auto. unfold asked. destruct (getter k); discriminate. }
    revert C. rewrite map_app. simpl. rewrite cd_run_snoc. unfold one_by_one in H. destruct (cd_run eqb still cd_init (map (as_op getter) l)) as [outs' s1].
    inversion H; subst. unfold answer in X. destruct (cd_step eqb still s (as_op getter d)) as [s2 out]. simpl in *. intros C.
    apply (C (length outs') out); [rewrite nth_error_app2, Nat.sub_diag by auto; auto|].
    destruct out; simpl in *; try discriminate; try (inversion X; subst; auto; fail).
    match goal with |- g_res ?g = _ => destruct (g_res g); [discriminate|inversion X; auto] end.
  Qed.
  Lemma calls_end programs schedule : one_at_a_time (@first K V) exec (lru_start programs) schedule ->
    let c := lru_run eqb max_size getter (lru_start programs) schedule in
    forall t d l, idle c -> todo c t = d :: l ->
    exists m r, let c' := lru_run eqb max_size getter c (repeat t m) in idle c' /\ log c' = log c ++ [(d, r)] /\ todo c' t = l.
  Proof.
    intros O c t d l I T. pose proof (@solo programs schedule O I) as H. fold c in H.
    pose (c1 := turn (@first K V) exec c t). assert (E1 : c1 = {| shared := shared c; todo := put (todo c) t l; current := put (current c) t (Some (d, first d)); log := log c |}).
    { unfold c1, turn. rewrite I, T. auto. }
    destruct (@ends_first d (shared c)) as (n & [s' r] & Th).
    { unfold steady. rewrite begins. eapply never_diverges. exact H. }
    destruct (@through_turns n c1 t d (first d) s' r) as (m & Hm).
    { rewrite E1. simpl. apply put_eq. }
    { rewrite E1. auto. }
    cbv zeta in Hm. exists (S m), r. cbv zeta. unfold lru_run. simpl repeat. simpl run. fold c1. destruct Hm as (_ & H2 & H3 & H4 & H5). split.
    - intros u. destruct (Nat.eq_dec u t) as [->|U]; auto. rewrite H3 by auto. rewrite E1. simpl. rewrite put_neq by auto. apply I.
    - rewrite H4, H5, E1. simpl. rewrite put_eq. auto.
  Qed.

  (** ** whatever the schedule *)
  (* what holds of the shared state, of the calls to make, of the steps to make, and of the results since the log was l0 *)
  Section Every.
    Variable A : call K V -> Prop.
    Variable B : call K V -> code K V -> lru_state K V -> Prop.
    Variable J : lru_state K V -> Prop.
    Variable R : call K V -> res (option V) -> lru_state K V -> Prop.
    Hypothesis fst_ok : forall d s, J s -> A d -> B d (first d) s.
    Hypothesis step_ok : forall d a s, J s -> B d a s ->
      match exec a s with
      | (s', Next a') => J s' /\ B d a' s'
      | (s', Returned r) => J s' /\ R d (Ok r) s'
      | (s', Raised e) => J s' /\ R d (Err e) s'
      end.
    Hypothesis stable : forall d a d' a' s, J s -> B d a s -> B d' a' s -> B d' a' (fst (exec a s)).
    Hypothesis stays : forall d a d' r s, J s -> B d a s -> R d' r s -> R d' r (fst (exec a s)).
    Definition every l0 (c : cfg) : Prop :=
      J (shared c) /\ (forall t d, In d (todo c t) -> A d) /\ (forall t d a, current c t = Some (d, a) -> B d a (shared c)) /\
      exists l, log c = l0 ++ l /\ forall d r, In (d, r) l -> R d r (shared c).
    Lemma every_turn l0 c t : every l0 c -> every l0 (turn (@first K V) exec c t).
    Proof.
      intros (HJ & HA & HB & l & HL & HR). unfold turn. destruct (current c t) as [[d a]|] eqn:E.
      - pose proof (HB _ _ _ E) as B1. pose proof (step_ok HJ B1) as G.
        assert (HB' : forall u d' a', u <> t -> current c u = Some (d', a') -> B d' a' (fst (exec a (shared c)))) by eauto.
        assert (HR' : forall d' r, In (d', r) l -> R d' r (fst (exec a (shared c)))) by eauto.
        destruct (exec a (shared c)) as [s [a'|r|e]]; unfold every; simpl in *.
        + destruct G as (G1 & G2). split; auto. split; auto. split; [|eauto].
          intros u d' a1 C. destruct (Nat.eq_dec u t) as [->|U]; [rewrite put_eq in C; inversion C; subst; auto|rewrite put_neq in C; eauto].
        + destruct G as (G1 & G2). split; auto. split; auto. split.
          * intros u d' a1 C. destruct (Nat.eq_dec u t) as [->|U]; [rewrite put_eq in C; discriminate|rewrite put_neq in C; eauto].
          * exists (l ++ [(d, Ok r)]). split; [rewrite HL, app_assoc; auto|]. intros d' r' I. apply in_app_iff in I. destruct I as [I|[I|[]]]; [auto|inversion I; subst; auto].
        + destruct G as (G1 & G2). split; auto. split; auto. split.
          * intros u d' a1 C. destruct (Nat.eq_dec u t) as [->|U]; [rewrite put_eq in C; discriminate|rewrite put_neq in C; eauto].
          * exists (l ++ [(d, Err e)]). split; [rewrite HL, app_assoc; auto|]. intros d' r' I. apply in_app_iff in I. destruct I as [I|[I|[]]]; [auto|inversion I; subst; auto].
      - destruct (todo c t) as [|d r] eqn:T; [exact (conj HJ (conj HA (conj HB (ex_intro _ l (conj HL HR)))))|]. assert (Ad : A d) by (apply (HA t); rewrite T; left; auto). unfold every. simpl. split; auto. split; [|split; eauto].
        + intros u d' I. destruct (Nat.eq_dec u t) as [->|U]; [rewrite put_eq in I; apply (HA t); rewrite T; right; auto|rewrite put_neq in I; eauto].
        + intros u d' a1 C. destruct (Nat.eq_dec u t) as [->|U]; [rewrite put_eq in C; inversion C; subst; auto|rewrite put_neq in C; eauto].
    Qed.
    Lemma every_on l0 c schedule : every l0 c -> every l0 (lru_run eqb max_size getter c schedule).
    Proof. intros H. unfold lru_run. apply run_inv with (P := every l0); auto. intros; apply every_turn; auto. Qed.
    Lemma every_run programs schedule : (forall t d, In d (programs t) -> A d) -> J empty_cache -> every [] (lru_run eqb max_size getter (lru_start programs) schedule).
    Proof. intros H H0. apply every_on. split; auto. split; auto. split; [discriminate|]. exists []. split; auto. intros d r []. Qed.
  End Every.

  (** *** values come from somewhere *)
  Section Values.
    Variable programs : nat -> list (call K V).
    Definition good (k : K) (v : V) : Prop := getter k = Some v \/ written programs k v.
    Definition good_code (a : code K V) : Prop :=
      match a with
      | CMark k (UseSet v _) | CMove k (UseSet v _) | CAdd k (UseSet v _) | FIn k v | SRoom k v _ | EPop k v _ | SData k v _ | SStamp k v _ | SLru k v _
      | D1 _ (Evicted k v _) | D2 _ (Evicted k v _) | D3 _ (Evicted k v _) | D4 _ (Evicted k v _) => good k v
      | _ => True
      end.
    Definition good_data (s : lru_state K V) : Prop := forall k v, dget eqb (data s) k = Some v -> good k v.
    Definition for_get (a : code K V) (k : K) : Prop :=
      match a with
      | CMark k' UseGet | CMove k' UseGet | CAdd k' UseGet | GIn k' | GStamp k' | GRead k' | GAsk k' => k' = k
      | CMark k' (UseSet _ p) | CMove k' (UseSet _ p) | CAdd k' (UseSet _ p) | SRoom k' _ p | EPop k' _ p | SData k' _ p | SStamp k' _ p | SLru k' _ p
      | D1 _ (Evicted k' _ p) | D2 _ (Evicted k' _ p) | D3 _ (Evicted k' _ p) | D4 _ (Evicted k' _ p) => k' = k /\ p = Fetched
      | D1 _ Failed | D2 _ Failed | D3 _ Failed | D4 _ Failed => True
      | _ => False
      end.
    Definition of_call (d : call K V) (a : code K V) : Prop := match d with Get k => for_get a k | _ => True end.
    Lemma good_set s k v : good_data s -> good k v -> good_data (set_data s (dset eqb (data s) k v)).
    Proof.
      intros J G k' v' H. simpl in H. destruct (eqb k k') eqn:E; [apply ok in E; subst; rewrite (dget_dset_eq ok) in H; inversion H; subst; auto|].
      rewrite (dget_dset_neq ok) in H; auto. intros X. rewrite (proj2 (ok k k')) in E; [discriminate|auto].
    Qed.
    Lemma good_del s k : dwf (data s) -> good_data s -> good_data (set_data s (ddel eqb (data s) k)).
    Proof.
      intros W J k' v' H. simpl in H. destruct (eqb k k') eqn:E; [apply ok in E; subst; rewrite (dget_ddel_eq ok) in H; auto; discriminate|].
      rewrite (dget_ddel_neq ok) in H; auto. intros X. rewrite (proj2 (ok k k')) in E; [discriminate|auto].
    Qed.
    Lemma values_ok schedule k r : In (Get k, r) (log (lru_run eqb max_size getter (lru_start programs) schedule)) ->
      match r with Ok (Some v) => good k v | Ok None => False | Err e => e = KeyError end.
    Proof.
      intros I. assert (E : every (fun d => exists t, In d (programs t)) (fun d a s => good_code a /\ of_call d a) (fun s => dwf (data s) /\ good_data s)
        (fun d r s => match d with Get k => match r with Ok (Some v) => good k v | Ok None => False | Err e => e = KeyError end | _ => True end) []
        (lru_run eqb max_size getter (lru_start programs) schedule)).
      { apply every_run; eauto.
        - intros d s _ (t & D). destruct d; simpl; auto; split; auto; right; exists t; auto.
        - intros d a s [W J] [Ba Od]. destruct a; simpl in *; repeat match goal with |- context [if ?b then _ else _] => destruct b eqn:? end;
            try (destruct u); try (destruct p); try (destruct r0 as [| | |? ? []]); simpl in *;
            try match goal with |- context [dget eqb (data s) ?k] => destruct (dget eqb (data s) k) eqn:? end;
            try match goal with |- context [getter ?k] => destruct (getter k) eqn:? end; try (destruct (lru s)); destruct d; simpl in *;
            intuition (subst; auto using good_set, good_del, (dset_wf ok), (@ddel_wf _ _ eqb); try discriminate); try (left; assumption).
        - split; [constructor|]. intros k' v' H. discriminate. }
      destruct E as (_ & _ & _ & l & E & El). simpl in E. rewrite E in I. apply (El _ _ I).
    Qed.
  End Values.
End LruThrProofs.
