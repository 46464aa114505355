(** C93: dictionaries that count, that default without storing, and that drop values equal to the default. *)
From Coq Require Import List Bool Arith ZArith Lia.
From Verif Require Import Prelude MoreFacts Dicts_Model Dicts_Spec Dicts_Proofs.
Import ListNotations.
Open Scope nat_scope.

(** CountingDict: after any calls, an element's value is the sum of the pieces counted since the last clear(), KeyError if none was; the keys are the elements counted, each once. *)
Theorem C93_counting : forall (K : Type) (eqb : K -> K -> bool), eqb_ok eqb -> forall ops k,
  cd_getitem eqb (cd_run eqb [] ops) k = match counted eqb ops k with Some n => Ok n | None => Err KeyError end.
Proof. exact @counting_get. Qed.
Print Assumptions C93_counting.
Theorem C93_counting_keys : forall (K : Type) (eqb : K -> K -> bool), eqb_ok eqb -> forall ops,
  NoDup (dkeys (cd_run eqb [] ops)) /\ forall k, In k (dkeys (cd_run eqb [] ops)) <-> counted eqb ops k <> None.
Proof. exact @counting_keys. Qed.
Print Assumptions C93_counting_keys.
Theorem C93_counting_sequence : forall (K : Type) (eqb : K -> K -> bool), eqb_ok eqb -> forall l k,
  cd_getitem eqb (cd_new eqb l) k = if existsb (eqb k) l then Ok (Z.of_nat (length (filter (eqb k) l))) else Err KeyError.
Proof. exact @counting_new. Qed.
Print Assumptions C93_counting_sequence.
Example C93_counting_example : cd_getitem Nat.eqb (cd_new Nat.eqb [1; 2; 1]) 1 = Ok 2%Z /\ counted Nat.eqb [CCount 1 5; CClear; CCount 1 2; CCount 2 1; CCount 1 (-1)] 1 = Some 1%Z.
Proof. split; reflexivity. Qed.

(** DefaultDict: reading gives what is stored or what the factory makes, and reads store nothing. *)
Theorem C93_default : forall (K V : Type) (eqb : K -> K -> bool) factory (d : dict K V) k,
  (forall v, dget eqb d k = Some v -> df_getitem eqb factory d k = Ok v) /\
  (dget eqb d k = None -> df_getitem eqb factory d k = match factory with Some r => r | None => Err TypeError end).
Proof. exact @default_get. Qed.
Print Assumptions C93_default.
Theorem C93_default_stores_nothing : forall (K V : Type) (eqb : K -> K -> bool) ops (d : dict K V), df_run eqb d ops = df_run eqb d (filter writes ops).
Proof. exact @default_no_store. Qed.
Print Assumptions C93_default_stores_nothing.
Example C93_default_example : df_getitem Nat.eqb (Some (Ok 0)) (df_run Nat.eqb [] [FSet 1 7; FGet 2; FSet 3 4; FDel 3]) 3 = Ok 0 /\
  df_run Nat.eqb [] [FSet 1 7; FGet 2; FSet 3 4; FDel 3] = [(1, 7)].
Proof. split; reflexivity. Qed.

(** SelfCleaningDefaultDict: if nobody changes the values in place, reading a key gives what was last stored there, or the default, whenever the background thread cleans up;
    and so does pop. *)
Theorem C93_values_partial : forall (K C : Type) (eqb : K -> K -> bool), eqb_ok eqb -> forall (ceq : C -> C -> bool), eqb_ok ceq -> forall c0 background l ops k, no_mutation ops ->
  (exists r, snd (sd_step eqb ceq c0 background (sd_run eqb ceq c0 background (sd_new eqb l) ops) (SGet k)) = SOVal r (value_after eqb c0 (initial_value eqb c0 l k) ops k)) /\
  (exists r, snd (sd_step eqb ceq c0 background (sd_run eqb ceq c0 background (sd_new eqb l) ops) (SPop k)) = SOVal r (value_after eqb c0 (initial_value eqb c0 l k) ops k)).
Proof. exact @values. Qed.
Print Assumptions C93_values_partial.
(** Its length is the number of keys whose value is not the default. *)
Theorem C93_len_partial : forall (K C : Type) (eqb : K -> K -> bool), eqb_ok eqb -> forall (ceq : C -> C -> bool), eqb_ok ceq -> forall c0 background l ops, no_mutation ops ->
  exists keys, NoDup keys /\ (forall k, In k keys <-> value_after eqb c0 (initial_value eqb c0 l k) ops k <> c0) /\
    snd (sd_step eqb ceq c0 background (sd_run eqb ceq c0 background (sd_new eqb l) ops) SLen) = SONat (length keys).
Proof. exact @len. Qed.
Print Assumptions C93_len_partial.
Example C93_values_example : no_mutation [SSet 1 5; SGet 2; SCleanup; SSet 3 0; SDel 1; SSet 4 7] /\
  snd (sd_step Nat.eqb Nat.eqb 0 false (sd_run Nat.eqb Nat.eqb 0 false (sd_new Nat.eqb [(9, 9); (8, 0)]) [SSet 1 5; SGet 2; SCleanup; SSet 3 0; SDel 1; SSet 4 7]) SLen) = SONat 2.
Proof. split; [|reflexivity]. intros r c. cbn. intuition discriminate. Qed.

(** Iterating is to give the keys whose value is not the default. *)
Definition C93_iter_full_statement : Prop := forall background l (ops : list (sd_op nat nat)), no_mutation ops ->
  exists keys, snd (sd_step Nat.eqb Nat.eqb 0 background (sd_run Nat.eqb Nat.eqb 0 background (sd_new Nat.eqb l) ops) SIter) = SOKeys keys /\
    forall k, In k keys <-> value_after Nat.eqb 0 (initial_value Nat.eqb 0 l k) ops k <> 0.
(** It gives nothing, whatever is stored ... *)
Theorem C93_iter_full_statement_refuted : ~ C93_iter_full_statement.
Proof.
  intros H. destruct (H true [(1, 5)] []) as (keys & E & I); [intros r c []|]. cbn in E. injection E as <-. apply (proj2 (I 1)). cbn. discriminate.
Qed.
Print Assumptions C93_iter_full_statement_refuted.
(** ... clear() clears nothing ... *)
Theorem C93_clear_refuted : forall (K C : Type) (eqb : K -> K -> bool), eqb_ok eqb -> forall (ceq : C -> C -> bool), eqb_ok ceq -> forall c0 background l ops k, no_mutation ops ->
  exists r, snd (sd_step eqb ceq c0 background (sd_run eqb ceq c0 background (sd_new eqb l) (ops ++ [SClear])) (SGet k)) = SOVal r (value_after eqb c0 (initial_value eqb c0 l k) ops k).
Proof. exact @clear_nothing. Qed.
Print Assumptions C93_clear_refuted.
(** ... and every key is "in". *)
Theorem C93_in_refuted : forall (K C : Type) (eqb : K -> K -> bool) (ceq : C -> C -> bool) c0 background s k, snd (sd_step eqb ceq c0 background s (SIn k)) = @SOBool K C true.
Proof. exact @in_always. Qed.
Print Assumptions C93_in_refuted.

(** An object read from the dictionary and then changed is to be what the next read gives. *)
Definition C93_mutable_full_statement (background : bool) : Prop := forall (ops : list (sd_op nat nat)) k r c c', c' <> 0 ->
  snd (sd_step Nat.eqb Nat.eqb 0 background (sd_run Nat.eqb Nat.eqb 0 background (sd_new Nat.eqb []) ops) (SGet k)) = SOVal r c ->
  snd (sd_step Nat.eqb Nat.eqb 0 background (sd_run Nat.eqb Nat.eqb 0 background (sd_new Nat.eqb []) (ops ++ [SGet k; SMutate r c'])) (SGet k)) = SOVal r c'.
(** With background maintenance the object is never stored; without it, the second read removes it. *)
Theorem C93_mutable_full_statement_refuted : forall background, ~ C93_mutable_full_statement background.
Proof.
  intros [|] H.
  - specialize (H [] 1 0 0 5 ltac:(discriminate) eq_refl). discriminate H.
  - specialize (H [SGet 1] 1 0 0 5 ltac:(discriminate) eq_refl). discriminate H.
Qed.
Print Assumptions C93_mutable_full_statement_refuted.

(** Deletion of a key is not to raise; it can, when the background thread removes the key between the check and the removal. *)
Theorem C93_delete_race_refuted : exists (ops : list (sd_op nat nat)) k, let s := sd_run Nat.eqb Nat.eqb 0 false (sd_new Nat.eqb []) ops in
  del_check Nat.eqb s k = true /\ del_do Nat.eqb (fst (sd_step Nat.eqb Nat.eqb 0 false s SCleanup)) k = Err KeyError.
Proof. exists [SGet 1], 1. split; reflexivity. Qed.
Print Assumptions C93_delete_race_refuted.

(** The background thread: as long as no dictionary's cleanup raises, each round cleans every dictionary that was added and not collected, once for each time it was added, and no other. *)
Theorem C93_thread_partial : forall es r, never_raises (es ++ [Tick r]) -> added es <> [] ->
  exists live, cleaned (eedt_run (es ++ [Tick r])) = cleaned (eedt_run es) ++ live /\ (forall d, gone es d -> ~ In d live) /\
    (forall d, ~ gone es d -> count_occ Nat.eq_dec live d = count_occ Nat.eq_dec (added es) d).
Proof. exact thread_cleans. Qed.
Print Assumptions C93_thread_partial.
(** It is started with the first dictionary and never again. *)
Theorem C93_thread_started : forall es, starts (eedt_run es) <= 1 /\ (never_raises es -> starts (eedt_run es) = match added es with [] => 0 | _ => 1 end).
Proof. intros es. split; [apply thread_starts_once|apply thread_starts]. Qed.
Print Assumptions C93_thread_started.
(** If a cleanup raises (as ExpiringEntryDict's can, see C09), no dictionary is cleaned up ever again. *)
Theorem C93_thread_refuted : exists es d, In (AddDict d) es /\ forall later, (forall e, In e later -> e <> Collect d) -> cleaned (eedt_run (es ++ later)) = [0].
Proof. exact thread_dies. Qed.
Print Assumptions C93_thread_refuted.
Example C93_thread_example : never_raises [AddDict 1; AddDict 2; Collect 1; Tick (fun _ => false); AddDict 3; Tick (fun _ => false)] /\
  cleaned (eedt_run [AddDict 1; AddDict 2; Collect 1; Tick (fun _ => false); AddDict 3; Tick (fun _ => false)]) = [2; 2; 3].
Proof. split; [|reflexivity]. intros r I d. cbn in I. repeat destruct I as [I|I]; try discriminate; try (injection I as <-; reflexivity); contradiction. Qed.
