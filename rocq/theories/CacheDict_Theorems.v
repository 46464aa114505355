(** C07, C08: theorems about LRUCacheDict and CacheDict. *)
From Verif Require Import Prelude CacheDict_Model CacheDict_Spec CacheDict_Proofs CacheLRU_Proofs CacheLRUFresh_Proofs.
Local Open Scope Z_scope.

(** ** C07: LRUCacheDict *)
(** Whatever is called, in whatever order and with whatever getter outcomes, an
    LRUCacheDict holds at most max_size values, and no call loops forever. *)
Theorem C07_capacity_never_exceeded :
  forall (K V : Type) (eqb : K -> K -> bool), eqb_ok eqb ->
  forall (c : cfg V) (max : nat), c_max c = Some max -> (1 <= max)%nat ->
  forall ops : list (cd_op K V), Forall honest_getter ops ->
    (forall n out, nth_error (fst (cd_run eqb c cd_init ops)) n = Some out -> ~ diverged out) /\
    (length (cd_data (snd (cd_run eqb c cd_init ops))) <= max)%nat.
Proof. exact @lru_capacity. Qed.
Print Assumptions C07_capacity_never_exceeded.

(** C07, full statement (false, see below): every session is one of a list of
    entries, least recently used first, where reads and writes make a key the
    most recent and storing a new key in a full cache evicts the first entry. *)
Definition C07_full_statement : Prop :=
  forall (K V : Type) (eqb : K -> K -> bool), eqb_ok eqb ->
  forall (c : cfg V) (max : nat), c_max c = Some max -> (1 <= max)%nat ->
  forall ops : list (cd_op K V), Forall honest_getter ops ->
    exists l, lru_session eqb c (stored_ideal eqb max) max [] ops (fst (cd_run eqb c cd_init ops)) l.

(** C07, proved part: sessions without [feed], and with a policy under which
    also storing a present key in a full cache evicts the first entry. *)
Theorem C07_evicts_least_recently_used_partial :
  forall (K V : Type) (eqb : K -> K -> bool), eqb_ok eqb ->
  forall (c : cfg V) (max : nat), c_max c = Some max -> (1 <= max)%nat ->
  forall ops : list (cd_op K V), Forall honest_getter ops -> forallb not_feed ops = true ->
    exists l, lru_session eqb c (stored eqb max) max [] ops (fst (cd_run eqb c cd_init ops)) l.
Proof. exact @lru_session_ok. Qed.
Print Assumptions C07_evicts_least_recently_used_partial.

(** C07 together with C08: which of the held values are served, which are
    refreshed or asked for again, which failures are remembered and which key a
    finished refresh was for. In addition to the above, time_getter is
    time.monotonic, and keys with a remembered failure are neither invalidated
    nor asked about by has_info_about (see C08). *)
Theorem C07_fresh_partial :
  forall (K V : Type) (eqb : K -> K -> bool), eqb_ok eqb ->
  forall (c : cfg V) (max : nat), c_max c = Some max -> (1 <= max)%nat ->
  forall ops : list (cd_op K V), Forall honest_getter ops -> forallb not_feed ops = true ->
    benign_session eqb c [] ops (fst (cd_run eqb c cd_init ops)) = true ->
    lru_fresh_session eqb c (stored eqb max) max [] [] ops (fst (cd_run eqb c cd_init ops)).
Proof. exact @fresh_session_ok. Qed.
Print Assumptions C07_fresh_partial.

Local Definition lru2 : cfg nat :=
  {| c_stale := 5; c_exp := 10; c_fail := Some 3; c_default := None; c_max := Some 2%nat |}.
Local Definition at_ (t : Z) (g : res nat) : read nat := {| r_mono := t; r_now := t; r_getter := g; r_done := t |}.

Local Definition lru_example_ops : list (cd_op nat nat) :=
  [CSet 1 10 0; CSet 2 20 0; CGet 1 (at_ 1 (Ok 11)); CGet 3 (at_ 1 (Ok 30)); CKeys; CGet 4 (at_ 1 (Err KeyError));
   CGet 4 (at_ 2 (Ok 40)); CSet 5 50 2; CKeys; CLen; CGet 5 (at_ 8 (Ok 51)); CComplete 0 (Ok 52) 9;
   CGet 5 (at_ 9 (Err (UserExn 0))); CInvalidate 5; CLen; CDel 3; CDel 3]%nat.
Example C07_example :
  Forall honest_getter lru_example_ops /\ forallb not_feed lru_example_ops = true /\
  fst (cd_run Nat.eqb lru2 cd_init lru_example_ops) =
  [CONone; CONone; COGot {| g_res := Ok 10%nat; g_called := false; g_scheduled := false |};
   COGot {| g_res := Ok 30%nat; g_called := true; g_scheduled := false |}; COKeys [1; 3]%nat;
   COGot {| g_res := Err KeyError; g_called := true; g_scheduled := false |};
   COGot {| g_res := Err KeyError; g_called := false; g_scheduled := false |};
   CONone; COKeys [3; 5]%nat; CONat 2;
   COGot {| g_res := Ok 50%nat; g_called := false; g_scheduled := true |}; CODone 5%nat;
   COGot {| g_res := Ok 52%nat; g_called := false; g_scheduled := false |}; CONone; CONat 0; CORaise KeyError;
   CORaise KeyError].
Proof.
  split; [|split; vm_compute; reflexivity].
  unfold lru_example_ops. repeat constructor; simpl; discriminate.
Qed.
Example C07_example_benign :
  benign_session Nat.eqb lru2 [] lru_example_ops (fst (cd_run Nat.eqb lru2 cd_init lru_example_ops)) = true.
Proof. vm_compute. reflexivity. Qed.

(** Overwriting a key that is present in a full cache drops another entry. *)
Theorem C07_overwrite_evicts_refuted :
  fst (cd_run Nat.eqb lru2 cd_init [CSet 1 10 0; CSet 2 20 0; CSet 2 21 0; CKeys]%nat)
  = [CONone; CONone; CONone; COKeys [2%nat]].
Proof. vm_compute. reflexivity. Qed.
Print Assumptions C07_overwrite_evicts_refuted.

(** Feeding a present key does not count as a use: 1 was stored last and yet is evicted. *)
Theorem C07_feed_is_not_a_use_refuted :
  fst (cd_run Nat.eqb lru2 cd_init
         [CFeed 1 10 None 0; CFeed 2 20 None 0; CFeed 1 11 None 0; CFeed 3 30 None 0; CKeys]%nat)
  = [CONone; CONone; CONone; CONone; COKeys [2; 3]%nat].
Proof. vm_compute. reflexivity. Qed.
Print Assumptions C07_feed_is_not_a_use_refuted.

Theorem C07_full_statement_refuted : ~ C07_full_statement.
Proof.
  intros H.
  destruct (H nat nat Nat.eqb Nat.eqb_eq lru2 2%nat eq_refl (le_S 1 1 (le_n 1))
              [CSet 1 10 0; CSet 2 20 0; CSet 2 21 0; CKeys]%nat) as (l & S).
  - repeat constructor.
  - rewrite C07_overwrite_evicts_refuted in S.
    inversion S as [|? ? ? ? ? ? ? A1 _ _ S1]; subst. inversion A1; subst.
    inversion S1 as [|? ? ? ? ? ? ? A2 _ _ S2]; subst. inversion A2; subst.
    inversion S2 as [|? ? ? ? ? ? ? A3 _ _ S3]; subst. inversion A3; subst.
    inversion S3 as [|? ? ? ? ? ? ? A4 _ _ S4]; subst. inversion A4 as [| | | | | | | | | |ks P| |]; subst.
    apply Permutation_length in P. vm_compute in P. discriminate.
Qed.
Print Assumptions C07_full_statement_refuted.

(** ** C08: CacheDict *)
(** C08, full statement (false, see below): each call answers as the history of
    stores, loads, failures and invalidations prescribes. *)
Definition C08_full_statement : Prop :=
  forall (K V : Type) (eqb : K -> K -> bool), eqb_ok eqb ->
  forall c : cfg V, c_max c = None ->
  forall ops : list (cd_op K V), cd_session eqb c [] ops (fst (cd_run eqb c cd_init ops)).

(** C08, proved part: sessions of benign calls. *)
Theorem C08_cache_dict_answers_partial :
  forall (K V : Type) (eqb : K -> K -> bool), eqb_ok eqb ->
  forall c : cfg V, c_max c = None ->
  forall ops : list (cd_op K V),
    benign_session eqb c [] ops (fst (cd_run eqb c cd_init ops)) = true ->
    cd_session eqb c [] ops (fst (cd_run eqb c cd_init ops)).
Proof. exact @plain_session_ok. Qed.
Print Assumptions C08_cache_dict_answers_partial.

(** In such a session, a value returned without calling the getter was stored
    for that key by an earlier call, and is not older than the expiration interval. *)
Theorem C08_served_values_are_fresh_partial :
  forall (K V : Type) (eqb : K -> K -> bool), eqb_ok eqb ->
  forall c : cfg V, c_max c = None -> c_default c = None ->
  forall (ops : list (cd_op K V)) (n : nat) (k : K) (r : read V) (g : got V) (v : V),
    let outs := fst (cd_run eqb c cd_init ops) in
    benign_session eqb c [] ops outs = true ->
    nth_error ops n = Some (CGet k r) -> nth_error outs n = Some (COGot g) ->
    g_res g = Ok v -> g_called g = false ->
    exists m o out t0, (m < n)%nat /\ nth_error ops m = Some o /\ nth_error outs m = Some out /\
      stores (o, out) k v t0 /\ r_now r - t0 <= c_exp c.
Proof.
  intros K V eqb He c Hc Hd ops n k r g v outs Hb Ho Hout Hr Hg.
  exact (@session_served_fresh K V eqb He c ops outs n k r g v (@plain_session_ok K V eqb He c Hc ops Hb) Ho Hout Hd Hr Hg).
Qed.
Print Assumptions C08_served_values_are_fresh_partial.

Local Definition plain : cfg nat :=
  {| c_stale := 5; c_exp := 10; c_fail := Some 3; c_default := None; c_max := None |}.
Local Definition plain_example_ops : list (cd_op nat nat) :=
  [CGet 1 (at_ 1 (Ok 10)); CGet 1 (at_ 6 (Ok 11)); CGet 1 (at_ 7 (Ok 12)); CComplete 0 (Ok 13) 8; CGet 1 (at_ 8 (Ok 14));
   CGet 1 (at_ 19 (Ok 15)); CGet 2 (at_ 19 (Err KeyError)); CGet 2 (at_ 22 (Ok 20)); CGet 2 (at_ 23 (Ok 21));
   CFeed 3 30 (Some 5%Z) 23; CGet 3 (at_ 15 (Ok 31)); CHasInfo 3 15; CHasInfo 3 16; CLen; CKeys; CInvalidate 3; CDel 3; CDel 2]%nat.
Example C08_example :
  benign_session Nat.eqb plain [] plain_example_ops (fst (cd_run Nat.eqb plain cd_init plain_example_ops)) = true /\
  fst (cd_run Nat.eqb plain cd_init plain_example_ops) =
  [COGot {| g_res := Ok 10%nat; g_called := true; g_scheduled := false |};
   COGot {| g_res := Ok 10%nat; g_called := false; g_scheduled := false |};
   COGot {| g_res := Ok 10%nat; g_called := false; g_scheduled := true |}; CODone 1%nat;
   COGot {| g_res := Ok 13%nat; g_called := false; g_scheduled := false |};
   COGot {| g_res := Ok 15%nat; g_called := true; g_scheduled := false |};
   COGot {| g_res := Err KeyError; g_called := true; g_scheduled := false |};
   COGot {| g_res := Err KeyError; g_called := false; g_scheduled := false |};
   COGot {| g_res := Ok 21%nat; g_called := true; g_scheduled := false |}; CONone;
   COGot {| g_res := Ok 30%nat; g_called := false; g_scheduled := true |}; COBool true; COBool false; CONat 3;
   COKeys [1; 2; 3]%nat; CONone; CORaise KeyError; CONone].
Proof. split; vm_compute; reflexivity. Qed.

(** A value fed for a key whose failure is remembered is not served. *)
Theorem C08_feed_after_miss_refuted :
  fst (cd_run Nat.eqb plain cd_init
        [CGet 1 (at_ 0 (Err KeyError)); CFeed 1 10 None 1; CGet 1 (at_ 2 (Ok 11)); CLen]%nat)
  = [COGot {| g_res := Err KeyError; g_called := true; g_scheduled := false |}; CONone;
     COGot {| g_res := Err KeyError; g_called := false; g_scheduled := false |}; CONat 1].
Proof. vm_compute. reflexivity. Qed.
Print Assumptions C08_feed_after_miss_refuted.

(** invalidate does not forget a remembered failure. *)
Theorem C08_invalidate_miss_refuted :
  fst (cd_run Nat.eqb plain cd_init
        [CGet 1 (at_ 0 (Err KeyError)); CInvalidate 1; CGet 1 (at_ 1 (Ok 11))]%nat)
  = [COGot {| g_res := Err KeyError; g_called := true; g_scheduled := false |}; CONone;
     COGot {| g_res := Err KeyError; g_called := false; g_scheduled := false |}].
Proof. vm_compute. reflexivity. Qed.
Print Assumptions C08_invalidate_miss_refuted.

(** has_info_about reports a remembered failure after it lapsed. *)
Theorem C08_has_info_refuted :
  fst (cd_run Nat.eqb plain cd_init
        [CGet 1 (at_ 0 (Err KeyError)); CHasInfo 1 4; CGet 1 (at_ 4 (Ok 11))]%nat)
  = [COGot {| g_res := Err KeyError; g_called := true; g_scheduled := false |}; COBool true;
     COGot {| g_res := Ok 11%nat; g_called := true; g_scheduled := false |}].
Proof. vm_compute. reflexivity. Qed.
Print Assumptions C08_has_info_refuted.

(** feed with timestamp 0 uses the current time instead. *)
Theorem C08_feed_timestamp_zero_refuted :
  fst (cd_run Nat.eqb plain cd_init [CFeed 1 10 (Some 0%Z) 100; CGet 1 (at_ 105 (Ok 11))]%nat)
  = [CONone; COGot {| g_res := Ok 10%nat; g_called := false; g_scheduled := false |}].
Proof. vm_compute. reflexivity. Qed.
Print Assumptions C08_feed_timestamp_zero_refuted.

(** Reads compare with time.monotonic() and not with the configured clock: here
    the configured clock says that the value is one second old. *)
Theorem C08_custom_clock_refuted :
  fst (cd_run Nat.eqb plain cd_init
         [CSet 1 10 1000; CGet 1 {| r_mono := 2000; r_now := 1001; r_getter := Ok 11; r_done := 1001 |}]%nat)
  = [CONone; COGot {| g_res := Ok 11%nat; g_called := true; g_scheduled := false |}].
Proof. vm_compute. reflexivity. Qed.
Print Assumptions C08_custom_clock_refuted.

Theorem C08_full_statement_refuted : ~ C08_full_statement.
Proof.
  intros H.
  specialize (H nat nat Nat.eqb Nat.eqb_eq plain eq_refl
    [CGet 1 (at_ 0 (Err KeyError)); CFeed 1 10 None 1; CGet 1 (at_ 2 (Ok 11)); CLen]%nat).
  rewrite C08_feed_after_miss_refuted in H.
  inversion H as [|? ? ? ? ? A1 H1]; subst. inversion H1 as [|? ? ? ? ? A2 H2]; subst.
  inversion H2 as [|? ? ? ? ? A3 H3]; subst.
  destruct A3 as (g & E & A). injection E as <-. vm_compute in A. destruct A as (_ & A & _). discriminate.
Qed.
Print Assumptions C08_full_statement_refuted.
