(** C124: KeyAwareDefaultDict *)
From Verif Require Import Prelude PreludeFacts MoreFacts KeyAware_Model KeyAware_Spec KeyAware_Proofs.

(** One would like it to be what it says, "a defaultdict whose factory function accepts the key". *)
Definition C124_full_statement : Prop := forall K V (eqb : K -> K -> bool) (f : K -> res V) factory fuel (d : dict K V) l,
  eqb_ok eqb -> simple f factory -> fst (ka_run eqb factory (S fuel) (ka_new d) l) = fst (ref_run eqb f d l).
Definition squares : nat -> prog nat nat := fun k => Ret (k * k).
Theorem C124_full_statement_refuted : ~ C124_full_statement.
Proof.
  intros H. specialize (H nat nat Nat.eqb (fun k => Ok (k * k)) squares 0 [] [KIn 3] nateqb_ok (fun k => eq_refl)). discriminate.
Qed.
Print Assumptions C124_full_statement_refuted.
(** For d[k], d[k] = v, del d[k], len(d) and iteration it is: any factory that does not look into the dictionary, any history. *)
Theorem C124_partial : forall K V (eqb : K -> K -> bool) (f : K -> res V) factory fuel (d : dict K V) l,
  eqb_ok eqb -> simple f factory -> Forall plain_op l ->
  fst (ka_run eqb factory (S fuel) (ka_new d) l) = fst (ref_run eqb f d l) /\
  items (snd (ka_run eqb factory (S fuel) (ka_new d) l)) = snd (ref_run eqb f d l).
Proof. intros K V eqb f factory fuel d l ok S F. apply (simple_run ok S fuel (ka_new d) F). Qed.
Print Assumptions C124_partial.
Example C124_case : fst (ka_run Nat.eqb squares 5 (ka_new [(2, 7)]) [KGet 2; KGet 3; KDel 2; KGet 2; KSet 3 1; KGet 3; KDel 9; KKeys]) =
  [OVal 7; OVal 9; ONone; OVal 4; ONone; OVal 1; ORaise KeyError; OKeys [3; 2]] /\ simple (fun k => Ok (k * k)) squares.
Proof. split; [reflexivity|]. intros k. reflexivity. Qed.
(** The inherited methods all ask the factory for a key that is not there: it is then always in the dictionary, defaults are ignored, and a key can be
    popped that never was there. *)
Theorem C124_inherited : forall K V (eqb : K -> K -> bool) (f : K -> res V) factory fuel (s : ka K V) k v u,
  eqb_ok eqb -> simple f factory -> dget eqb (items s) k = None -> f k = Ok v ->
  let with_k := {| items := items s ++ [(k, v)]; calls := calls s ++ [k] |} in
  ka_step eqb factory (S fuel) s (KIn k) = (with_k, OBool true) /\
  ka_step eqb factory (S fuel) s (KGetDefault k u) = (with_k, OVal v) /\
  ka_step eqb factory (S fuel) s (KSetDefault k u) = (with_k, OVal v) /\
  ka_step eqb factory (S fuel) s (KPop k (Some u)) = ({| items := items s; calls := calls s ++ [k] |}, OVal v) /\
  ka_step eqb factory (S fuel) s (KPop k None) = ({| items := items s; calls := calls s ++ [k] |}, OVal v).
Proof.
  intros K V eqb f factory fuel s k v u ok Sm E F with_k.
  assert (A : dset eqb (items s) k v = items s ++ [(k, v)]).
  { revert E. induction (items s) as [|[x w] d IH]; simpl; [reflexivity|]. destruct (eqb x k); [discriminate|]. intros H. now rewrite IH. }
  assert (G := simple_get ok Sm fuel s k). rewrite E, F in G. cbn [ka_step]. rewrite G. unfold delitem. cbn [items calls].
  assert (M : dmem eqb (dset eqb (items s) k v) k = true) by (unfold dmem; now rewrite (dget_dset_eq ok)).
  rewrite M, (ddel_dset ok) by exact E. unfold with_k. rewrite A. auto.
Qed.
Print Assumptions C124_inherited.
(** If the factory raises KeyError they behave as for a dictionary. *)
Theorem C124_inherited_missing : forall K V (eqb : K -> K -> bool) (f : K -> res V) factory fuel (s : ka K V) k u,
  eqb_ok eqb -> simple f factory -> dget eqb (items s) k = None -> f k = Err KeyError ->
  snd (ka_step eqb factory (S fuel) s (KIn k)) = OBool false /\
  snd (ka_step eqb factory (S fuel) s (KGetDefault k u)) = OVal u /\
  snd (ka_step eqb factory (S fuel) s (KPop k (Some u))) = OVal u /\
  snd (ka_step eqb factory (S fuel) s (KPop k None)) = ORaise KeyError /\
  snd (ka_step eqb factory (S fuel) s (KSetDefault k u)) = OVal u /\
  dget eqb (items (fst (ka_step eqb factory (S fuel) s (KSetDefault k u)))) k = Some u.
Proof.
  intros K V eqb f factory fuel s k u ok Sm E F. assert (G := simple_get ok Sm fuel s k). rewrite E, F in G. cbn [ka_step]. rewrite G.
  cbn [fst snd store items]. rewrite (dget_dset_eq ok). auto 10.
Qed.
Print Assumptions C124_inherited_missing.
(** popitem takes the oldest, a dict's takes the newest. *)
Theorem C124_popitem : forall K V (eqb : K -> K -> bool) factory fuel (s : ka K V) k v rest,
  eqb_ok eqb -> items s = (k, v) :: rest -> ka_step eqb factory fuel s KPopItem = ({| items := rest; calls := calls s |}, OItem k v).
Proof.
  intros K V eqb factory fuel s k v rest ok E. cbn [ka_step]. rewrite E. assert (R : eqb k k = true) by now apply ok.
  destruct fuel; cbn [getitem]; rewrite E; cbn [dget]; rewrite R; unfold delitem; rewrite E; unfold dmem; cbn [dget ddel]; rewrite R; reflexivity.
Qed.
Print Assumptions C124_popitem.

(** A factory that reads the dictionary itself: as long as users only read, each answer is what the key is worth when nothing is ever remembered,
    whatever was read before and in which order; so it is also always the same. *)
Theorem C124_recursive : forall K V (eqb : K -> K -> bool) factory fuel (d : dict K V) l1 l2 k v,
  eqb_ok eqb -> Forall reading l1 ->
  snd (ka_step eqb factory fuel (snd (ka_run eqb factory fuel (ka_new d) l1)) (KGet k)) = OVal v ->
  worth (dget eqb d) factory k (Ok v) /\
  (forall v', Forall reading l2 -> snd (ka_step eqb factory fuel (snd (ka_run eqb factory fuel (ka_new d) l2)) (KGet k)) = OVal v' -> v' = v).
Proof.
  intros K V eqb factory fuel d l1 l2 k v ok F1 H.
  assert (A : forall l u, Forall reading l -> snd (ka_step eqb factory fuel (snd (ka_run eqb factory fuel (ka_new d) l)) (KGet k)) = OVal u -> worth (dget eqb d) factory k (Ok u)).
  { intros l u F E. destruct (ka_run eqb factory fuel (ka_new d) l) as [xs s] eqn:R. destruct (@run_reads K V eqb ok factory d fuel l _ _ _ (start_good eqb factory d) F R) as [G _].
    cbn [snd] in E. destruct (ka_step eqb factory fuel s (KGet k)) as [s' x] eqn:X. cbn [snd] in E. subst x.
    destruct (@step_reads _ _ eqb ok factory d fuel s (KGet k) s' (OVal u) G I X) as [_ T]. exact T. }
  split; [eauto|]. intros v' F2 H2. pose proof (worth_fun (A _ _ F1 H) (A _ _ F2 H2)). congruence.
Qed.
Print Assumptions C124_recursive.
(** And if it always has a value, then in all of that it is called at most once for each key, and never for one that was there. *)
Theorem C124_once : forall K V (eqb : K -> K -> bool) factory fuel (d : dict K V) l xs s,
  eqb_ok eqb -> (forall k r, worth (dget eqb d) factory k r -> exists v, r = Ok v) ->
  Forall reading l -> ka_run eqb factory fuel (ka_new d) l = (xs, s) -> ~ In (ORaise Diverges) xs ->
  NoDup (calls s) /\ forall k, In k (calls s) -> dget eqb d k = None /\ dget eqb (items s) k <> None.
Proof.
  intros K V eqb factory fuel d l xs s ok T F R N.
  destruct (@run_fresh K V eqb ok factory d T fuel l _ _ _ (start_good eqb factory d) F R N) as (new & E & ND & H & _). cbn [calls ka_new app] in E. rewrite E. split; [exact ND|].
  intros k I. apply H in I. exact I.
Qed.
Print Assumptions C124_once.

(** Fibonacci numbers *)
Definition fib : nat -> prog nat nat := fun k => match k with
  | S (S n) => Ask (S n) (fun a => match a with Ok x => Ask n (fun b => match b with Ok y => Ret (x + y) | Err e => Fail e end) | Err e => Fail e end)
  | _ => Ret k
  end.
Example C124_fib : ka_run Nat.eqb fib 30 (ka_new []) [KGet 10; KGet 7; KIn 12; KLen] =
  ([OVal 55; OVal 13; OBool true; ONat 13], snd (ka_run Nat.eqb fib 30 (ka_new []) [KGet 10; KGet 7; KIn 12; KLen])) /\
  calls (snd (ka_run Nat.eqb fib 30 (ka_new []) [KGet 10; KGet 7; KIn 12; KLen])) = [10; 9; 8; 7; 6; 5; 4; 3; 2; 1; 0; 12; 11].
Proof. split; vm_compute; reflexivity. Qed.
Example C124_fib_total : forall k r, worth (dget Nat.eqb []) fib k r -> exists v, r = Ok v.
Proof.
  assert (A : forall n k r, k <= n -> worth (dget Nat.eqb []) fib k r -> exists v, r = Ok v).
  { induction n as [|n IH]; intros k r L H; inversion H as [? ? D|? ? D C]; subst; try discriminate.
    - inversion L; subst. inversion C. eauto.
    - destruct k as [|[|k]]; cbn in C; inversion C as [| |? ? a ? W C2]; subst; eauto.
      destruct (IH (S k) a) as (x & ->); [apply le_S_n; exact L|exact W|]. inversion C2 as [| |? ? b ? W2 C3]; subst.
      destruct (IH k b) as (y & ->); [apply le_S_n in L; apply (Nat.le_trans _ (S k)); auto|exact W2|]. inversion C3. eauto. }
  intros k r. apply (A k). apply le_n.
Qed.
(** A factory that asks for its own key never ends. *)
Theorem C124_circular : forall K V (eqb : K -> K -> bool) (factory : K -> prog K V) fuel d k c,
  dget eqb d k = None -> factory k = Ask k c -> snd (ka_step eqb factory fuel (ka_new d) (KGet k)) = ORaise Diverges.
Proof.
  intros K V eqb factory fuel d k c E F.
  assert (A : forall n (s : ka K V), items s = d -> exists s', getitem eqb factory n s k = (s', Err Diverges)).
  { induction n as [|n IH]; intros s H; cbn [getitem]; rewrite H, E; [eauto|]. rewrite F. cbn [run].
    destruct (IH {| items := d; calls := calls s ++ [k] |}) as (s' & X); [reflexivity|]. rewrite X. eauto. }
  cbn [ka_step]. destruct (A fuel (ka_new d) eq_refl) as (s' & ->). reflexivity.
Qed.
Print Assumptions C124_circular.
