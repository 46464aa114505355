(** C11, C12, C13: theorems about TwoWayDictionary, DirtyDict and DictionaryView. *)
From Verif Require Import Prelude DictObjects_Model DictObjects_Spec DictObjects_Proofs.

(** ** C11 *)

(** Full statement (false, see below): constructed from pairs whose values are
    distinct, the dictionary and its reverse answer every session of calls as one
    set of pairs in which no key and no value repeats. *)
Definition C11_full_statement : Prop :=
  forall (K V : Type) (eqK : K -> K -> bool) (eqV : V -> V -> bool), eqb_ok eqK -> eqb_ok eqV ->
  forall (data : list (K * V)) (ops : list (tw_op K V)),
    match tw_init eqK eqV data with
    | Ok s => tw_session (plain_dict eqK data) ops (fst (tw_run eqK eqV s ops))
    | Err e => e = ValueError /\ ~ NoDup (map snd (plain_dict eqK data))
    end.

(** Proved: every session, with the two deviations written into the
    specification ([tw_spec_dev]). *)
Theorem C11_two_way_dictionary_partial :
  forall (K V : Type) (eqK : K -> K -> bool) (eqV : V -> V -> bool), eqb_ok eqK -> eqb_ok eqV ->
  forall (data : list (K * V)) (ops : list (tw_op K V)),
    match tw_init eqK eqV data with
    | Ok s => tw_session_dev (plain_dict eqK data) ops (fst (tw_run eqK eqV s ops))
    | Err e => e = ValueError /\ ~ NoDup (map snd (plain_dict eqK data))
    end.
Proof. exact @tw_session_ok. Qed.
Print Assumptions C11_two_way_dictionary_partial.

(** After any session the two views are inverse to each other. *)
Theorem C11_views_are_inverse :
  forall (K V : Type) (eqK : K -> K -> bool) (eqV : V -> V -> bool), eqb_ok eqK -> eqb_ok eqV ->
  forall (data : list (K * V)) (ops : list (tw_op K V)) s, tw_init eqK eqV data = Ok s ->
  forall k v,
    snd (tw_step eqK eqV (snd (tw_run eqK eqV s ops)) (TWGet k)) = TWVal v <->
    snd (tw_step eqK eqV (snd (tw_run eqK eqV s ops)) (RGet v)) = TWKey k.
Proof. exact @tw_inverse_ok. Qed.
Print Assumptions C11_views_are_inverse.

Local Definition tw_ops_ex : list (tw_op nat nat) :=
  [TWGet 1; RGet 10; TWSet 1 11; RGet 10; RGet 11; RSet 12 2; TWGet 2; TWSet 3 12; RSet 13 2; RGet 12; RDel 13;
   TWContains 2; TWPop 1; TWLen; RLen].
Example C11_example :
  eqb_ok Nat.eqb /\ exists s, tw_init Nat.eqb Nat.eqb [(1, 10)] = Ok s /\
  fst (tw_run Nat.eqb Nat.eqb s tw_ops_ex) =
  [TWVal 10; TWKey 1; TWNone; TWRaise KeyError; TWKey 1; TWNone; TWVal 12; TWRaise ValueError; TWRaise ValueError;
   TWKey 2; TWRaise KeyError; TWBool true; TWVal 11; TWNat 1; TWNat 1].
Proof.
  split; [exact Nat.eqb_eq|]. eexists. split; [reflexivity|]. vm_compute. reflexivity.
Qed.

(** Assigning a key the value it has already raises. *)
Theorem C11_reassign_refuted :
  match tw_init Nat.eqb Nat.eqb [(1, 10)] with
  | Ok s => fst (tw_run Nat.eqb Nat.eqb s [TWSet 1 10]) = [TWRaise ValueError]
  | Err _ => False
  end.
Proof. vm_compute. reflexivity. Qed.
Print Assumptions C11_reassign_refuted.

(** done(), and so leaving the with block, raises AttributeError. *)
Theorem C11_done_raises_refuted :
  match tw_init Nat.eqb Nat.eqb [(1, 10)] with
  | Ok s => fst (tw_run Nat.eqb Nat.eqb s [TWDone]) = [TWRaise AttributeError]
  | Err _ => False
  end.
Proof. vm_compute. reflexivity. Qed.
Print Assumptions C11_done_raises_refuted.

Theorem C11_full_statement_refuted : ~ C11_full_statement.
Proof.
  intros H. specialize (H nat nat Nat.eqb Nat.eqb Nat.eqb_eq Nat.eqb_eq [(1, 10)] [TWSet 1 10]).
  simpl in H. inversion H; subst.
  match goal with A : tw_spec _ _ _ _ |- _ => inversion A; subst end.
  match goal with A : In _ _ |- _ => destruct A as [[= <-]|[]] end. congruence.
Qed.
Print Assumptions C11_full_statement_refuted.

(** ** C12 *)

(** A DirtyDict is a plain dictionary, and its flag is up exactly when the content
    changed since the last clearing call. *)
Theorem C12_dirty_iff_changed :
  forall (K V : Type) (eqK : K -> K -> bool) (eqV : V -> V -> bool), eqb_ok eqK -> eqb_ok eqV ->
  forall (d : dict K V) (ops : list (dd_op K V)),
    dd_session eqK d false ops (fst (dd_run eqK eqV (dd_init d) ops)).
Proof. exact @dd_session_ok. Qed.
Print Assumptions C12_dirty_iff_changed.

Local Definition dd_ops_ex : list (dd_op nat nat) :=
  [DDSet 1 10; DDIsDirty; DDSet 1 11; DDIsDirty; DDClearDirty; DDDel 5; DDIsDirty; DDUpdate [(1, 11); (2, 20)]; DDIsDirty;
   DDSwap; DDIsDirty; DDLen; DDSetDefault 3 30; DDIsDirty; DDCopyClear; DDPop 3; DDCopy; DDIsDirty].
Example C12_example :
  eqb_ok Nat.eqb /\
  fst (dd_run Nat.eqb Nat.eqb (dd_init [(1, 10)]) dd_ops_ex) =
  [DDNone; DDB false; DDNone; DDB true; DDNone; DDRaise KeyError; DDB false; DDNone; DDB true;
   DDDict [(1, 11); (2, 20)]; DDB false; DDNat 0; DDVal 30; DDB true; DDDict [(3, 30)]; DDVal 30; DDNone; DDB true].
Proof. split; [exact Nat.eqb_eq|vm_compute; reflexivity]. Qed.

(** ** C13 *)

(** Full statement (false, see below): every session of calls, copies included,
    is answered by the rules of the view. *)
Definition C13_full_statement : Prop :=
  forall (K V : Type) (eqK : K -> K -> bool), eqb_ok eqK ->
  forall (master : dict K V) (rest : list (dict K V)) (propagate assign : bool) (ops : list (dv_op K V)),
    (forall d, In d (master :: rest) -> dwf d) ->
    dv_session propagate assign (master :: rest) ops (dv_run eqK (dv_init master rest propagate assign) ops).

(** Proved: sessions without copy. *)
Theorem C13_dictionary_view_partial :
  forall (K V : Type) (eqK : K -> K -> bool), eqb_ok eqK ->
  forall (master : dict K V) (rest : list (dict K V)) (propagate assign : bool) (ops : list (dv_op K V)),
    (forall d, In d (master :: rest) -> dwf d) -> forallb not_copy ops = true ->
    dv_session propagate assign (master :: rest) ops (dv_run eqK (dv_init master rest propagate assign) ops).
Proof. exact @dv_session_ok. Qed.
Print Assumptions C13_dictionary_view_partial.

Local Definition dv_ops_ex : list (dv_op nat nat) :=
  [DVGet 1; DVGet 3; DVSet 3 31; DVSet 4 40; DVDel 1; DVGet 1; DVIter; DVLen; DVDel 9; DVContains 3].
Example C13_example :
  eqb_ok Nat.eqb /\ (forall d, In d [[(1, 10)]; [(1, 11); (3, 30)]] -> dwf d) /\ forallb not_copy dv_ops_ex = true /\
  map fst (dv_run Nat.eqb (dv_init [(1, 10)] [[(1, 11); (3, 30)]] true true) dv_ops_ex) =
  [DVVal 10; DVVal 30; DVNone; DVNone; DVNone; DVVal 11; DVKs [4; 1; 3]; DVNat 3; DVRaise KeyError; DVB true].
Proof.
  split; [exact Nat.eqb_eq|split; [|split; vm_compute; reflexivity]].
  intros d [<-|[<-|[]]]; repeat constructor; simpl; intuition discriminate.
Qed.

(** A copy forgets both options: after copying a view that must not propagate
    deletions, the deletion reaches the second dictionary. *)
Theorem C13_copy_refuted :
  dv_run Nat.eqb (dv_init [] [[(1, 10)]] false false) [DVCopy; DVDel 1]
  = [(DVNone, [[]; [(1, 10)]]); (DVNone, [[]; []])].
Proof. vm_compute. reflexivity. Qed.
Print Assumptions C13_copy_refuted.

Theorem C13_full_statement_refuted : ~ C13_full_statement.
Proof.
  intros H. specialize (H nat nat Nat.eqb Nat.eqb_eq [] [[(1, 10)]] false false [DVCopy; DVDel 1]).
  rewrite C13_copy_refuted in H.
  assert (W : forall d : dict nat nat, In d [[]; [(1, 10)]] -> dwf d).
  { intros d [<-|[<-|[]]]; repeat constructor; simpl; intuition discriminate. }
  specialize (H W). inversion H; subst.
  match goal with A : dv_session _ _ _ [DVDel 1] _ |- _ => inversion A; subst end.
  match goal with A : dv_spec _ _ _ (DVDel 1) _ _ |- _ => inversion A as [| | | | | |? ? ? ? Hor Hf| | | |]; subst end.
  destruct Hor as [Hor| ->]; [discriminate|]. destruct Hf as [(d & E & Hin) _]. injection E as <-. destruct Hin.
Qed.
Print Assumptions C13_full_statement_refuted.
