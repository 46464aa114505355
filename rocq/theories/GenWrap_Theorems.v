(** C67: wrappers of generators. *)
From Verif Require Import Prelude GenWrap_Model GenWrap_Spec GenWrap_Proofs.

(** ** run_when_generator_completes *)
(** every operation does to the generator what it does without the wrapper, and gives what it gives *)
Theorem C67_transparent : forall (S V : Type) resume gen_exit exn_eqb (ops : list (r_op V)) (g : gen S), Forall (@quiet V) ops ->
  let (s, outs) := r_run resume gen_exit exn_eqb (r_begin g) ops in (r_gen s, outs) = direct_run resume gen_exit exn_eqb g ops.
Proof. exact transparent. Qed.
Print Assumptions C67_transparent.
(** a for loop over it runs the action once, after the last item, if the generator ends by itself, and not at all if it raises; an exception
    of the action comes out of the loop *)
Theorem C67_for_loop : forall (S V : Type) resume gen_exit exn_eqb (g : gen S) (vs : list V) g' e, yields resume g vs g' e ->
  forall s action, r_gen s = g -> r_closed s = false ->
  r_run resume gen_exit exn_eqb s (repeat (RNext V action) (length vs + 1)) =
    (mk_r g' false (r_runs s + match e with None => 1 | Some _ => 0 end),
     map (fun v => OVal (Ok v)) vs ++ [OVal (Err match e with Some x => x | None => match action with Some x => x | None => StopIteration end end)]).
Proof. exact for_loop. Qed.
Print Assumptions C67_for_loop.
(** the action is run each time that next() tells that the iteration is over, until the wrapper is closed *)
Theorem C67_runs_partial : forall (S V : Type) resume gen_exit exn_eqb (ops : list (r_op V)) (g : gen S), Forall (@quiet V) ops ->
  let (s, outs) := r_run resume gen_exit exn_eqb (r_begin g) ops in r_runs s = told_over ops outs.
Proof. exact runs_counted. Qed.
Print Assumptions C67_runs_partial.

(** ** SelfClosingGenerator *)
(** next() gives what the generator gives; if some of its items have been taken, close() runs it to its end, and closing again does nothing *)
Theorem C67_close_completes : forall (S V : Type) resume (g : gen S) (ws us : list V) g', yields resume g (ws ++ us) g' None -> forall fuel, length us < fuel ->
  c_run resume (c_begin g) (repeat (CNext V) (length ws) ++ [CClose V fuel]) = (mk_c g' true, map (fun v => CVal (Ok v)) ws ++ [CUnit V (Ok tt)]).
Proof. exact partly_then_close. Qed.
Print Assumptions C67_close_completes.
Theorem C67_close_twice : forall (S V : Type) resume (g : gen S) (vs : list V) g', yields resume g vs g' None -> forall fuel more, length vs < fuel ->
  c_run resume (mk_c g false) (CClose V fuel :: CClose V more :: []) = (mk_c g' true, [CUnit V (Ok tt); CUnit V (Ok tt)]).
Proof. exact close_completes. Qed.
Print Assumptions C67_close_twice.
(** an exception raised by the rest of the generator comes out of close(), unless it is a TypeError *)
Theorem C67_close_raises_partial : forall (S V : Type) resume (g : gen S) (vs : list V) g' e, yields resume g vs g' (Some e) -> e <> TypeError ->
  forall fuel, length vs < fuel -> c_step resume (mk_c g false) (CClose V fuel) = (mk_c g' false, CUnit V (Err e)).
Proof. exact close_raises. Qed.
Print Assumptions C67_close_raises_partial.
Theorem C67_next_direct : forall (S V : Type) resume (s : c_state S),
  let (s', out) := c_step resume s (CNext V) in (c_gen s', out) = (let (g, r) := g_resume resume (c_gen s) (INext V) in (g, CVal r)).
Proof. exact next_direct. Qed.
Print Assumptions C67_next_direct.

(** ** chain *)
Theorem C67_chain_partial : forall (V : Type) (args : list (arg V)), Forall (@ends_well V) args -> chain args = (map (@Item V) (flattened args), None).
Proof. exact chain_flat. Qed.
Print Assumptions C67_chain_partial.
Theorem C67_chain_raises_partial : forall (V : Type) (before : list (arg V)) items e after, Forall (@ends_well V) before -> e <> TypeError ->
  chain (before ++ Iterable items (Some e) :: after) = (map (@Item V) (flattened before ++ items), Some e).
Proof. exact chain_raises. Qed.
Print Assumptions C67_chain_raises_partial.

(** ** hint_with_length *)
Theorem C67_hint : forall length factory h, hint_with_length length factory = Ok h ->
  (exists n, length = Some n /\ factory = None /\ length_hint h = Ok n) \/ exists n, length = None /\ factory = Some n /\ length_hint h = Ok n.
Proof. exact hint_ok. Qed.
Print Assumptions C67_hint.
Theorem C67_hint_call_partial : forall n h, hint_with_length (Some n) None = Ok h -> exists h', hint_call h = Ok h' /\ length_hint h' = Ok n.
Proof. exact hint_call_ok. Qed.
Print Assumptions C67_hint_call_partial.

(** * Not provable: once per generator; nothing is lost *)
Definition C67_full_statement : Prop :=
  (forall (S V : Type) resume gen_exit exn_eqb (ops : list (r_op V)) (g : gen S), Forall (@quiet V) ops -> ~ In (RClose V) ops ->
     let (s, outs) := r_run resume gen_exit exn_eqb (r_begin g) ops in
     r_runs s = match r_gen s with Done _ => if existsb (fun o => match o with OVal (Err StopIteration) => true | _ => false end) outs then 1 else 0 | Live _ => 0 end) /\
  (forall (S V : Type) resume (g : gen S) (vs : list V) g' e, yields resume g vs g' (Some e) ->
     forall fuel, length vs < fuel -> snd (c_step resume (mk_c g false) (CClose V fuel)) = CUnit V (Err e)) /\
  (forall (V : Type) (before : list (arg V)) items e after, Forall (@ends_well V) before ->
    chain (before ++ Iterable items (Some e) :: after) = (map (@Item V) (flattened before ++ items), Some e)) /\
  (forall length factory h, hint_with_length length factory = Ok h -> exists h', hint_call h = Ok h' /\ length_hint h' = length_hint h).

(** a generator that counts up to 2 and then returns, or raises *)
Definition eg_resume (ends : reply nat) (s : nat) (i : input nat) : nat * reply nat :=
  match i with IThrow _ e => (s, Raises nat e) | _ => if s <? 2 then (s + 1, Yields s) else (s, ends) end.
Local Notation run := (r_run (eg_resume (Returns nat)) (UserExn 0) (fun a b => match a, b with UserExn 0, UserExn 0 => true | _, _ => false end)).
(** next() after the end runs the action again; ending in send() or in next() the method does not run it *)
Theorem C67_runs_again_refuted :
  r_runs (fst (run (r_begin (Live 0)) (repeat (RNext nat None) 5))) = 3 /\
  r_runs (fst (run (r_begin (Live 0)) [RNext nat None; RNext nat None; RSend 7])) = 0 /\
  snd (run (r_begin (Live 0)) [RNext nat None; RNext nat None; RSend 7]) = [OVal (Ok 0); OVal (Ok 1); OVal (Err StopIteration)] /\
  r_runs (fst (run (r_begin (Live 0)) [RNextMethod nat; RNextMethod nat; RNextMethod nat])) = 0.
Proof. vm_compute. repeat split. Qed.
Print Assumptions C67_runs_again_refuted.
(** a TypeError raised by the generator while it is being completed is lost; send() does not give what the generator yields *)
Theorem C67_type_error_lost_refuted :
  c_run (eg_resume (Raises nat TypeError)) (c_begin (Live 0)) [CNext nat; CSend 5; CClose nat 9] = (mk_c (Done 2) true, [CVal (Ok 0); CUnit nat (Ok tt); CUnit nat (Ok tt)]).
Proof. vm_compute. reflexivity. Qed.
Print Assumptions C67_type_error_lost_refuted.
(** if iterating over an argument raises TypeError half way, the argument itself is given after its items *)
Theorem C67_chain_refuted : chain [Iterable [1; 2] (Some TypeError); Scalar 3] = ([Item 1; Item 2; Whole [1; 2] (Some TypeError); Item 3], None).
Proof. reflexivity. Qed.
Print Assumptions C67_chain_refuted.
(** a generator function hinted with a length factory cannot be called *)
Theorem C67_hint_call_refuted : exists h, hint_with_length None (Some 5) = Ok h /\ hint_call h = Err ValueError.
Proof. eexists. split; reflexivity. Qed.
Print Assumptions C67_hint_call_refuted.
Theorem C67_full_statement_refuted : ~ C67_full_statement.
Proof. intros (_ & _ & _ & H). destruct (H None (Some 5) _ eq_refl) as (h & E & _). discriminate. Qed.
Print Assumptions C67_full_statement_refuted.

(** * Cases that meet the hypotheses *)
Example C67_eg_yields : yields (eg_resume (Returns nat)) (Live 0) [0; 1] (Done 2) None.
Proof. repeat (eapply Y_item; [reflexivity|]). constructor. reflexivity. Qed.
Example C67_eg_raises : yields (eg_resume (Raises nat KeyError)) (Live 0) [0; 1] (Done 2) (Some KeyError).
Proof. repeat (eapply Y_item; [reflexivity|]). eapply Y_raise; [reflexivity|discriminate]. Qed.
Example C67_eg_loop : run (r_begin (Live 0)) (repeat (RNext nat None) 3) = (mk_r (Done 2) false 1, [OVal (Ok 0); OVal (Ok 1); OVal (Err StopIteration)]).
Proof. reflexivity. Qed.
Example C67_eg_closed : run (r_begin (Live 0)) [RNext nat None; RClose nat; RNext nat None] = (mk_r (Done 1) true 0, [OVal (Ok 0); OUnit nat (Ok tt); OVal (Err StopIteration)]).
Proof. reflexivity. Qed.
Example C67_eg_chain : Forall (@ends_well nat) [Iterable [1; 2] None; Scalar 3; Iterable [] None] /\ chain [Iterable [1; 2] None; Scalar 3; Iterable [] None] = ([Item 1; Item 2; Item 3], None).
Proof. split; [repeat constructor|reflexivity]. Qed.
