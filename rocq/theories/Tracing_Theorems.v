(** C113: traced functions, futures and exceptions. *)
From Coq Require Import String Lia.
From Verif Require Import Prelude Tracing_Model Tracing_Spec Tracing_Proofs.
Set Implicit Arguments.
Local Open Scope string_scope.
Open Scope list_scope.

(** A traced function answers as the function does, inside of one span that is finished afterwards, with the tags given
    and those made from the arguments of this call, whatever calls came before. *)
Theorem C113_function : forall A V R (fs : list (string * factory A V)) (fun_ : A -> res R) given l,
  (forall a n f, In a l -> In (n, f) fs -> exists v, spread f a = Ok v) ->
  Forall2 (fun a c => exists t, traced (Some t) a (fun_ a) c /\
                                forall n, dget String.eqb t n = tag_of fs (match given with Some d => d | None => [] end) a n)
          l (calls (Some fs) fun_ given l).
Proof.
  intros A V R fs fun_ given l. revert given. induction l as [|a t IH]; intros given H; simpl; [constructor|].
  destruct (@build_ok A V fs a (match given with None => [] | Some d => d end)) as (d' & E & D); [intros n f Hf; apply (H a n f); [left; reflexivity|exact Hf]|].
  rewrite E. constructor.
  - exists d'. split; [reflexivity|]. destruct given; exact D.
  - specialize (IH (Some (match given with None => [] | Some d => d end)) (fun b n f Hb Hf => H b n f (or_intror Hb) Hf)).
    destruct given; exact IH.
Qed.
Print Assumptions C113_function.
(** Without factories, with the tags given. *)
Theorem C113_function_plain : forall A V R (fun_ : A -> res R) (given : option (list (string * V))) l,
  Forall2 (fun a c => traced given a (fun_ a) c) l (calls None fun_ given l).
Proof. intros A V R fun_ given l. induction l as [|a t IH]; simpl; constructor; [reflexivity|exact IH]. Qed.
Print Assumptions C113_function_plain.
(** A factory that fails otherwise than with a TypeError: its exception, and neither a span nor the call. *)
Theorem C113_factory_fails : forall A V R (fs1 fs2 : list (string * factory A V)) n f (fun_ : A -> res R) given a e,
  (forall n f, In (n, f) fs1 -> exists v, spread f a = Ok v) -> spread f a = Err e -> e <> TypeError ->
  calls (Some (fs1 ++ (n, f) :: fs2)) fun_ given [a] = [([], Err e)].
Proof.
  intros A V R fs1 fs2 n f fun_ given a e H1 Hf He. simpl.
  assert (B : forall d, build (fs1 ++ (n, f) :: fs2) a d = Err e).
  { clear given. induction fs1 as [|[k g] t IH]; intros d; simpl.
    - rewrite Hf. destruct e; congruence.
    - destruct (H1 k g (or_introl eq_refl)) as (v & E). rewrite E. apply IH. intros k' g' Hi. apply (H1 k' g'). right. exact Hi. }
  rewrite B. reflexivity.
Qed.
Print Assumptions C113_factory_fails.
Example C113_case : calls (Some [("device", {| spread := fun n => Ok (n + 1); single := fun _ => Err TypeError |})]) (fun n => Ok (n * 2)) (Some [("kind", 7)]) [1; 5] =
  [([Start nat (Some [("kind", 7); ("device", 2)]); Run nat 1; Finish nat nat], Ok 2);
   ([Start nat (Some [("kind", 7); ("device", 6)]); Run nat 5; Finish nat nat], Ok 10)].
Proof. reflexivity. Qed.
(** A factory whose own code raises a TypeError is called again, with the tuple of the arguments as the one argument:
    its error, or a wrong tag. *)
Theorem C113_factory_refuted : forall A V R (f : factory A V) (fun_ : A -> res R) given a v,
  spread f a = Err TypeError -> single f a = Ok v ->
  exists t, calls (Some [("x", f)]) fun_ given [a] = [([Start A (Some t); Run V a; Finish A V], fun_ a)] /\ dget String.eqb t "x" = Some v.
Proof.
  intros A V R f fun_ given a v Hs H1. simpl. rewrite Hs, H1. eexists. split; [reflexivity|].
  apply (PreludeFacts.dget_dset_eq Schema_Proofs.streqb_ok).
Qed.
Print Assumptions C113_factory_refuted.

(** When the future ends the span is finished, and has the exception attached if that is how it ended. *)
Definition C113_future_full_statement : Prop := forall handled how s, finished s = false ->
  finished (after handled how s) = true /\
  attached (after handled how s) = attached s ++ match how with Exception e => [e] | _ => [] end.
(** So it is for results; and for exceptions set while they are being handled, as executors do. *)
Theorem C113_future_partial : forall handled how s,
  how = Result \/ (exists e, how = Exception e /\ handled = Some e) ->
  finished (after handled how s) = true /\
  attached (after handled how s) = attached s ++ match how with Exception e => [e] | _ => [] end.
Proof. intros handled how s [->|(e & -> & ->)]; simpl; rewrite ?app_nil_r; auto. Qed.
Print Assumptions C113_future_partial.
(** Else no exception is attached, or that which is being handled. *)
Theorem C113_future_other : forall handled e s,
  attached (after handled (Exception e) s) = attached s ++ match handled with Some h => [h] | None => [] end.
Proof. intros [h|] e s; simpl; rewrite ?app_nil_r; reflexivity. Qed.
Print Assumptions C113_future_other.
Theorem C113_future_full_statement_refuted : ~ C113_future_full_statement.
Proof. intros H. destruct (H None (Exception ValueError) {| attached := []; finished := false |} eq_refl) as [_ E]. discriminate E. Qed.
Print Assumptions C113_future_full_statement_refuted.
(** A cancelled future leaves the span open for ever. *)
Theorem C113_cancelled_refuted : forall handled s, after handled Cancelled s = s.
Proof. reflexivity. Qed.
Print Assumptions C113_cancelled_refuted.
Example C113_future_case : after (Some ValueError) (Exception ValueError) {| attached := []; finished := false |} = {| attached := [ValueError]; finished := true |}.
Proof. reflexivity. Qed.

(** trace_exception logs the exception given, or else that being handled, with its stack: a beginning of it of the
    length asked for, if it is longer. *)
Definition C113_exception_full_statement : Prop := forall given handled limit global x tb,
  match given with Some y => Some y | None => handled end = Some x -> stack x = Some tb ->
  exists rest, trace_exception true given handled limit global =
               Ok (Logged (kind x) (substring 0 (match limit with Some n => n | None => global end) tb)) /\
               tb = (substring 0 (match limit with Some n => n | None => global end) tb ++ rest)%string.
Theorem C113_exception_partial : forall given handled limit global x tb,
  match given with Some y => Some y | None => handled end = Some x -> stack x = Some tb -> limit <> Some 0 ->
  exists rest, trace_exception true given handled limit global =
               Ok (Logged (kind x) (substring 0 (match limit with Some n => n | None => global end) tb)) /\
               tb = (substring 0 (match limit with Some n => n | None => global end) tb ++ rest)%string.
Proof.
  intros given handled limit global x tb Hx Hs Hl. unfold trace_exception. simpl negb. cbv iota. rewrite Hx, Hs.
  set (n := match limit with Some n => n | None => global end).
  destruct (substring_rest tb n) as (rest & E). exists rest. split; [|exact E].
  assert (En : match limit with Some (S n) => S n | _ => global end = n) by (unfold n; destruct limit as [[|k]|]; congruence). rewrite En.
  destruct (Nat.ltb_spec n (String.length tb)) as [L|L]; [reflexivity|]. rewrite substring_all; [reflexivity|exact L].
Qed.
Print Assumptions C113_exception_partial.
Theorem C113_exception_nothing : forall has_span given handled limit global,
  has_span = false \/ (given = None /\ handled = None) -> trace_exception has_span given handled limit global = Ok Nothing.
Proof. intros [|] given handled limit global [H|[-> ->]]; try discriminate; reflexivity. Qed.
Print Assumptions C113_exception_nothing.
(** A limit of 0 is no limit but the default. *)
Theorem C113_exception_full_statement_refuted : ~ C113_exception_full_statement.
Proof.
  intros H. destruct (H (Some {| kind := ValueError; stack := Some "abc" |}) None (Some 0) 2 _ "abc" eq_refl eq_refl) as (r & E & _). discriminate E.
Qed.
Print Assumptions C113_exception_full_statement_refuted.
(** An exception given without its traceback (one that was never raised) fails. *)
Theorem C113_no_traceback_refuted : forall k handled limit global,
  trace_exception true (Some {| kind := k; stack := None |}) handled limit global = Err AttributeError.
Proof. reflexivity. Qed.
Print Assumptions C113_no_traceback_refuted.
Example C113_exception_case : trace_exception true None (Some {| kind := ValueError; stack := Some "frame 1" |}) (Some 5) 100 = Ok (Logged ValueError "frame").
Proof. reflexivity. Qed.
