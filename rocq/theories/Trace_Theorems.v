(** C96: tracebacks that are kept. *)
From Coq Require Import List Bool Arith ZArith Lia.
From Verif Require Import Prelude Trace_Model Trace_Spec Trace_Proofs.
Import ListNotations.
Open Scope nat_scope.

(** ** Values *)
(** A value that can be pickled and was comes back from load_value. *)
Theorem C96_value : forall repr_of type_of dumps loads compress decompress reason zlib_error unpickling_error p v s b,
  store repr_of type_of dumps compress reason zlib_error p v = Ok s -> should_pickle p v = true ->
  dumps v = Ok b -> loads b = Ok v -> (forall level, exists c, compress level b = Ok c /\ decompress c = Ok b) ->
  load_value loads decompress unpickling_error s = Ok v.
Proof.
  intros repr_of type_of dumps loads compress decompress reason ze ue p v s b S P D L C. apply store_kind in S.
  destruct S as [(A & _)|[(_ & e & A & _)|[(_ & b' & A & _ & K & Q)|[(_ & b' & c & A & _ & Cc & K & Q)|(_ & b' & e & A & _ & Cc & _)]]]]; try congruence.
  - unfold load_value. rewrite K, Q. assert (b' = b) by congruence. subst b'. now rewrite L.
  - unfold load_value. rewrite K, Q. assert (b' = b) by congruence. subst b'. destruct (C (compression_level p b)) as (c' & C1 & C2).
    assert (c' = c) by congruence. subst c'. now rewrite C2, L.
  - assert (b' = b) by congruence. subst b'. destruct (C (compression_level p b)) as (c' & C1 & _). congruence.
Qed.
Print Assumptions C96_value.
(** One that was not pickled, or could not be, gives ValueError; what could not be pickled has the reason in its pickle, and its repr in any case. *)
Theorem C96_not_pickled : forall repr_of type_of dumps loads compress decompress reason zlib_error unpickling_error p v s,
  store repr_of type_of dumps compress reason zlib_error p v = Ok s ->
  (should_pickle p v = false -> s_pickle s = None /\ load_value loads decompress unpickling_error s = Err ValueError) /\
  (forall e, should_pickle p v = true -> dumps v = Err e -> s_pickle s = Some (reason e) /\ load_value loads decompress unpickling_error s = Err ValueError) /\
  (forall b e, should_pickle p v = true -> dumps v = Ok b -> should_compress p b = true -> compress (compression_level p b) b = Err e ->
     s_pickle s = Some (reason e) /\ load_value loads decompress unpickling_error s = Err ValueError) /\
  kept_as repr_of type_of p v s.
Proof.
  intros repr_of type_of dumps loads compress decompress reason ze ue p v s S. assert (S' := S). apply store_inv in S'. apply store_kind in S.
  repeat split; try apply S'; intros;
  (destruct S as [(A & K & Q)|[(A & e' & D & K & Q)|[(A & b' & D & SC & K & Q)|[(A & b' & c & D & SC & C & K & Q)|(A & b' & e' & D & SC & C & Z & K & Q)]]]]; try congruence; unfold load_value; rewrite ?K; try reflexivity; try congruence).
Qed.
Print Assumptions C96_not_pickled.
(** Storing fails only if repr() of the value or its type raises, or zlib raises something that is not a zlib.error. *)
Theorem C96_store_total : forall repr_of type_of dumps compress reason zlib_error p v r t,
  repr_of v = Ok r -> type_of v = Ok t -> (forall level b e, compress level b = Err e -> zlib_error e = true) ->
  exists s, store repr_of type_of dumps compress reason zlib_error p v = Ok s.
Proof.
  intros repr_of type_of dumps compress reason ze p v r t R T C.
  assert (H : is_ok (store repr_of type_of dumps compress reason ze p v) = true) by (apply store_total; [now rewrite R|now rewrite T|exact C]).
  destruct (store repr_of type_of dumps compress reason ze p v) as [s|e]; [now exists s|discriminate].
Qed.
Print Assumptions C96_store_total.
(** The default policy: the repr is kept as it is up to the limit, and otherwise its beginning, followed by three dots; pickles strictly longer than compress_at are compressed. *)
Theorem C96_policy : forall pickling at_ limit level (r b : text) v,
  should_pickle (default_policy pickling at_ limit level) v = pickling /\
  (should_compress (default_policy pickling at_ limit level) b = true <-> at_ < length b) /\
  compression_level (default_policy pickling at_ limit level) b = level /\
  (limit = None -> process_repr (default_policy pickling at_ limit level) r = r) /\
  (forall n, limit = Some n -> length r <= n -> process_repr (default_policy pickling at_ limit level) r = r) /\
  (forall n, limit = Some n -> n < length r -> exists beginning rest, r = beginning ++ rest /\ length beginning = n /\
     process_repr (default_policy pickling at_ limit level) r = beginning ++ [46; 46; 46]).
Proof.
  intros pickling at_ limit level r b v. unfold default_policy, should_pickle, should_compress, compression_level, process_repr. split; [reflexivity|]. split; [apply Nat.ltb_lt|]. split; [reflexivity|]. split; [now intros ->|]. split.
  - intros n -> L. apply Nat.ltb_ge in L. now rewrite L.
  - intros n -> L. assert (L' := L). apply Nat.ltb_lt in L'. rewrite L'. exists (firstn n r), (skipn n r). repeat split; [symmetry; apply firstn_skipn|apply firstn_length_le; lia].
Qed.
Print Assumptions C96_policy.
(** "raises ValueError: value has failed to be pickled or was never pickled" is what load_value raises, if unpickling raises UnpicklingError only ... *)
Theorem C96_load_errors_partial : forall repr_of type_of dumps loads compress decompress reason zlib_error unpickling_error p v s e,
  store repr_of type_of dumps compress reason zlib_error p v = Ok s ->
  (forall b x, loads b = Err x -> unpickling_error x = true) -> (forall level b c, compress level b = Ok c -> exists d, decompress c = Ok d) ->
  load_value loads decompress unpickling_error s = Err e -> e = ValueError.
Proof.
  intros repr_of type_of dumps loads compress decompress reason ze ue p v s e S U C. apply store_kind in S. unfold load_value.
  destruct S as [(A & K & Q)|[(A & e' & D & K & Q)|[(A & b' & D & SC & K & Q)|[(A & b' & c & D & SC & C' & K & Q)|(A & b' & e' & D & SC & C' & Z & K & Q)]]]]; rewrite K, ?Q; try congruence.
  - destruct (loads b') as [x|x] eqn:E; [discriminate|]. rewrite (U _ _ E). congruence.
  - destruct (C _ _ _ C') as (d & ->). destruct (loads d) as [x|x] eqn:E; [discriminate|]. rewrite (U _ _ E). congruence.
Qed.
Print Assumptions C96_load_errors_partial.
(** ... but pickle.loads raises other exceptions too, such as AttributeError when the class is no longer there, and they come through. *)
Definition C96_load_errors_full_statement : Prop := forall repr_of type_of dumps loads compress decompress reason zlib_error unpickling_error p v s e,
  store repr_of type_of dumps compress reason zlib_error p v = Ok s -> load_value loads decompress unpickling_error s = Err e -> e = ValueError.
Theorem C96_load_errors_full_statement_refuted : ~ C96_load_errors_full_statement.
Proof.
  intro H. specialize (H (fun _ => Ok []) (fun _ => Ok []) (fun _ => Ok [1]) (fun _ => Err AttributeError) (fun _ b => Ok b) (fun b => Ok b) (fun _ => []) (fun _ => false) (fun _ => false)
    (default_policy true 10 None 6) 0%Z _ AttributeError eq_refl eq_refl). discriminate.
Qed.
Print Assumptions C96_load_errors_full_statement_refuted.

(** ** Frames *)
(** A traceback holds the frames from where the exception was raised outwards, each with the names, the place and the variables it had. *)
Theorem C96_frames : forall repr_of type_of dumps compress reason zlib_error p starting exc current formatted t,
  make_trace repr_of type_of dumps compress reason zlib_error p starting exc current formatted = Ok t ->
  t_formatted t = formatted /\
  exists first, Forall2 (fun f s => same_place f s /\ keeps repr_of type_of p f s) (outwards first) (t_frames t) /\
    match starting, exc with
    | Some f, _ => first = f
    | None, Some (tb, next) => first = last (tb :: next) tb       (* the innermost frame of the exception's traceback *)
    | None, None => first = current
    end.
Proof.
  intros repr_of type_of dumps compress reason ze p starting exc current formatted t H. unfold make_trace, res_bind in H.
  destruct (frames_of _ _ _ _ _ _ p _) as [l|e] eqn:F; [|discriminate]. injection H as <-. split; [reflexivity|].
  eexists. split.
  - cbn [t_frames]. eapply Forall2_impl'; [|exact (frames_kept _ _ _ _ _ _ _ _ _ F)]. intros x y S. apply frame_kept in S as (A & B & _). split; assumption.
  - destruct starting; [reflexivity|]. destruct exc as [(tb & next)|]; [apply innermost|reflexivity].
Qed.
Print Assumptions C96_frames.
(** It can be made, if all variables of these frames have a repr ... *)
Theorem C96_total_partial : forall repr_of type_of dumps compress reason zlib_error p f exc current formatted,
  (forall x v, In x (outwards f) -> In v (variables x) -> is_ok (repr_of v) = true /\ is_ok (type_of v) = true) ->
  (forall level b e, compress level b = Err e -> zlib_error e = true) ->
  exists t, make_trace repr_of type_of dumps compress reason zlib_error p (Some f) exc current formatted = Ok t.
Proof.
  intros repr_of type_of dumps compress reason ze p f exc current formatted R C. unfold make_trace, res_bind.
  assert (H : is_ok (frames_of repr_of type_of dumps compress reason ze p f) = true).
  { apply frames_total. intros x I. apply frame_total. intros v Iv. destruct (R x v I Iv). now apply store_total. }
  destruct (frames_of _ _ _ _ _ _ p f); [eauto|discriminate].
Qed.
Print Assumptions C96_total_partial.
(** ... but a single variable whose __repr__ raises, in any of the frames, makes the whole traceback unavailable. *)
Theorem C96_total_refuted : forall repr_of type_of dumps compress reason zlib_error p f exc current formatted x v,
  In x (outwards f) -> In v (variables x) -> is_ok (repr_of v) = false ->
  is_ok (make_trace repr_of type_of dumps compress reason zlib_error p (Some f) exc current formatted) = false.
Proof.
  intros repr_of type_of dumps compress reason ze p f exc current formatted x v I Iv R. unfold make_trace, res_bind.
  destruct (frames_of _ _ _ _ _ _ p f) as [l|e] eqn:F; [exfalso|reflexivity]. apply frames_kept in F.
  assert (K : exists s, stack_frame_of repr_of type_of dumps compress reason ze p x = Ok s).
  { clear Iv. induction F as [|a s fs ss S _ IH]; [easy|]. destruct I as [<-|I]; eauto. }
  destruct K as (s & K). apply frame_kept in K as (_ & K & _). destruct x as [n fn ln lo gl bk]. cbn in K, Iv. destruct K as (K1 & K2).
  assert (K : exists s', kept_as repr_of type_of p v s').
  { apply in_app_iff in Iv as [Iv|Iv].
    - clear K2 I. induction K1 as [|kv ks l1 r1 (_ & S) _ IH]; [easy|]. destruct Iv as [<-|Iv]; [exists (snd ks); exact S|apply IH; exact Iv].
    - clear K1 I. induction K2 as [|kv ks l1 r1 (_ & S) _ IH]; [easy|]. destruct Iv as [<-|Iv]; [exists (snd ks); exact S|apply IH; exact Iv]. }
  destruct K as (s' & (r & R' & _) & _). rewrite R' in R. discriminate.
Qed.
Print Assumptions C96_total_refuted.
(** "raise ValueError: there is no traceback to get info from! Is any exception in process?" never happens: without an exception the current frame is taken. *)
Theorem C96_no_exception_refuted : ~ (forall repr_of type_of dumps compress reason zlib_error p current formatted,
  make_trace repr_of type_of dumps compress reason zlib_error p None None current formatted = Err ValueError).
Proof.
  intro H. specialize (H (fun _ => Ok []) (fun _ => Ok []) (fun _ => Ok []) (fun _ b => Ok b) (fun _ => []) (fun _ => false) (default_policy true 10 None 6) (Frame [] [] 0 [] [] None) []). discriminate.
Qed.
Print Assumptions C96_no_exception_refuted.

(** ** JSON *)
(** What comes back from JSON compares equal, both ways, and has the same formatted text. *)
Theorem C96_json_partial : forall t, names_once t ->
  trace_eq t (trace_from_json (trace_to_json t)) = true /\ trace_eq (trace_from_json (trace_to_json t)) t = true /\
  t_formatted (trace_from_json (trace_to_json t)) = t_formatted t.
Proof. intros t N. destruct (trace_json_eq t N). repeat split; assumption. Qed.
Print Assumptions C96_json_partial.
(** Equality means: the same places, and variables with the same names, reprs and types. *)
Theorem C96_equality : forall a b, trace_eq a b = true ->
  Forall2 (fun x y => f_name x = f_name y /\ f_filename x = f_filename y /\ f_lineno x = f_lineno y /\
     (length (f_locals x) = length (f_locals y) /\ forall k v, In (k, v) (f_locals x) -> exists w, In (k, w) (f_locals y) /\ s_repr v = s_repr w /\ s_type v = s_type w) /\
     (length (f_globals x) = length (f_globals y) /\ forall k v, In (k, v) (f_globals x) -> exists w, In (k, w) (f_globals y) /\ s_repr v = s_repr w /\ s_type v = s_type w))
    (t_frames a) (t_frames b).
Proof.
  intros a b H. apply frames_eq_Forall2 in H. eapply Forall2_impl'; [|exact H]. intros x y E. apply frame_eq_places in E as (A & B & C & D & E).
  repeat split; auto; try (now apply vars_eq_In); unfold vars_eq in D, E; apply andb_true_iff in D as (D & _), E as (E & _); apply Nat.eqb_eq in D, E; assumption.
Qed.
Print Assumptions C96_equality.
(** "You will not lose the unpicklability of them by doing so" is false: no value at all can be loaded after having been through JSON ... *)
Theorem C96_json_loses : forall loads decompress unpickling_error s,
  s_pickle (stored_from_json (stored_to_json s)) = None /\
  load_value loads decompress unpickling_error (stored_from_json (stored_to_json s)) =
  Err match s_kind s with Pickled | PickledGzip => TypeError | _ => ValueError end.
Proof. intros loads decompress ue [r t q k]. split; [reflexivity|]. destruct k; reflexivity. Qed.
Print Assumptions C96_json_loses.
(** ... although JSON has all that is needed. *)
Theorem C96_json_has_it : forall s x b, s_pickle s = Some (x :: b) -> j_pickle (stored_to_json s) = Some (x :: b) /\ j_kind (stored_to_json s) = s_kind s.
Proof. intros s x b H. cbn. rewrite H. split; reflexivity. Qed.
Print Assumptions C96_json_has_it.
Definition C96_json_full_statement : Prop := forall loads decompress unpickling_error s v,
  load_value loads decompress unpickling_error s = Ok v -> load_value loads decompress unpickling_error (stored_from_json (stored_to_json s)) = Ok v.
Theorem C96_json_full_statement_refuted : ~ C96_json_full_statement.
Proof. intro H. specialize (H (fun _ => Ok 5%Z) (fun b => Ok b) (fun _ => false) {| s_repr := [53]; s_type := [105]; s_pickle := Some [1]; s_kind := Pickled |} 5%Z eq_refl). discriminate. Qed.
Print Assumptions C96_json_full_statement_refuted.

(** A world in which numbers below 100 can be pickled, and one with its frames. *)
Definition ex_dumps (v : Z) : res text := if (v <? 100)%Z then Ok (repeat 7 (Z.to_nat v)) else Err TypeError.
Definition ex_loads (b : text) : res Z := Ok (Z.of_nat (length b)).
Definition ex_compress (_ : nat) (b : text) : res text := Ok (length b :: []).
Definition ex_decompress (b : text) : res text := match b with [n] => Ok (repeat 7 n) | _ => Err (UserExn 9) end.
Definition ex_store := store (fun v => Ok (repeat 48 (Z.to_nat v))) (fun _ => Ok [105]) ex_dumps ex_compress (fun _ => [33]) (fun _ => true) (default_policy true 4 (Some 3) 6).
Example C96_case_values :
  ex_store 2%Z = Ok {| s_repr := [48; 48]; s_type := [105]; s_pickle := Some [7; 7]; s_kind := Pickled |} /\
  ex_store 5%Z = Ok {| s_repr := [48; 48; 48; 46; 46; 46]; s_type := [105]; s_pickle := Some [5]; s_kind := PickledGzip |} /\
  res_bind (ex_store 5%Z) (load_value ex_loads ex_decompress (fun _ => true)) = Ok 5%Z /\
  res_bind (ex_store 100%Z) (load_value ex_loads ex_decompress (fun _ => true)) = Err ValueError /\
  (forall level, exists c, ex_compress level (repeat 7 5) = Ok c /\ ex_decompress c = Ok (repeat 7 5)).
Proof. vm_compute. repeat split. intro; eexists; split; reflexivity. Qed.
Definition ex_outer := Frame [1] [2] 10 [([120], 2%Z)] [([121], 3%Z)] None.
Definition ex_inner := Frame [3] [2] 20 [([120], 5%Z); ([122], 100%Z)] [] (Some ex_outer).
Example C96_case_frames : exists t,
  make_trace (fun v => Ok (repeat 48 (Z.to_nat v))) (fun _ => Ok [105]) ex_dumps ex_compress (fun _ => [33]) (fun _ => true) (default_policy true 4 (Some 3) 6) None (Some (ex_outer, [ex_inner])) ex_outer [9] = Ok t /\
  map f_lineno (t_frames t) = [20; 10]%Z /\ names_once t /\ trace_eq t (trace_from_json (trace_to_json t)) = true /\ t_frames t <> t_frames (trace_from_json (trace_to_json t)).
Proof.
  eexists. split; [vm_compute; reflexivity|]. split; [reflexivity|]. split; [|split; [vm_compute; reflexivity|vm_compute; congruence]].
  intros f [<-|[<-|[]]]; vm_compute; split; repeat constructor; cbn; intuition congruence.
Qed.
