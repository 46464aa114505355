(** C132: a Subqueue used by several threads. *)
From Verif Require Import Prelude PreludeFacts MoreFacts MetrThr_Model MetrThr_Spec SubThr_Model SubThr_Spec SubThr_Proofs.

(** Every call ends as if the calls were made one at a time, in the order in which they end: get() and get_any() give the message that has waited
    longest under the name, Empty is raised only if there is none, qsize() counts what waits, and nothing else is raised. *)
Definition C132_full_statement : Prop :=
  forall (K V : Type) (eqb : K -> K -> bool) programs schedule t d r, eqb_ok eqb ->
  let c := sub_run eqb (@sub_start K V programs) schedule in
  log (sub_run eqb c [t]) = log c ++ [(d, r)] -> fits eqb (log c) d r.

(** put() and get() always end so; get_any() may instead raise RuntimeError or Empty, and qsize() may raise RuntimeError or give another number. *)
Theorem C132_partial : forall (K V : Type) (eqb : K -> K -> bool) programs schedule t d r, eqb_ok eqb ->
  let c := sub_run eqb (@sub_start K V programs) schedule in
  log (sub_run eqb c [t]) = log c ++ [(d, r)] -> fits eqb (log c) d r \/ slips d r.
Proof. intros K V eqb programs schedule t d r ok c L. eapply fits_step; eauto. apply sound_run; auto. Qed.
Print Assumptions C132_partial.
Definition two_threads : nat -> list (call nat nat) := fun t => match t with 0 => [Put 1 5; Put 1 6; Put 2 7; Qsize; Get 2 false] | 1 => [Get 1 true; GetAny; GetAny; GetAny] | _ => [] end.
Example C132_case : exists schedule, log (sub_run Nat.eqb (sub_start two_threads) schedule) =
  [(Put 1 5, Ok Nothing); (Get 1 true, Ok (Val 5)); (Put 1 6, Ok Nothing); (Put 2 7, Ok Nothing); (Qsize, Ok (Num 2)); (GetAny, Ok (Item 1 6)); (GetAny, Ok (Item 2 7)); (GetAny, Err EmptyExn); (Get 2 false, Err EmptyExn)].
Proof. exists ([1;0;1;0;1;1;0;0;0;1;0;0;0;1;0;0;0;0; 1;1] ++ [0;0;0;0;0;0;0;0;0; 0;0;0;0;0;0;0;0] ++ [1;1;1;1;1;1;1;1;1;1;1;1;1;1;1;1;1;1;1;1;1;1] ++ [0;0;0;0;0;0]). vm_compute. reflexivity. Qed.

(** No message is lost, none is given out twice, and messages put under a name come out in order: whatever the threads do, what was put under a name is
    what was taken, followed by what waits in its queue. *)
Theorem C132_fifo : forall (K V : Type) (eqb : K -> K -> bool) programs schedule k, eqb_ok eqb ->
  let c := sub_run eqb (@sub_start K V programs) schedule in
  sent eqb (log c) k = received eqb (log c) k ++ match dget eqb (names (shared c)) k with Some i => content (shared c) i | None => [] end.
Proof.
  intros K V eqb programs schedule k ok c. unfold c. rewrite (fifo_run ok). f_equal. pose proof (r_pend (s_right (sound_run ok programs schedule)) k) as P.
  destruct (dget eqb (names (shared (sub_run eqb (sub_start programs) schedule))) k); auto.
Qed.
Print Assumptions C132_fifo.
Example C132_fifo_case : let c := sub_run Nat.eqb (sub_start two_threads) [1;0;1;0;1;1;0;0;0;1;0;0;0;1;0;0;0;0; 1;1;0;0] in
  sent Nat.eqb (log c) 1 = [5; 6] /\ received Nat.eqb (log c) 1 = [5] /\ dget Nat.eqb (names (shared c)) 1 = Some 0 /\ content (shared c) 0 = [6].
Proof. vm_compute. auto. Qed.

(** Once all names that are still to be used have been used, nothing raises RuntimeError any more. *)
Theorem C132_known : forall (K V : Type) (eqb : K -> K -> bool) programs before after, eqb_ok eqb ->
  let c := sub_run eqb (@sub_start K V programs) before in
  idle c -> (forall t d k, In d (todo c t) -> name_of d = Some k -> exists d' r, In (d', r) (log c) /\ name_of d' = Some k) ->
  exists l, log (sub_run eqb c after) = log c ++ l /\ forall d, ~ In (d, Err RuntimeError) l.
Proof. intros K V eqb programs before after ok c I N. apply (known_run ok). apply (known_start ok); auto. Qed.
Print Assumptions C132_known.
Definition old_names : nat -> list (call nat nat) := fun t => match t with 0 => [Put 1 5; Get 2 false; Put 2 6; Put 1 7] | 1 => [GetAny; Qsize; Get 1 true] | _ => [] end.
Example C132_known_case : let c := sub_run Nat.eqb (sub_start old_names) [0;0;0;0;0;0;0; 0;0;0;0;0;0;0] in
  idle c /\ (forall t d k, In d (todo c t) -> name_of d = Some k -> exists d' r, In (d', r) (log c) /\ name_of d' = Some k) /\ todo c 0 = [Put 2 6; Put 1 7] /\
  log c = [(Put 1 5, Ok Nothing); (Get 2 false, Err EmptyExn)].
Proof.
  split; [intros [|[|t]]; reflexivity|]. split; [|split; vm_compute; reflexivity]. intros [|[|t]] d k I N; vm_compute in I; [| |destruct I].
  - destruct I as [<-|[<-|[]]]; injection N as <-; [exists (Get 2 false), (Err EmptyExn)|exists (Put 1 5), (Ok Nothing)]; vm_compute; auto.
  - destruct I as [<-|[<-|[<-|[]]]]; try discriminate. injection N as <-. exists (Put 1 5), (Ok Nothing). vm_compute. auto.
Qed.

(** If only one thread takes messages, its get_any() does not raise Empty if there was a message when it was called. *)
Theorem C132_sole : forall (K V : Type) (eqb : K -> K -> bool) programs before after t rest d r k, eqb_ok eqb ->
  (forall u d, u <> t -> In d (programs u) -> ~ takes d) ->
  let c0 := sub_run eqb (@sub_start K V programs) before in
  let c := sub_run eqb c0 after in
  current c0 t = None -> todo c0 t = GetAny :: rest -> pending eqb (log c0) k <> [] ->
  todo c t = rest -> log (sub_run eqb c [t]) = log c ++ [(d, r)] -> r <> Err EmptyExn.
Proof.
  intros K V eqb programs before after t rest d r k ok N c0 c C T P T' L ->. eapply (@stage_end K V eqb t k rest c d); eauto. apply (stage_run ok). split; [apply sound_run; auto|]. split; [|auto].
  apply others_run. auto.
Qed.
Print Assumptions C132_sole.
Definition a_taker : nat -> list (call nat nat) := fun t => match t with 0 => [Get 1 false; GetAny] | 1 => [Put 2 6; Put 1 7] | _ => [] end.
Example C132_sole_case : (forall u d, u <> 0 -> In d (a_taker u) -> ~ takes d) /\
  let c0 := sub_run Nat.eqb (sub_start a_taker) [0;0;0;0;0;0;0; 1;1;1;1;1;1;1] in let c := sub_run Nat.eqb c0 [0;0;0;1;1;1;0;0] in
  current c0 0 = None /\ todo c0 0 = [GetAny] /\ pending Nat.eqb (log c0) 2 = [6] /\ todo c 0 = [] /\ log (sub_run Nat.eqb c [0]) = log c ++ [(GetAny, Ok (Item 2 6))].
Proof.
  split; [|vm_compute; auto]. intros [|[|u]] d N I; simpl in I; [contradiction| |contradiction]. repeat (destruct I as [<-|I]; [simpl; auto|]). contradiction.
Qed.

(** Calls made one at a time all end as they should. *)
Theorem C132_one_at_a_time : forall (K V : Type) (eqb : K -> K -> bool) programs schedule, eqb_ok eqb ->
  one_at_a_time (@first K V) (exec eqb) (sub_start programs) schedule ->
  forall l1 d r l2, log (sub_run eqb (@sub_start K V programs) schedule) = l1 ++ (d, r) :: l2 -> fits eqb l1 d r.
Proof. intros K V eqb programs schedule ok O. apply alone_run; auto. Qed.
Print Assumptions C132_one_at_a_time.
Definition in_turn : nat -> list (call nat nat) := fun t => match t with 0 => [Put 1 5; Put 1 6; Qsize] | 1 => [GetAny; GetAny] | _ => [] end.
Example C132_one_at_a_time_case : let schedule := [1;1;1; 0;0;0;0;0;0;0; 0;0;0;0; 0;0;0;0;0; 1;1;1;1] in
  one_at_a_time (@first nat nat) (exec Nat.eqb) (sub_start in_turn) schedule /\
  log (sub_run Nat.eqb (sub_start in_turn) schedule) = [(GetAny, Err EmptyExn); (Put 1 5, Ok Nothing); (Put 1 6, Ok Nothing); (Qsize, Ok (Num 2)); (GetAny, Ok (Item 1 5))].
Proof.
  split; [|vm_compute; auto]. do 23 (split; [right; intros [|[|u]] N; first [exfalso; apply N; reflexivity|vm_compute; reflexivity]|]). exact I.
Qed.

(** The monitor is let go: if nobody waits for messages, then wherever the threads are, all of them can go on to their ends. *)
Theorem C132_no_deadlock : forall (K V : Type) (eqb : K -> K -> bool) n programs schedule, eqb_ok eqb -> threads_below n programs -> (forall t k, ~ In (Get k true) (programs t)) ->
  exists schedule', finished (sub_run eqb (sub_run eqb (@sub_start K V programs) schedule) schedule').
Proof. intros. eapply can_finish; eauto. Qed.
Print Assumptions C132_no_deadlock.
Definition two_makers : nat -> list (call nat nat) := fun t => match t with 0 => [GetAny; Qsize; Put 3 9] | 1 => [Put 1 5; Get 1 false] | 2 => [Put 1 6] | _ => [] end.
Example C132_no_deadlock_case : threads_below 3 two_makers /\ (forall t k, ~ In (Get k true) (two_makers t)) /\ locked (shared (sub_run Nat.eqb (sub_start two_makers) [1;2;1;2;1;2])) = true.
Proof.
  split; [intros [|[|[|t]]] L; simpl; auto; lia|]. split; [|reflexivity]. intros [|[|[|t]]] k I; simpl in I; repeat (destruct I as [I|I]; [discriminate|]); destruct I.
Qed.

(** ** What goes wrong *)
(** get_any() and qsize() raise RuntimeError if a name is used for the first time meanwhile *)
Definition new_name : nat -> list (call nat nat) := fun t => match t with 0 => [GetAny; Put 3 9] | 1 => [Put 1 5; Get 1 true; Put 2 6] | 2 => [Qsize] | _ => [] end.
Theorem C132_get_any_raises_refuted : exists schedule, log (sub_run Nat.eqb (sub_start new_name) schedule) = [(Put 1 5, Ok Nothing); (GetAny, Err RuntimeError)].
Proof. exists [0;0; 1;1;1;1;1;1;1; 0]. vm_compute. reflexivity. Qed.
Print Assumptions C132_get_any_raises_refuted.
Theorem C132_qsize_raises_refuted : exists schedule, log (sub_run Nat.eqb (sub_start new_name) schedule) = [(Put 1 5, Ok Nothing); (Qsize, Err RuntimeError)].
Proof. exists [2;2; 1;1;1;1;1;1;1; 2]. vm_compute. reflexivity. Qed.
Print Assumptions C132_qsize_raises_refuted.
(** get_any() raises Empty although there is a message at every moment *)
Definition always_one : nat -> list (call nat nat) := fun t => match t with 0 => [Get 1 false; Put 2 6; GetAny] | 1 => [Put 1 5; Get 2 true] | _ => [] end.
Theorem C132_empty_refuted : exists before during,
  let c0 := sub_run Nat.eqb (sub_start always_one) before in
  let c := sub_run Nat.eqb c0 during in
  current c0 0 = None /\ todo c0 0 = [GetAny] /\ log c = log c0 ++ [(Put 1 5, Ok Nothing); (Get 2 true, Ok (Val 6)); (GetAny, Err EmptyExn)] /\
  forall n, exists k, pending Nat.eqb (log (sub_run Nat.eqb c0 (firstn n during))) k <> [].
Proof.
  exists [0;0;0;0;0;0;0; 0;0;0;0;0;0;0], [0;0;0;0; 1;1;1;1; 1;1;1;1; 0;0;0]. repeat (split; [vm_compute; reflexivity|]). intros n.
  do 12 (destruct n as [|n]; [first [exists 2; vm_compute; discriminate|exists 1; vm_compute; discriminate]|]).
  do 4 (destruct n as [|n]; [exists 1; vm_compute; discriminate|]). exists 1. vm_compute. discriminate.
Qed.
Print Assumptions C132_empty_refuted.
(** qsize() gives a number that there never were *)
Definition counts : nat -> list (call nat nat) := fun t => match t with 0 => [Put 1 5; Get 2 false; Qsize] | 1 => [Get 1 false; Put 2 6] | _ => [] end.
Theorem C132_qsize_refuted : exists before during,
  let c0 := sub_run Nat.eqb (sub_start counts) before in
  let c := sub_run Nat.eqb c0 during in
  current c0 0 = None /\ todo c0 0 = [Qsize] /\ log c = log c0 ++ [(Get 1 false, Ok (Val 5)); (Put 2 6, Ok Nothing); (Qsize, Ok (Num 2))] /\
  forall n, let l := log (sub_run Nat.eqb c0 (firstn n during)) in (forall k, k <> 1 -> k <> 2 -> pending Nat.eqb l k = []) /\ length (pending Nat.eqb l 1) + length (pending Nat.eqb l 2) <= 1.
Proof.
  exists [0;0;0;0;0;0;0; 0;0;0;0;0;0;0], [0;0;0;0; 1;1;1;1; 1;1;1;1; 0;0;0]. repeat (split; [vm_compute; reflexivity|]).
  assert (Z : forall k, k <> 1 -> k <> 2 -> Nat.eqb 1 k = false /\ Nat.eqb 2 k = false) by (intros k N M; split; apply Nat.eqb_neq; auto).
  assert (X : forall l, In l [[(Put 1 5, Ok Nothing); (Get 2 false, Err EmptyExn)]; [(Put 1 5, Ok Nothing); (Get 2 false, Err EmptyExn); (Get 1 false, Ok (Val 5))];
     [(Put 1 5, Ok Nothing); (Get 2 false, Err EmptyExn); (Get 1 false, Ok (Val 5)); (Put 2 6, Ok Nothing)];
     [(Put 1 5, Ok Nothing); (Get 2 false, Err EmptyExn); (Get 1 false, Ok (Val 5)); (Put 2 6, Ok Nothing); (Qsize, Ok (Num 2))]] ->
     (forall k, k <> 1 -> k <> 2 -> pending Nat.eqb l k = []) /\ length (pending Nat.eqb l 1) + length (pending Nat.eqb l 2) <= 1).
  { intros l I. simpl in I. repeat (destruct I as [<-|I]; [split; [intros k N M; destruct (Z k N M) as [A B]; unfold pending; cbn -[Nat.eqb]; rewrite ?A, ?B; reflexivity|vm_compute; lia]|]). destruct I. }
  intros n. apply X.
  do 16 (destruct n as [|n]; [vm_compute; auto 6|]). vm_compute. auto 6.
Qed.
Print Assumptions C132_qsize_refuted.
Theorem C132_full_statement_refuted : ~ C132_full_statement.
Proof.
  intros H. specialize (H nat nat Nat.eqb new_name [0;0; 1;1;1;1;1;1;1] 0 GetAny (Err RuntimeError) nateqb_ok). cbv zeta in H.
  assert (X : log (sub_run Nat.eqb (sub_run Nat.eqb (sub_start new_name) [0;0; 1;1;1;1;1;1;1]) [0]) = log (sub_run Nat.eqb (sub_start new_name) [0;0; 1;1;1;1;1;1;1]) ++ [(GetAny, Err RuntimeError)]) by (vm_compute; reflexivity).
  destruct (H X) as [(k & v & q & _ & E)|(E & _)]; discriminate.
Qed.
Print Assumptions C132_full_statement_refuted.
