(** What Monitor, AtomicNumber and MonitorSet promise. *)
From Verif Require Import Prelude Monitor_Model.
Set Implicit Arguments.
Local Open Scope Z_scope.

(** Calls made one after the other: who, what, and with what answer. *)
Section Serial.
  Variables S O R : Type.
  Variable effect : S -> O -> S * R.
  Fixpoint serially (s : S) (log : list (nat * O * R)) (s' : S) : Prop :=
    match log with
    | [] => s = s'
    | (_, o, r) :: t => r = snd (effect s o) /\ serially (fst (effect s o)) t s'
    end.
  (** the calls of one thread, with answers *)
  Definition of_thread (t : nat) (log : list (nat * O * R)) : list (O * R) :=
    map (fun e => (snd (fst e), snd e)) (filter (fun e => Nat.eqb (fst (fst e)) t) log).

  (** the log has exactly the calls that are over: what each thread has called and been given, in the order of its program *)
  Definition accounts_for (log : list (nat * O * R)) (programs : nat -> list O) (c : config S O R) : Prop :=
    forall t, programs t = map fst (of_thread t log) ++ todo (threads c t) /\
              results (threads c t) = map snd (of_thread t log).
  (** What has happened so far could have happened in the order of the log, one call after the other; when nobody is inside,
      the object is as the calls left it. *)
  Definition explains (log : list (nat * O * R)) (s : S) (programs : nat -> list O) (c : config S O R) : Prop :=
    accounts_for log programs c /\ exists s', serially s log s' /\ (lock c = None -> shared c = s').
  Definition serializable (s : S) (programs : nat -> list O) (c : config S O R) : Prop :=
    exists log, explains log s programs c.
  (** The order agrees with time: calls over by a certain moment precede those over later. *)
  Definition explained_over_time (s : S) (programs : nat -> list O) (earlier later : config S O R) : Prop :=
    exists log since, explains log s programs earlier /\ explains (log ++ since) s programs later.
  (** all calls of the first n threads are over *)
  Definition all_over (n : nat) (c : config S O R) : Prop := forall t, (t < n)%nat -> todo (threads c t) = [].
End Serial.

(** A normal number: what each operation does to it and gives. *)
Definition number_effect (v : Z) (o : number_op) : Z * res answer :=
  match o with
  | InPlace b n => match py_binop b v n with Ok w => (w, Ok ASelf) | Err e => (v, Err e) end
  | Left b n => (v, match py_binop b v n with Ok w => Ok (ANumber w) | Err e => Err e end)
  | Right b n => (v, match py_binop b n v with Ok w => Ok (ANumber w) | Err e => Err e end)
  | Compare c n => (v, Ok (ABool (py_compare c v n)))
  | Unary u => (v, Ok (ANumber (py_unop u v)))
  | Truth => (v, Ok (ABool (negb (v =? 0))))
  end.
Definition no_mod (o : number_op) : Prop :=
  match o with InPlace Mod _ | Left Mod _ | Right Mod _ => False | _ => True end.

Definition insert_effect {A} (eqb : A -> A -> bool) (s : list A) (item : A) : list A * bool :=
  if memb eqb item s then (s, false) else (item :: s, true).

(** how many calls for [x] of the first n threads are over, and how many returned True *)
Definition over {A} (eqb : A -> A -> bool) (programs : nat -> list A) (c : config (list A) A bool) (x : A) (t : nat) : list (A * bool) :=
  filter (fun e => eqb (fst e) x) (combine (programs t) (results (threads c t))).
Definition calls_over {A} (eqb : A -> A -> bool) programs c (x : A) (n : nat) : list (A * bool) :=
  flat_map (over eqb programs c x) (seq 0 n).

Definition sum (l : list Z) : Z := fold_right Z.add 0 l.
