(** Specification of ExpiringEntryDict: what was stored under which key and when. *)
From Verif Require Import Prelude Expiring_Model.
Local Open Scope Z_scope.
Set Implicit Arguments.

Section Spec.
  Context {K V : Type}.
  Variable eqK : K -> K -> bool.
  Variable timeout : Z.

  (** key, value and the time of storing *)
  Definition book := dict K (V * Z).

  (** what a user sees under k at time t *)
  Definition visible (b : book) (k : K) (t : Z) : option V :=
    match dget eqK b k with
    | Some (v, t0) => if t <=? t0 + timeout then Some v else None
    | None => None
    end.

  Definition visible_keys (b : book) (t : Z) (l : list K) : Prop :=
    NoDup l /\ forall k, In k l <-> visible b k t <> None.

  Definition ex_answer (b : book) (o : ex_op K V) (out : ex_out K V) : Prop :=
    match o with
    | EGet k t => out = match visible b k t with Some v => EOVal v | None => EORaise KeyError end
    | EGetD k d t => out = match visible b k t with Some v => EOVal v | None => EOVal d end
    | ESet _ _ _ => out = EONone
    | EDel k t => out = match visible b k t with Some _ => EONone | None => EORaise KeyError end
    | EPop k t => out = match visible b k t with Some v => EOVal v | None => EORaise KeyError end
    | ESetDefault k v t _ => out = match visible b k t with Some v0 => EOVal v0 | None => EOVal v end
    | EContains k t => out = EOBool (match visible b k t with Some _ => true | None => false end)
    | ELen t => exists l, visible_keys b t l /\ out = EONat (length l)
    | EIter t => exists l, visible_keys b t l /\ out = EOKeys l
    | ECleanup _ => out = EONone
    | EGetTimestamp k t =>
      out = match visible b k t, dget eqK b k with
            | Some _, Some (_, t0) => EOTime t0
            | _, _ => EORaise KeyError
            end
    end.

  (** what is stored after the call *)
  Definition book_after (b : book) (o : ex_op K V) : book :=
    match o with
    | ESet k v t => dset eqK b k (v, t)
    | EDel k t | EPop k t => match visible b k t with Some _ => ddel eqK b k | None => b end
    | ESetDefault k v t t2 => match visible b k t with Some _ => b | None => dset eqK b k (v, t2) end
    | _ => b
    end.

  Inductive ex_session : book -> list (ex_op K V) -> list (ex_out K V) -> Prop :=
  | exs_nil b : ex_session b [] []
  | exs_cons b o out ops outs :
      ex_answer b o out -> ex_session (book_after b o) ops outs -> ex_session b (o :: ops) (out :: outs).

  (** clock readings of a call, in order *)
  Definition readings (o : ex_op K V) : Z * Z :=
    match o with
    | EGet _ t | EGetD _ _ t | ESet _ _ t | EDel _ t | EPop _ t | EContains _ t
    | ELen t | EIter t | ECleanup t | EGetTimestamp _ t => (t, t)
    | ESetDefault _ _ t t2 => (t, t2)
    end.
  (** the clock never goes back *)
  Fixpoint clock_ok (now : Z) (ops : list (ex_op K V)) : Prop :=
    match ops with
    | [] => True
    | o :: t => now <= fst (readings o) /\ fst (readings o) <= snd (readings o) /\ clock_ok (snd (readings o)) t
    end.

  (** Calls on which ExpiringEntryDict deviates: get_timestamp, deleting a key
      that is not visible, and in, len, iteration or cleanup after a key was
      read when already expired and not stored again since. [late] are such keys. *)
  Definition expired (b : book) (k : K) (t : Z) : bool :=
    match dget eqK b k with Some _ => match visible b k t with Some _ => false | None => true end | None => false end.
  Definition ex_safe (b : book) (late : list K) (o : ex_op K V) : bool :=
    match o with
    | EDel k t => match visible b k t with Some _ => true | None => false end
    | EContains k _ => negb (memb eqK k late)
    | ELen _ | EIter _ | ECleanup _ => match late with [] => true | _ => false end
    | EGetTimestamp _ _ => false
    | _ => true
    end.
  Definition late_after (b : book) (late : list K) (o : ex_op K V) : list K :=
    match o with
    | EGet k t | EGetD k _ t | EPop k t => if expired b k t then k :: late else late
    | ESet k _ _ => filter (fun x => negb (eqK x k)) late
    | ESetDefault k _ t _ => if expired b k t then filter (fun x => negb (eqK x k)) late else late
    | _ => late
    end.
  (** len, iteration, cleanup and in discard the expired entries they come
      across, so a later read of such a key is harmless *)
  Definition swept (b : book) (o : ex_op K V) : book :=
    match o with
    | ELen t | EIter t | ECleanup t => filter (fun e => t <=? snd (snd e) + timeout) b
    | EContains k t => match visible b k t with Some _ => b | None => ddel eqK b k end
    | _ => book_after b o
    end.
  Fixpoint ex_safe_session (b : book) (late : list K) (ops : list (ex_op K V)) : bool :=
    match ops with
    | [] => true
    | o :: t => ex_safe b late o && ex_safe_session (swept b o) (late_after b late o) t
    end.
End Spec.
Arguments book : clear implicits.
