(** Specification of CacheDict (C08) by what happened before: the only thing
    that matters for a key is the last event that concerned it. And the
    specification of the LRU policy of LRUCacheDict (C07). *)
From Verif Require Import Prelude CacheDict_Model.
Local Open Scope Z_scope.
Set Implicit Arguments.

Section Spec.
  Context {K V : Type}.
  Variable eqb : K -> K -> bool.
  Variable c : cfg V.

  (** a call and its answer *)
  Definition event := (cd_op K V * cd_out K V)%type.

  (** what is known about a key *)
  Inductive info := Nothing | Value (v : V) (t : Z) | Miss (t : Z).

  (** a KeyError of the getter at time t: remembered iff so configured *)
  Definition failure_at (t : Z) : info := match c_fail c with Some _ => Miss t | None => Nothing end.

  (** effect of the getter's outcome on the key it was asked for *)
  Definition loaded (g : res V) (t : Z) (old : info) : info :=
    match g with
    | Ok v => Value v t
    | Err KeyError => failure_at t
    | Err _ => old
    end.

  Definition info_after (e : event) (k : K) (old : info) : info :=
    match e with
    | (CGet k' r, COGot g) => if eqb k' k then (if g_called g then loaded (r_getter r) (r_done r) old else old) else old
    | (CSet k' v t, _) => if eqb k' k then Value v t else old
    | (CFeed k' v ts t, _) => if eqb k' k then Value v (match ts with Some x => x | None => t end) else old
    | (CDel k', CONone) => if eqb k' k then Nothing else old
    | (CInvalidate k', _) => if eqb k' k then Nothing else old
    | (CComplete _ g t, CODone k') => if eqb k' k then loaded g t old else old
    | _ => old
    end.

  (** [hist] is newest first *)
  Fixpoint last_info (hist : list event) (k : K) : info :=
    match hist with
    | [] => Nothing
    | e :: h => info_after e k (last_info h k)
    end.

  (** background refreshes submitted and not yet finished *)
  Fixpoint outstanding (hist : list event) : list K :=
    match hist with
    | [] => []
    | e :: h =>
      match e with
      | (CGet k _, COGot g) => if g_scheduled g then outstanding h ++ [k] else outstanding h
      | (CComplete i _ _, CODone _) => del_nth i (outstanding h)
      | _ => outstanding h
      end
    end.

  Definition miss_answer : res V := match c_default c with Some v => Ok v | None => Err KeyError end.

  (** the getter was called and its outcome is passed on *)
  Definition asked (r : read V) (g : got V) : Prop :=
    g_called g = true /\ g_scheduled g = false /\
    g_res g = match r_getter r with Err KeyError => miss_answer | x => x end.

  (** the keys holding a value *)
  Definition holds_keys (hist : list event) (l : list K) : Prop :=
    NoDup l /\ forall k, In k l <-> exists v t, last_info hist k = Value v t.

  Definition cd_answer (hist : list event) (o : cd_op K V) (out : cd_out K V) : Prop :=
    match o with
    | CGet k r =>
      exists g, out = COGot g /\
      match last_info hist k with
      | Nothing => asked r g
      | Value v t0 =>
        if r_now r - t0 <=? c_exp c
        then g_called g = false /\ g_res g = Ok v /\ g_scheduled g = negb (r_now r - t0 <=? c_stale c)
        else asked r g
      | Miss t0 =>
        match c_fail c with
        | Some f => if r_now r - t0 <=? f
                    then g_called g = false /\ g_scheduled g = false /\ g_res g = miss_answer
                    else asked r g
        | None => False
        end
      end
    | CSet _ _ _ | CFeed _ _ _ _ | CInvalidate _ => out = CONone
    | CDel k => match last_info hist k with Value _ _ => out = CONone | _ => out = CORaise KeyError end
    | CHasInfo k t =>
      exists b, out = COBool b /\
      match last_info hist k with
      | Nothing => b = false
      | Value _ t0 => b = (t - t0 <=? c_exp c)
      | Miss t0 => match c_fail c with Some f => b = (t - t0 <=? f) | None => False end
      end
    | CLen => exists l, holds_keys hist l /\ out = CONat (length l)
    | CKeys => exists l, holds_keys hist l /\ out = COKeys l
    | CComplete i _ _ =>
      match nth_error (outstanding hist) i with
      | Some k => out = CODone k
      | None => out = CORaise IndexError
      end
    end.

  Inductive cd_session : list event -> list (cd_op K V) -> list (cd_out K V) -> Prop :=
  | cds_nil h : cd_session h [] []
  | cds_cons h o out ops outs :
      cd_answer h o out -> cd_session ((o, out) :: h) ops outs -> cd_session h (o :: ops) (out :: outs).

  (** Calls on which CacheDict deviates: feeding, invalidating or has_info_about
      of a key with a remembered failure, feeding with timestamp 0, and reading
      when time_getter is not time.monotonic. *)
  Definition is_miss (i : info) : bool := match i with Miss _ => true | _ => false end.
  Definition benign (hist : list event) (o : cd_op K V) : bool :=
    match o with
    | CGet _ r => r_mono r =? r_now r
    | CFeed k _ ts _ => negb (is_miss (last_info hist k)) && match ts with Some x => negb (x =? 0) | None => true end
    | CInvalidate k => negb (is_miss (last_info hist k))
    | CHasInfo k _ => negb (is_miss (last_info hist k))
    | _ => true
    end.
  (** every call of the session is benign at its time *)
  Fixpoint benign_session (hist : list event) (ops : list (cd_op K V)) (outs : list (cd_out K V)) : bool :=
    match ops, outs with
    | o :: ops', out :: outs' => benign hist o && benign_session ((o, out) :: hist) ops' outs'
    | _, _ => true
    end.

  (** the value v was produced or stored for k at time t0 by that event *)
  Definition stores (e : event) (k : K) (v : V) (t0 : Z) : Prop :=
    match e with
    | (CGet k' r, COGot g) => k' = k /\ g_called g = true /\ r_getter r = Ok v /\ r_done r = t0
    | (CSet k' v' t, _) => k' = k /\ v' = v /\ t = t0
    | (CFeed k' v' ts t, _) => k' = k /\ v' = v /\ t0 = match ts with Some x => x | None => t end
    | (CComplete _ g t, CODone k') => k' = k /\ g = Ok v /\ t = t0
    | _ => False
    end.

  (** ** C07: the cache as a list of entries, least recently used first *)
  Definition without (k : K) (l : list (K * V)) : list (K * V) :=
    filter (fun e => negb (eqb (fst e) k)) l.
  (** using k makes it the most recent *)
  Definition used (k : K) (l : list (K * V)) : list (K * V) :=
    without k l ++ match dget eqb l k with Some v => [(k, v)] | None => [] end.
  (** drop the least recently used entries until there is room for one more *)
  Definition room (max : nat) (l : list (K * V)) : list (K * V) := skipn (length l - (max - 1)) l.
  (** store a value as the most recently used entry *)
  Definition stored (max : nat) (k : K) (v : V) (l : list (K * V)) : list (K * V) :=
    without k (room max l) ++ [(k, v)].
  (** the same, evicting only when the key is new *)
  Definition stored_ideal (max : nat) (k : K) (v : V) (l : list (K * V)) : list (K * V) :=
    without k (match dget eqb l k with Some _ => l | None => room max l end) ++ [(k, v)].

  (** one call of an LRUCacheDict; [store] is how a new value enters *)
  Definition lru_outcome (store : K -> V -> list (K * V) -> list (K * V))
    (k : K) (g : res V) (l : list (K * V)) : list (K * V) :=
    match g with
    | Ok v => store k v l
    | Err KeyError => without k l
    | Err _ => l
    end.

  Inductive lru_step (store : K -> V -> list (K * V) -> list (K * V)) (l : list (K * V)) :
    cd_op K V -> cd_out K V -> list (K * V) -> Prop :=
  | ls_hit k r g v : g_called g = false -> dget eqb l k = Some v -> g_res g = Ok v ->
      lru_step store l (CGet k r) (COGot g) (used k l)
  | ls_miss k r g : g_called g = false -> dget eqb l k = None -> g_res g = miss_answer ->
      lru_step store l (CGet k r) (COGot g) l
  | ls_load k r g : asked r g -> lru_step store l (CGet k r) (COGot g) (lru_outcome store k (r_getter r) (used k l))
  | ls_set k v t : lru_step store l (CSet k v t) (CONone) (store k v l)
  | ls_feed k v ts t : lru_step store l (CFeed k v ts t) (CONone) (store k v l)
  | ls_del k : dget eqb l k <> None -> lru_step store l (CDel k) (CONone) (without k l)
  | ls_del_absent k : dget eqb l k = None -> lru_step store l (CDel k) (CORaise KeyError) l
  | ls_invalidate k : lru_step store l (CInvalidate k) (CONone) (without k l)
  | ls_has k t b : lru_step store l (CHasInfo k t) (COBool b) l
  | ls_len : lru_step store l (CLen) (CONat (length l)) l
  | ls_keys ks : Permutation ks (map fst l) -> lru_step store l (CKeys) (COKeys ks) l
  | ls_complete i g t k : lru_step store l (CComplete i g t) (CODone k) (lru_outcome store k g l)
  | ls_complete_none i g t : lru_step store l (CComplete i g t) (CORaise IndexError) l.

  Inductive lru_session (store : K -> V -> list (K * V) -> list (K * V)) (max : nat) :
    list (K * V) -> list (cd_op K V) -> list (cd_out K V) -> list (K * V) -> Prop :=
  | lrs_nil l : lru_session store max l [] [] l
  | lrs_cons l o out l1 ops outs l2 :
      lru_step store l o out l1 -> (length l1 <= max)%nat -> NoDup (map fst l1) ->
      lru_session store max l1 ops outs l2 -> lru_session store max l (o :: ops) (out :: outs) l2.

  (** What an LRUCacheDict answers, given the entries [l] it holds and what
      happened before: a held value is served for as long as it is fresh and
      refreshed in the background once it is stale, a remembered failure is
      served for as long as it is remembered, and otherwise the getter is asked. *)
  Definition lru_answer (hist : list event) (l : list (K * V)) (o : cd_op K V) (out : cd_out K V) : Prop :=
    match o with
    | CGet k r =>
      exists g, out = COGot g /\
      match dget eqb l k with
      | Some v =>
        exists t0, last_info hist k = Value v t0 /\
        if r_now r - t0 <=? c_exp c
        then g_called g = false /\ g_res g = Ok v /\ g_scheduled g = negb (r_now r - t0 <=? c_stale c)
        else asked r g
      | None =>
        match last_info hist k, c_fail c with
        | Miss t0, Some f =>
          if r_now r - t0 <=? f
          then g_called g = false /\ g_scheduled g = false /\ g_res g = miss_answer
          else asked r g
        | _, _ => asked r g
        end
      end
    | CHasInfo k t =>
      exists b, out = COBool b /\
      match dget eqb l k with
      | Some v => exists t0, last_info hist k = Value v t0 /\ b = (t - t0 <=? c_exp c)
      | None => b = false
      end
    | CComplete i _ _ =>
      match nth_error (outstanding hist) i with
      | Some k => out = CODone k
      | None => out = CORaise IndexError
      end
    | _ => True
    end.

  (** a session of an LRUCacheDict: the entries move as the policy says and every
      answer is the one above *)
  Inductive lru_fresh_session (store : K -> V -> list (K * V) -> list (K * V)) (max : nat) :
    list event -> list (K * V) -> list (cd_op K V) -> list (cd_out K V) -> Prop :=
  | lfs_nil h l : lru_fresh_session store max h l [] []
  | lfs_cons h l o out l1 ops outs :
      lru_step store l o out l1 -> lru_answer h l o out -> (length l1 <= max)%nat ->
      lru_fresh_session store max ((o, out) :: h) l1 ops outs ->
      lru_fresh_session store max h l (o :: ops) (out :: outs).

  Definition not_feed (o : cd_op K V) : bool := match o with CFeed _ _ _ _ => false | _ => true end.

  Definition diverged (out : cd_out K V) : Prop :=
    match out with
    | CORaise Diverges => True
    | COGot g => g_res g = Err Diverges
    | _ => False
    end.
  (** no getter outcome in the session is our marker for an endless loop *)
  Definition honest_getter (o : cd_op K V) : Prop :=
    match o with
    | CGet _ r => r_getter r <> Err Diverges
    | _ => True
    end.
End Spec.
Arguments event : clear implicits.
Arguments info : clear implicits.
