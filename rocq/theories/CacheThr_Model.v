(** CacheDict (/repo/satella/coding/structures/dictionaries/cache_dict.py) used by many threads. There is no lock: here an operation of a
    dictionary or set of Python is one step, and threads take turns between any two of them. The attributes are those of
    CacheDict_Model.v, where a call is one step. Background refreshes are run by threads of the executor. *)
From Verif Require Import Prelude CacheDict_Model.
Set Implicit Arguments.

Section Threads.
  Context {K V : Type}.
  Variable eqb : K -> K -> bool.
  Variable c : cfg V.                        (* c_max is not used: a CacheDict, not an LRUCacheDict *)
  Notation cst := (cst K V).

  (** what a thread does: calls of users, and [ORefresh] for a thread of the executor *)
  Inductive op := OGet (k : K) | OSet (k : K) (v : V) | ODel (k : K) | OInvalidate (k : K) | ORefresh (k : K).
  (** [RNone]: the method returns None *)
  Inductive result := RValue (v : V) | RNone | RRaise (e : exn) | RDone.

  (** where a thread is; the numbers are lines of cache_dict.py *)
  Inductive after_store := Return (v : V) | Quiet.                    (* get_value_block; __setitem__ by others *)
  Inductive after_del := FromUser | Silenced | Failed (background : bool).   (* del d[k]; invalidate; _on_failure *)
  Inductive pc :=
  | InData | InMissed                       (* 216 *)
  | Stamp                                   (* 219 *)
  | Clock (ts : Z)                          (* 220 *)
  | Which (ts now : Z)                      (* 222 *)
  | Empty (ts now : Z)                      (* 206 *)
  | Read                                    (* 232, 234 *)
  | Waiting (background : bool)             (* 148-150; 178, 182: the getter runs *)
  | Store1 (v : V) (a : after_store)        (* 246 *)
  | Store2 (a : after_store)                (* 247 *)
  | Store3 (a : after_store)                (* 249 *)
  | Del1 (a : after_del)                    (* 237 *)
  | Del2 (a : after_del)                    (* 238 *)
  | Del3 (a : after_del)                    (* 240 *)
  | Miss1 (background : bool)               (* 168 *)
  | Miss2 (background : bool).              (* 169 *)
  Inductive next := Go (p : pc) | End (r : result).

  (** 151-156; the callback of a refresh (185) just ends *)
  Definition missing (background : bool) : next :=
    if background then End RDone else match c_default c with Some v => End (RValue v) | None => End (RRaise KeyError) end.
  Definition stored (a : after_store) : next := match a with Return v => End (RValue v) | Quiet => End RDone end.
  (** 160-169, after the invalidation *)
  Definition failed (background : bool) : next := match c_fail c with Some _ => Go (Miss1 background) | None => missing background end.
  Definition deleted (a : after_del) : next := match a with Failed b => failed b | _ => End RDone end.
  (** the KeyError of a del statement: 191 silences it *)
  Definition not_there (a : after_del) : next := match a with FromUser => End (RRaise KeyError) | _ => deleted a end.

  Definition set_data (s : cst) d : cst := {| cd_data := d; cd_ts := cd_ts s; cd_missed := cd_missed s; cd_lru := cd_lru s; cd_pending := cd_pending s |}.
  Definition set_ts (s : cst) d : cst := {| cd_data := cd_data s; cd_ts := d; cd_missed := cd_missed s; cd_lru := cd_lru s; cd_pending := cd_pending s |}.
  Definition set_missed (s : cst) l : cst := {| cd_data := cd_data s; cd_ts := cd_ts s; cd_missed := l; cd_lru := cd_lru s; cd_pending := cd_pending s |}.
  Definition set_pending (s : cst) l : cst := {| cd_data := cd_data s; cd_ts := cd_ts s; cd_missed := cd_missed s; cd_lru := cd_lru s; cd_pending := l |}.

  (** One step for the key [k]. [g] is what the getter answers, [mono] what time.monotonic() says, [now] what time_getter() says, if asked.
      The scheduling of a refresh (231) and the reading after it are two steps. *)
  Definition advance (k : K) (p : pc) (s : cst) (g : res V) (mono now : Z) : cst * next :=
    match p with
    | InData => (s, Go (if dmem eqb (cd_data s) k then Stamp else InMissed))
    | InMissed => (s, Go (if memb eqb k (cd_missed s) then Stamp else Waiting false))
    | Stamp => (s, match dget eqb (cd_ts s) k with Some ts => Go (Clock ts) | None => End (RRaise KeyError) end)
    | Clock ts => (s, Go (Which ts mono))
    | Which ts t =>
      if memb eqb k (cd_missed s) then (s, Go (Empty ts t))
      else if Z.ltb (c_exp c) (t - ts) then (s, Go (Waiting false))                             (* 228-229 *)
      else if Z.ltb (c_stale c) (t - ts) then (set_pending s (cd_pending s ++ [k]), Go Read)    (* 230-231 *)
      else (s, Go Read)
    | Empty ts t =>
      (s, if memb eqb k (cd_missed s)
          then match c_fail c with
               | None => End (RRaise TypeError)
               | Some f => if Z.ltb f (t - ts) then Go (Waiting false) else missing false       (* 207-213 *)
               end
          else End RNone)                                                                       (* the end of the method *)
    | Read => (s, match dget eqb (cd_data s) k with Some v => End (RValue v) | None => End (RRaise KeyError) end)
    | Waiting b =>
      (s, match g with
          | Ok v => Go (Store1 v (if b then Quiet else Return v))                               (* 157, 187 *)
          | Err KeyError => Go (Del1 (Failed b))
          | Err e => if b then End RDone else End (RRaise e)
          end)
    | Store1 v a => (set_data s (dset eqb (cd_data s) k v), Go (Store2 a))
    | Store2 a => (set_ts s (dset eqb (cd_ts s) k now), Go (Store3 a))
    | Store3 a => (set_missed s (remove_first eqb k (cd_missed s)), stored a)
    | Del1 a => if dmem eqb (cd_data s) k then (set_data s (ddel eqb (cd_data s) k), Go (Del2 a)) else (s, not_there a)
    | Del2 a => if dmem eqb (cd_ts s) k then (set_ts s (ddel eqb (cd_ts s) k), Go (Del3 a)) else (s, not_there a)
    | Del3 a => (set_missed s (remove_first eqb k (cd_missed s)), deleted a)
    | Miss1 b => (set_missed s (if memb eqb k (cd_missed s) then cd_missed s else cd_missed s ++ [k]), Go (Miss2 b))
    | Miss2 b => (set_ts s (dset eqb (cd_ts s) k now), missing b)
    end.

  Definition key_of (o : op) : K := match o with OGet k | OSet k _ | ODel k | OInvalidate k | ORefresh k => k end.
  (** 142, 171, 191, 215, 236, 242: the first step *)
  Definition begin (o : op) : pc :=
    match o with
    | OGet _ => InData
    | OSet _ v => Store1 v Quiet
    | ODel _ => Del1 FromUser
    | OInvalidate _ => Del1 Silenced
    | ORefresh _ => Waiting true
    end.

  (** [asked]: what the getter answered, to which keys; [log]: the calls that are over. Newest last. *)
  Record world := { cache : cst; threads : nat -> option (op * pc); asked : list (K * res V); log : list (nat * op * result) }.
  Definition start (s : cst) : world := {| cache := s; threads := fun _ => None; asked := []; log := [] |}.
  Definition put (f : nat -> option (op * pc)) (t : nat) (x : option (op * pc)) : nat -> option (op * pc) := fun u => if Nat.eqb u t then x else f u.

  (** [Call t o]: an idle thread calls a method; [Work t i]: an idle thread of the executor takes up the refresh number [i] waiting; [Turn t]: one
      step of a thread. Other events do nothing. *)
  Inductive event := Call (t : nat) (o : op) | Work (t i : nat) | Turn (t : nat) (g : res V) (mono now : Z).
  Definition enter (w : world) (t : nat) (o : op) (s : cst) : world :=
    match threads w t with
    | None => {| cache := s; threads := put (threads w) t (Some (o, begin o)); asked := asked w; log := log w |}
    | Some _ => w
    end.
  Definition step (w : world) (e : event) : world :=
    match e with
    | Call t (ORefresh _) => w
    | Call t o => enter w t o (cache w)
    | Work t i =>
      match nth_error (cd_pending (cache w)) i with
      | Some k => enter w t (ORefresh k) (set_pending (cache w) (del_nth i (cd_pending (cache w))))
      | None => w
      end
    | Turn t g mono now =>
      match threads w t with
      | None => w
      | Some (o, p) =>
        let k := key_of o in
        let (s, n) := advance k p (cache w) g mono now in
        {| cache := s;
           threads := put (threads w) t (match n with Go p' => Some (o, p') | End _ => None end);
           asked := match p with Waiting _ => asked w ++ [(k, g)] | _ => asked w end;
           log := match n with Go _ => log w | End r => log w ++ [(t, o, r)] end |}
      end
    end.
  Definition exec (w : world) (l : list event) : world := fold_left step l w.
End Threads.
Arguments op : clear implicits.
Arguments result : clear implicits.
Arguments pc : clear implicits.
Arguments next : clear implicits.
Arguments event : clear implicits.
Arguments world : clear implicits.
Arguments Work {K V} t i.
Arguments OGet {K V} k.
Arguments ODel {K V} k.
Arguments OInvalidate {K V} k.
Arguments ORefresh {K V} k.
Arguments RNone {V}.
Arguments RDone {V}.
Arguments RRaise {V} e.
Arguments Call {K V} t o.
Arguments Turn {K V} t g mono now.
