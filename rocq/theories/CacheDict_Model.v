(** /repo/satella/coding/structures/lru.py and
    /repo/satella/coding/structures/dictionaries/cache_dict.py: CacheDict and
    LRUCacheDict.  Calls are atomic; the background refreshes scheduled on the
    executor complete as separate events. Times are integers. *)
From Verif Require Import Prelude.

Set Implicit Arguments.

Section CacheDict.
  Context {K V : Type}.
  Variable eqb : K -> K -> bool.

  (** ** LRU (lru.py): the OrderedDict is the list of its keys, oldest first *)
  Definition lru_add (l : list K) (k : K) : list K :=                (* 21-22 *)
    if memb eqb k l then l else l ++ [k].
  Definition lru_remove (l : list K) (k : K) : list K * option exn := (* 24-25 *)
    if memb eqb k l then (remove_first eqb k l, None) else (l, Some KeyError).
  Definition lru_mark (l : list K) (k : K) : list K :=               (* 27-31 *)
    if memb eqb k l then remove_first eqb k l ++ [k] else l ++ [k].
  Definition lru_evict (l : list K) : list K * res K :=              (* 33-37 *)
    match l with [] => (l, Err KeyError) | k :: t => (t, Ok k) end.

  (** ** Configuration (cache_dict.py 120-140, 259-263); time strings are
      already numbers. [c_default] is what default_value_factory() returns. *)
  Record cfg := {
    c_stale : Z; c_exp : Z;
    c_fail : option Z;              (* cache_failures_interval *)
    c_default : option V;           (* default_value_factory *)
    c_max : option nat              (* Some max_size for LRUCacheDict *)
  }.
  Variable c : cfg.

  Record cst := {
    cd_data : dict K V;
    cd_ts : dict K Z;
    cd_missed : list K;
    cd_lru : list K;                (* LRUCacheDict only *)
    cd_pending : list K             (* refreshes submitted and not yet done *)
  }.
  Definition cd_init : cst :=
    {| cd_data := []; cd_ts := []; cd_missed := []; cd_lru := []; cd_pending := [] |}.

  Definition set_lru (s : cst) (l : list K) : cst :=
    {| cd_data := cd_data s; cd_ts := cd_ts s; cd_missed := cd_missed s; cd_lru := l; cd_pending := cd_pending s |}.

  (** ** CacheDict's own methods *)
  (** 236-240 __delitem__ *)
  Definition base_delitem (s : cst) (k : K) : cst * option exn :=
    if dmem eqb (cd_data s) k then
      let d := ddel eqb (cd_data s) k in
      if dmem eqb (cd_ts s) k then
        ({| cd_data := d; cd_ts := ddel eqb (cd_ts s) k; cd_missed := remove_first eqb k (cd_missed s);
            cd_lru := cd_lru s; cd_pending := cd_pending s |}, None)
      else ({| cd_data := d; cd_ts := cd_ts s; cd_missed := cd_missed s;
               cd_lru := cd_lru s; cd_pending := cd_pending s |}, Some KeyError)
    else (s, Some KeyError).

  (** 242-249 __setitem__ at time_getter() = t *)
  Definition base_setitem (s : cst) (k : K) (v : V) (t : Z) : cst :=
    {| cd_data := dset eqb (cd_data s) k v; cd_ts := dset eqb (cd_ts s) k t;
       cd_missed := remove_first eqb k (cd_missed s);
       cd_lru := cd_lru s; cd_pending := cd_pending s |}.

  (** 90-95 feed: [timestamp or self.time_getter()] *)
  Definition base_feed (s : cst) (k : K) (v : V) (timestamp : option Z) (t : Z) : cst :=
    let ts := match timestamp with
              | Some x => if Z.eqb x 0 then t else x
              | None => t
              end in
    {| cd_data := dset eqb (cd_data s) k v; cd_ts := dset eqb (cd_ts s) k ts;
       cd_missed := cd_missed s; cd_lru := cd_lru s; cd_pending := cd_pending s |}.

  (** 97-118 has_info_about *)
  Definition cd_has_info (s : cst) (k : K) (t : Z) : bool :=
    let check := match dget eqb (cd_ts s) k with
                 | Some ts => Z.leb (t - ts) (c_exp c)
                 | None => false
                 end in
    if dmem eqb (cd_data s) k then check
    else match c_fail c with
         | Some _ => if memb eqb k (cd_missed s) then check else false
         | None => false
         end.

  (** ** The overridable methods *)
  (** 301-303 LRUCacheDict.__delitem__ *)
  Definition cd_delitem (s : cst) (k : K) : cst * option exn :=
    match c_max c with
    | None => base_delitem s k
    | Some _ =>
      match base_delitem s k with
      | (s', Some e) => (s', Some e)
      | (s', None) => let (l, e) := lru_remove (cd_lru s') k in (set_lru s' l, e)
      end
    end.

  (** 191-203 invalidate, silencing KeyError (the only exception raised) *)
  Definition base_invalidate (s : cst) (k : K) : cst := fst (cd_delitem s k).
  (** 277-290 LRUCacheDict.invalidate *)
  Definition cd_invalidate (s : cst) (k : K) : cst :=
    match c_max c with
    | None => base_invalidate s k
    | Some _ => let s' := base_invalidate s k in set_lru s' (fst (lru_remove (cd_lru s') k))
    end.

  (** 272-275 evict, silencing the KeyError of an empty LRU *)
  Definition cd_evict (s : cst) : cst :=
    match lru_evict (cd_lru s) with
    | (_, Err _) => s
    | (l, Ok k) => cd_invalidate (set_lru s l) k
    end.

  (** 265-270 make_room.  Every productive round shortens the LRU; with an empty
      LRU the loop repeats a no-op, so running out of [fuel] = S (length lru)
      rounds is an endless loop: [Diverges]. *)
  Fixpoint cd_make_room (fuel : nat) (max : nat) (s : cst) : cst * option exn :=
    if Nat.ltb (max - 1) (length (cd_data s)) then
      match fuel with
      | O => (s, Some Diverges)
      | S f => cd_make_room f max (cd_evict s)
      end
    else (s, None).

  (** 314-320 LRUCacheDict.__setitem__ *)
  Definition cd_setitem (s : cst) (k : K) (v : V) (t : Z) : cst * option exn :=
    match c_max c with
    | None => (base_setitem s k v t, None)
    | Some m =>
      match cd_make_room (S (length (cd_lru s))) m s with
      | (s', Some e) => (s', Some e)
      | (s', None) => (base_setitem (set_lru s' (lru_mark (cd_lru s') k)) k v t, None)
      end
    end.

  (** 305-312 LRUCacheDict.feed *)
  Definition cd_feed (s : cst) (k : K) (v : V) (timestamp : option Z) (t : Z) : cst * option exn :=
    match c_max c with
    | None => (base_feed s k v timestamp t, None)
    | Some m =>
      let r := if dmem eqb (cd_data s) k then (s, None)
               else cd_make_room (S (length (cd_lru s))) m s in
      match r with
      | (s', Some e) => (s', Some e)
      | (s', None) => let s2 := base_feed s' k v timestamp t in
                      (set_lru s2 (lru_add (cd_lru s2) k), None)
      end
    end.

  (** 160-169 _on_failure at time_getter() = t *)
  Definition cd_on_failure (s : cst) (k : K) (t : Z) : cst :=
    let s1 := cd_invalidate s k in
    match c_fail c with
    | None => s1
    | Some _ =>
      {| cd_data := cd_data s1; cd_ts := dset eqb (cd_ts s1) k t;
         cd_missed := if memb eqb k (cd_missed s1) then cd_missed s1 else cd_missed s1 ++ [k];
         cd_lru := cd_lru s1; cd_pending := cd_pending s1 |}
    end.

  Definition miss_result : res V :=
    match c_default c with Some v => Ok v | None => Err KeyError end.

  (** 142-158, 296-299 get_value_block: [g] is the outcome of value_getter(key),
      [t] what time_getter() says when the outcome is recorded *)
  Definition cd_get_value_block (s : cst) (k : K) (g : res V) (t : Z) : cst * res V :=
    match g with
    | Err KeyError =>
      let s1 := cd_on_failure s k t in
      match miss_result with
      | Ok v => (match c_max c with None => s1 | Some _ => set_lru s1 (lru_add (cd_lru s1) k) end, Ok v)
      | Err e => (s1, Err e)
      end
    | Err e => (s, Err e)
    | Ok v =>
      match cd_setitem s k v t with
      | (s', Some e) => (s', Err e)
      | (s', None) =>
        (match c_max c with None => s' | Some _ => set_lru s' (lru_add (cd_lru s') k) end, Ok v)
      end
    end.

  (** One read: [r_mono] is time.monotonic(), [r_now] is what the configured
      time_getter would say at the same moment (the code does not ask it),
      [r_getter] the outcome of value_getter if it is called, [r_done] the
      time_getter() reading after that. *)
  Record read := { r_mono : Z; r_now : Z; r_getter : res V; r_done : Z }.

  (** result of a read, was value_getter called and waited for, was a background refresh scheduled *)
  Record got := { g_res : res V; g_called : bool; g_scheduled : bool }.

  Definition called (p : cst * res V) : cst * got :=
    (fst p, {| g_res := snd p; g_called := true; g_scheduled := false |}).
  Definition served (s : cst) (r : res V) : cst * got :=
    (s, {| g_res := r; g_called := false; g_scheduled := false |}).

  (** 215-234, 292-294 __getitem__ *)
  Definition cd_getitem (s0 : cst) (k : K) (r : read) : cst * got :=
    let s := match c_max c with None => s0 | Some _ => set_lru s0 (lru_mark (cd_lru s0) k) end in
    if negb (dmem eqb (cd_data s) k) && negb (memb eqb k (cd_missed s)) then
      called (cd_get_value_block s k (r_getter r) (r_done r))
    else
      match dget eqb (cd_ts s) k with
      | None => served s (Err KeyError)
      | Some ts =>
        if memb eqb k (cd_missed s) then                       (* 205-213 *)
          match c_fail c with
          | None => served s (Err TypeError)                   (* comparison with None; not reached *)
          | Some f => if Z.ltb f (r_mono r - ts)
                      then called (cd_get_value_block s k (r_getter r) (r_done r))
                      else served s miss_result
          end
        else                                                   (* 227-234 *)
          if Z.ltb (c_exp c) (r_mono r - ts)
          then called (cd_get_value_block s k (r_getter r) (r_done r))
          else
            let v := match dget eqb (cd_data s) k with Some v => Ok v | None => Err KeyError end in
            if Z.ltb (c_stale c) (r_mono r - ts)
            then ({| cd_data := cd_data s; cd_ts := cd_ts s; cd_missed := cd_missed s;
                     cd_lru := cd_lru s; cd_pending := cd_pending s ++ [k] |},
                  {| g_res := v; g_called := false; g_scheduled := true |})
            else served s v
      end.

  (** 180-188 on_done_callback of the refresh number [i] still pending; other
      exceptions of the getter are logged by the executor and dropped *)
  Definition cd_complete (s : cst) (i : nat) (g : res V) (t : Z) : cst * res K :=
    match nth_error (cd_pending s) i with
    | None => (s, Err IndexError)
    | Some k =>
      let s1 := {| cd_data := cd_data s; cd_ts := cd_ts s; cd_missed := cd_missed s;
                   cd_lru := cd_lru s; cd_pending := del_nth i (cd_pending s) |} in
      match g with
      | Ok v => match cd_setitem s1 k v t with
                | (s2, None) => (s2, Ok k)
                | (s2, Some e) => (s2, Err e)
                end
      | Err KeyError => (cd_on_failure s1 k t, Ok k)
      | Err _ => (s1, Ok k)
      end
    end.

  Inductive cd_op :=
  | CGet (k : K) (r : read)
  | CSet (k : K) (v : V) (t : Z)
  | CFeed (k : K) (v : V) (timestamp : option Z) (t : Z)
  | CDel (k : K)
  | CInvalidate (k : K)
  | CHasInfo (k : K) (t : Z)
  | CLen
  | CKeys
  | CComplete (i : nat) (g : res V) (t : Z).
  Inductive cd_out :=
  | CONone
  | COGot (g : got)
  | COBool (b : bool)
  | CONat (n : nat)
  | COKeys (l : list K)
  | CODone (k : K)
  | CORaise (e : exn).

  Definition unit_out (p : cst * option exn) : cst * cd_out :=
    (fst p, match snd p with None => CONone | Some e => CORaise e end).

  Definition cd_step (s : cst) (o : cd_op) : cst * cd_out :=
    match o with
    | CGet k r => let (s', g) := cd_getitem s k r in (s', COGot g)
    | CSet k v t => unit_out (cd_setitem s k v t)
    | CFeed k v ts t => unit_out (cd_feed s k v ts t)
    | CDel k => unit_out (cd_delitem s k)
    | CInvalidate k => (cd_invalidate s k, CONone)
    | CHasInfo k t => (s, COBool (cd_has_info s k t))
    | CLen => (s, CONat (length (cd_data s)))                 (* 84-85 *)
    | CKeys => (s, COKeys (dkeys (cd_data s)))                (* 87-88 *)
    | CComplete i g t => match cd_complete s i g t with
                         | (s', Ok k) => (s', CODone k)
                         | (s', Err e) => (s', CORaise e)
                         end
    end.

  Fixpoint cd_run (s : cst) (ops : list cd_op) : list cd_out * cst :=
    match ops with
    | [] => ([], s)
    | o :: t => let (s1, out) := cd_step s o in
                let (outs, s') := cd_run s1 t in (out :: outs, s')
    end.
End CacheDict.
Arguments cfg : clear implicits.
Arguments cst : clear implicits.
Arguments cd_op : clear implicits.
Arguments cd_out : clear implicits.
Arguments read : clear implicits.
Arguments got : clear implicits.
