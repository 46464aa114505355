(** /repo/satella/coding/structures/dictionaries/objects.py: TwoWayDictionary,
    DirtyDict, DictionaryView, KeyAwareDefaultDict. *)
From Verif Require Import Prelude.

Set Implicit Arguments.

(** ** TwoWayDictionary (114-202).  One side: [f] is self.data, [b] is
    self.reverse_data; the reverse object is the same code with the two swapped
    (158-161). *)
Section OneSide.
  Context {A B : Type}.
  Variable eqA : A -> A -> bool.
  Variable eqB : B -> B -> bool.

  (** 176-187 __setitem__. The except clause covers the deletion of the old
      reverse entry too. *)
  Definition side_set (f : dict A B) (b : dict B A) (k : A) (v : B) : dict A B * dict B A * option exn :=
    if dmem eqB b v then (f, b, Some ValueError)
    else
      let b1 := match dget eqA f k with
                | Some prev => if dmem eqB b prev then ddel eqB b prev else b
                | None => b
                end in
      (dset eqA f k v, dset eqB b1 v k, None).

  (** 189-192 __delitem__ *)
  Definition side_del (f : dict A B) (b : dict B A) (k : A) : dict A B * dict B A * option exn :=
    match dget eqA f k with
    | None => (f, b, Some KeyError)
    | Some v => if dmem eqB b v
                then (ddel eqA f k, ddel eqB b v, None)
                else (ddel eqA f k, b, Some KeyError)
    end.
End OneSide.

Section TwoWay.
  Context {K V : Type}.
  Variable eqK : K -> K -> bool.
  Variable eqV : V -> V -> bool.

  Record twd := { tw_data : dict K V; tw_rev : dict V K }.

  (** 151-161 __init__: dict(data), then {v: k for k, v in data.items()} *)
  Definition tw_init (data : list (K * V)) : res twd :=
    let d := fold_left (fun acc e => dset eqK acc (fst e) (snd e)) data [] in
    let r := fold_left (fun acc e => dset eqV acc (snd e) (fst e)) d [] in
    if Nat.eqb (length r) (length d) then Ok {| tw_data := d; tw_rev := r |} else Err ValueError.

  (** Calls on the dictionary and, with prefix [R], on its [reverse]. [TWPop] is
      pop(k) and [TWPopItem] popitem() of MutableMapping; [TWDone] is done() and
      leaving the with block. *)
  Inductive tw_op :=
  | TWGet (k : K) | TWSet (k : K) (v : V) | TWDel (k : K) | TWPop (k : K) | TWPopItem | TWKeys | TWLen | TWContains (k : K)
  | RGet (v : V) | RSet (v : V) (k : K) | RDel (v : V) | RKeys | RLen
  | TWDone.
  Inductive tw_out :=
  | TWNone | TWVal (v : V) | TWKey (k : K) | TWItem (k : K) (v : V) | TWKeysOut (l : list K) | TWValsOut (l : list V)
  | TWNat (n : nat) | TWBool (b : bool) | TWRaise (e : exn).

  Definition tw_fwd (p : dict K V * dict V K * option exn) : twd * tw_out :=
    match p with
    | (f, b, e) => ({| tw_data := f; tw_rev := b |}, match e with None => TWNone | Some e => TWRaise e end)
    end.
  Definition tw_bwd (p : dict V K * dict K V * option exn) : twd * tw_out :=
    match p with
    | (b, f, e) => ({| tw_data := f; tw_rev := b |}, match e with None => TWNone | Some e => TWRaise e end)
    end.

  Definition tw_step (s : twd) (o : tw_op) : twd * tw_out :=
    match o with
    | TWGet k => (s, match dget eqK (tw_data s) k with Some v => TWVal v | None => TWRaise KeyError end)   (* 170-171 *)
    | TWSet k v => tw_fwd (side_set eqK eqV (tw_data s) (tw_rev s) k v)
    | TWDel k => tw_fwd (side_del eqK eqV (tw_data s) (tw_rev s) k)
    | TWPop k => match dget eqK (tw_data s) k with
                 | None => (s, TWRaise KeyError)
                 | Some v => match tw_fwd (side_del eqK eqV (tw_data s) (tw_rev s) k) with
                             | (s', TWNone) => (s', TWVal v)
                             | p => p
                             end
                 end
    | TWPopItem => match tw_data s with
                   | [] => (s, TWRaise KeyError)
                   | (k, _) :: _ =>
                     match dget eqK (tw_data s) k with
                     | None => (s, TWRaise KeyError)
                     | Some v => match tw_fwd (side_del eqK eqV (tw_data s) (tw_rev s) k) with
                                 | (s', TWNone) => (s', TWItem k v)
                                 | p => p
                                 end
                     end
                   end
    | TWKeys => (s, TWKeysOut (dkeys (tw_data s)))                            (* 194-195 *)
    | TWLen => (s, TWNat (length (tw_data s)))                                (* 173-174 *)
    | TWContains k => (s, TWBool (dmem eqK (tw_data s) k))
    | RGet v => (s, match dget eqV (tw_rev s) v with Some k => TWKey k | None => TWRaise KeyError end)
    | RSet v k => tw_bwd (side_set eqV eqK (tw_rev s) (tw_data s) v k)
    | RDel v => tw_bwd (side_del eqV eqK (tw_rev s) (tw_data s) v)
    | RKeys => (s, TWValsOut (dkeys (tw_rev s)))
    | RLen => (s, TWNat (length (tw_rev s)))
    | TWDone => (s, TWRaise AttributeError)   (* 142-149: [reverse] is a property without a setter *)
    end.
  Fixpoint tw_run (s : twd) (ops : list tw_op) : list tw_out * twd :=
    match ops with
    | [] => ([], s)
    | o :: t => let (s1, out) := tw_step s o in
                let (outs, s') := tw_run s1 t in (out :: outs, s')
    end.
End TwoWay.
Arguments twd : clear implicits.
Arguments tw_op : clear implicits.
Arguments tw_out : clear implicits.

(** ** DirtyDict (9-80) and KeyAwareDefaultDict (83-111) *)
Section Dirty.
  Context {K V : Type}.
  Variable eqK : K -> K -> bool.
  Variable eqV : V -> V -> bool.                (* [==] on values *)

  Record ddict := { dd_data : dict K V; dd_dirty : bool }.
  Definition dd_init (d : dict K V) : ddict := {| dd_data := d; dd_dirty := false |}.   (* 29-31 *)

  (** 38-43 __setitem__ *)
  Definition dd_setitem (s : ddict) (k : K) (v : V) : ddict :=
    let write := {| dd_data := dset eqK (dd_data s) k v; dd_dirty := true |} in
    match dget eqK (dd_data s) k with
    | Some v0 => if eqV v0 v then s else write
    | None => write
    end.
  (** 45-47 __delitem__ *)
  Definition dd_delitem (s : ddict) (k : K) : ddict * option exn :=
    if dmem eqK (dd_data s) k
    then ({| dd_data := ddel eqK (dd_data s) k; dd_dirty := true |}, None)
    else (s, Some KeyError).

  (** [DDSetDefault], [DDPop], [DDUpdate] are setdefault, pop and update of MutableMapping *)
  Inductive dd_op :=
  | DDGet (k : K) | DDSet (k : K) (v : V) | DDDel (k : K) | DDContains (k : K) | DDLen | DDKeys | DDBool
  | DDClearDirty | DDSwap | DDCopyClear | DDCopy
  | DDSetDefault (k : K) (v : V) | DDPop (k : K) | DDUpdate (l : list (K * V))
  | DDIsDirty.
  Inductive dd_out :=
  | DDNone | DDVal (v : V) | DDB (b : bool) | DDNat (n : nat) | DDKs (l : list K) | DDDict (d : dict K V) | DDRaise (e : exn).

  Definition dd_step (s : ddict) (o : dd_op) : ddict * dd_out :=
    match o with
    | DDGet k => (s, match dget eqK (dd_data s) k with Some v => DDVal v | None => DDRaise KeyError end)   (* 26-27 *)
    | DDSet k v => (dd_setitem s k v, DDNone)
    | DDDel k => match dd_delitem s k with (s', None) => (s', DDNone) | (s', Some e) => (s', DDRaise e) end
    | DDContains k => (s, DDB (dmem eqK (dd_data s) k))                      (* 49-50 *)
    | DDLen => (s, DDNat (length (dd_data s)))                               (* 20-21 *)
    | DDKeys => (s, DDKs (dkeys (dd_data s)))                                (* 23-24 *)
    | DDBool => (s, DDB (match dd_data s with [] => false | _ => true end))   (* 56-57 *)
    | DDClearDirty => ({| dd_data := dd_data s; dd_dirty := false |}, DDNone) (* 52-54 *)
    | DDSwap => ({| dd_data := []; dd_dirty := false |}, DDDict (dd_data s))  (* 59-70 *)
    | DDCopyClear => ({| dd_data := dd_data s; dd_dirty := false |}, DDDict (dd_data s)) (* 72-80 *)
    | DDCopy => ({| dd_data := dd_data s; dd_dirty := dd_dirty s |}, DDNone)  (* 33-36, continue with the copy *)
    | DDSetDefault k v => match dget eqK (dd_data s) k with
                          | Some v0 => (s, DDVal v0)
                          | None => (dd_setitem s k v, DDVal v)
                          end
    | DDPop k => match dget eqK (dd_data s) k with
                 | Some v => (fst (dd_delitem s k), DDVal v)
                 | None => (s, DDRaise KeyError)
                 end
    | DDUpdate l => (fold_left (fun s e => dd_setitem s (fst e) (snd e)) l s, DDNone)
    | DDIsDirty => (s, DDB (dd_dirty s))
    end.
  Fixpoint dd_run (s : ddict) (ops : list dd_op) : list dd_out * ddict :=
    match ops with
    | [] => ([], s)
    | o :: t => let (s1, out) := dd_step s o in
                let (outs, s') := dd_run s1 t in (out :: outs, s')
    end.
End Dirty.
Arguments ddict : clear implicits.
Arguments dd_op : clear implicits.
Arguments dd_out : clear implicits.

(** ** DictionaryView (205-292). The dictionaries are distinct objects. *)
Section View.
  Context {K V : Type}.
  Variable eqK : K -> K -> bool.

  Record dview := { dv_dicts : list (dict K V); dv_propagate : bool; dv_assign : bool }.
  Definition dv_init (master : dict K V) (rest : list (dict K V)) (propagate assign : bool) : dview :=
    {| dv_dicts := master :: rest; dv_propagate := propagate; dv_assign := assign |}.

  (** 271-275 __getitem__ *)
  Fixpoint dv_get (ds : list (dict K V)) (k : K) : res V :=
    match ds with
    | [] => Err KeyError
    | d :: t => match dget eqK d k with Some v => Ok v | None => dv_get t k end
    end.
  (** 247-251 __contains__ *)
  Fixpoint dv_contains (ds : list (dict K V)) (k : K) : bool :=
    match ds with
    | [] => false
    | d :: t => if dmem eqK d k then true else dv_contains t k
    end.
  (** 253-259 __iter__: the inner loop over one dictionary, then all *)
  Fixpoint dv_iter1 (ks : list K) (seen : list K) : list K * list K :=
    match ks with
    | [] => ([], seen)
    | k :: t => if memb eqK k seen then dv_iter1 t seen
                else let (out, seen') := dv_iter1 t (seen ++ [k]) in (k :: out, seen')
    end.
  Fixpoint dv_iter (ds : list (dict K V)) (seen : list K) : list K :=
    match ds with
    | [] => []
    | d :: t => let (out, seen') := dv_iter1 (dkeys d) seen in out ++ dv_iter t seen'
    end.
  (** 261-269 __len__ *)
  Fixpoint dv_len1 (ks : list K) (seen : list K) (i : nat) : nat * list K :=
    match ks with
    | [] => (i, seen)
    | k :: t => if memb eqK k seen then dv_len1 t seen i else dv_len1 t (seen ++ [k]) (S i)
    end.
  Fixpoint dv_len (ds : list (dict K V)) (seen : list K) (i : nat) : nat :=
    match ds with
    | [] => i
    | d :: t => let (i', seen') := dv_len1 (dkeys d) seen i in dv_len t seen' i'
    end.
  (** the first dictionary holding k replaced by f of it *)
  Fixpoint dv_at_first (f : dict K V -> dict K V) (ds : list (dict K V)) (k : K) : option (list (dict K V)) :=
    match ds with
    | [] => None
    | d :: t => if dmem eqK d k then Some (f d :: t) else option_map (cons d) (dv_at_first f t k)
    end.
  Definition dv_at_master (f : dict K V -> dict K V) (ds : list (dict K V)) : list (dict K V) :=
    match ds with [] => [] | d :: t => f d :: t end.
  (** 277-283 __setitem__ *)
  Definition dv_set (s : dview) (k : K) (v : V) : dview :=
    let f d := dset eqK d k v in
    let ds := if dv_assign s
              then match dv_at_first f (dv_dicts s) k with Some ds => ds | None => dv_at_master f (dv_dicts s) end
              else dv_at_master f (dv_dicts s) in
    {| dv_dicts := ds; dv_propagate := dv_propagate s; dv_assign := dv_assign s |}.
  (** 285-292 __delitem__ *)
  Definition dv_del (s : dview) (k : K) : dview * option exn :=
    let f d := ddel eqK d k in
    let mk ds := {| dv_dicts := ds; dv_propagate := dv_propagate s; dv_assign := dv_assign s |} in
    if dv_propagate s
    then match dv_at_first f (dv_dicts s) k with
         | Some ds => (mk ds, None)
         | None => (s, Some KeyError)
         end
    else match dv_dicts s with
         | [] => (s, Some KeyError)
         | d :: _ => if dmem eqK d k then (mk (dv_at_master f (dv_dicts s)), None) else (s, Some KeyError)
         end.

  (** [DVCopy]: copy.copy(view) (231-232), continue with the copy *)
  Inductive dv_op :=
  | DVGet (k : K) | DVContains (k : K) | DVSet (k : K) (v : V) | DVDel (k : K) | DVIter | DVLen | DVCopy.
  Inductive dv_out :=
  | DVNone | DVVal (v : V) | DVB (b : bool) | DVNat (n : nat) | DVKs (l : list K) | DVRaise (e : exn).

  Definition dv_step (s : dview) (o : dv_op) : dview * dv_out :=
    match o with
    | DVGet k => (s, match dv_get (dv_dicts s) k with Ok v => DVVal v | Err e => DVRaise e end)
    | DVContains k => (s, DVB (dv_contains (dv_dicts s) k))
    | DVSet k v => (dv_set s k v, DVNone)
    | DVDel k => match dv_del s k with (s', None) => (s', DVNone) | (s', Some e) => (s', DVRaise e) end
    | DVIter => (s, DVKs (dv_iter (dv_dicts s) []))
    | DVLen => (s, DVNat (dv_len (dv_dicts s) [] 0))
    | DVCopy => ({| dv_dicts := dv_dicts s; dv_propagate := true; dv_assign := true |}, DVNone)
    end.
  (** answers, and the dictionaries after each call *)
  Fixpoint dv_run (s : dview) (ops : list dv_op) : list (dv_out * list (dict K V)) :=
    match ops with
    | [] => []
    | o :: t => let (s1, out) := dv_step s o in (out, dv_dicts s1) :: dv_run s1 t
    end.
End View.
Arguments dview : clear implicits.
Arguments dv_op : clear implicits.
Arguments dv_out : clear implicits.
