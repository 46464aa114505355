(** KeyAwareDefaultDict (/repo/satella/coding/structures/dictionaries/objects.py:81-108) with the methods it inherits from MutableMapping
    (collections.abc of Python). The factory may read the dictionary it is of. *)
From Verif Require Import Prelude.
Set Implicit Arguments.

Section KeyAware.
  Context {K V : Type}.
  Variable eqb : K -> K -> bool.
  (** What a factory does: it gives a value, raises, or reads another key of the same dictionary and goes on, also after an exception.
      Simplified: it does not store or delete. *)
  Inductive prog := Ret (v : V) | Fail (e : exn) | Ask (k : K) (go_on : res V -> prog).
  Variable factory : K -> prog.

  (** the dictionary, and the keys the factory was called with so far *)
  Record ka := { items : dict K V; calls : list K }.
  Definition ka_new (d : dict K V) : ka := {| items := d; calls := [] |}.           (* 97-99 *)
  Definition store (s : ka) (k : K) (v : V) : ka := {| items := dset eqb (items s) k v; calls := calls s |}.   (* 107-108 *)

  Section Run.
    Variable read : ka -> K -> ka * res V.
    Fixpoint run (p : prog) (s : ka) : ka * res V :=
      match p with
      | Ret v => (s, Ok v)
      | Fail e => (s, Err e)
      | Ask k c => match read s k with
                   | (s', Err Diverges) => (s', Err Diverges)
                   | (s', r) => run (c r) s'
                   end
      end.
  End Run.
  (** 101-105 __getitem__; [fuel]: how deep calls of the factory may be nested, [Diverges] beyond that *)
  Fixpoint getitem (fuel : nat) (s : ka) (k : K) : ka * res V :=
    match dget eqb (items s) k with
    | Some v => (s, Ok v)
    | None =>
      match fuel with
      | O => (s, Err Diverges)
      | S f =>
        match run (getitem f) (factory k) {| items := items s; calls := calls s ++ [k] |} with
        | (s', Ok v) => let s2 := store s' k v in
                        (s2, match dget eqb (items s2) k with Some v' => Ok v' | None => Err KeyError end)
        | (s', Err e) => (s', Err e)
        end
      end
    end.
  (** 110-111 __delitem__ *)
  Definition delitem (s : ka) (k : K) : ka * option exn :=
    if dmem eqb (items s) k then ({| items := ddel eqb (items s) k; calls := calls s |}, None) else (s, Some KeyError).

  (** calls by users *)
  Inductive op := KGet (k : K) | KSet (k : K) (v : V) | KDel (k : K) | KLen | KKeys
                | KIn (k : K) | KGetDefault (k : K) (v : V) | KPop (k : K) (default : option V) | KSetDefault (k : K) (v : V) | KPopItem.
  Inductive out := OVal (v : V) | ONat (n : nat) | OKeys (l : list K) | OBool (b : bool) | OItem (k : K) (v : V) | ONone | ORaise (e : exn).
  Definition of_res (r : res V) : out := match r with Ok v => OVal v | Err e => ORaise e end.
  Definition ka_step (fuel : nat) (s : ka) (o : op) : ka * out :=
    match o with
    | KGet k => let (s', r) := getitem fuel s k in (s', of_res r)
    | KSet k v => (store s k v, ONone)
    | KDel k => let (s', e) := delitem s k in (s', match e with None => ONone | Some e => ORaise e end)
    | KLen => (s, ONat (length (items s)))                                           (* 91-92 *)
    | KKeys => (s, OKeys (dkeys (items s)))                                          (* 94-95 *)
    (* Mapping.__contains__, Mapping.get, MutableMapping.pop, setdefault, popitem *)
    | KIn k => match getitem fuel s k with
               | (s', Ok _) => (s', OBool true) | (s', Err KeyError) => (s', OBool false) | (s', Err e) => (s', ORaise e)
               end
    | KGetDefault k v => match getitem fuel s k with
                         | (s', Ok v') => (s', OVal v') | (s', Err KeyError) => (s', OVal v) | (s', Err e) => (s', ORaise e)
                         end
    | KPop k d => match getitem fuel s k with
                  | (s', Ok v) => let (s2, e) := delitem s' k in (s2, match e with None => OVal v | Some e => ORaise e end)
                  | (s', Err KeyError) => (s', match d with Some v => OVal v | None => ORaise KeyError end)
                  | (s', Err e) => (s', ORaise e)
                  end
    | KSetDefault k v => match getitem fuel s k with
                         | (s', Ok v') => (s', OVal v') | (s', Err KeyError) => (store s' k v, OVal v) | (s', Err e) => (s', ORaise e)
                         end
    | KPopItem => match items s with
                  | [] => (s, ORaise KeyError)
                  | (k, _) :: _ => match getitem fuel s k with
                                   | (s', Ok v) => let (s2, e) := delitem s' k in (s2, match e with None => OItem k v | Some e => ORaise e end)
                                   | (s', Err e) => (s', ORaise e)
                                   end
                  end
    end.
  Fixpoint ka_run (fuel : nat) (s : ka) (l : list op) : list out * ka :=
    match l with
    | [] => ([], s)
    | o :: t => let (s1, x) := ka_step fuel s o in let (xs, s') := ka_run fuel s1 t in (x :: xs, s')
    end.
End KeyAware.
Arguments prog : clear implicits.
Arguments ka : clear implicits.
Arguments op : clear implicits.
Arguments out : clear implicits.
Arguments Ret {K V} v.
Arguments Fail {K V} e.
Arguments KGet {K V} k.
Arguments KDel {K V} k.
Arguments KLen {K V}.
Arguments KKeys {K V}.
Arguments KIn {K V} k.
Arguments KPop {K V} k default.
Arguments KPopItem {K V}.
Arguments OVal {K V} v.
Arguments ONat {K V} n.
Arguments OKeys {K V} l.
Arguments OBool {K V} b.
Arguments ONone {K V}.
Arguments ORaise {K V} e.
