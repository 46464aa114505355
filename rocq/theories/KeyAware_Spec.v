(** C124: a dictionary that asks a factory for the values of missing keys. *)
From Verif Require Import Prelude KeyAware_Model.
Set Implicit Arguments.

(** What a key is worth, without any remembering: its own value if it had one from the start, or else what the factory's program comes to, where
    each key the program asks for is worth what it is worth. *)
Section Worth.
  Context {K V : Type}.
  Variable own : K -> option V.
  Variable factory : K -> prog K V.
  Inductive worth : K -> res V -> Prop :=
  | w_own k v : own k = Some v -> worth k (Ok v)
  | w_made k r : own k = None -> comes_to (factory k) r -> worth k r
  with comes_to : prog K V -> res V -> Prop :=
  | c_ret v : comes_to (Ret v) (Ok v)
  | c_fail e : comes_to (Fail e) (Err e)
  | c_ask k c a r : worth k a -> comes_to (c a) r -> comes_to (Ask k c) r.
End Worth.

(** A dictionary as collections.defaultdict is one, but with a factory that is given the key: only d[key] asks the factory. [f]: what the factory gives *)
Section Reference.
  Context {K V : Type}.
  Variable eqb : K -> K -> bool.
  Variable f : K -> res V.
  Definition ref_step (d : dict K V) (o : op K V) : dict K V * out K V :=
    match o with
    | KGet k => match dget eqb d k with
                | Some v => (d, OVal v)
                | None => match f k with Ok v => (dset eqb d k v, OVal v) | Err e => (d, ORaise e) end
                end
    | KSet k v => (dset eqb d k v, ONone)
    | KDel k => if dmem eqb d k then (ddel eqb d k, ONone) else (d, ORaise KeyError)
    | KLen => (d, ONat (length d))
    | KKeys => (d, OKeys (map fst d))
    | KIn k => (d, OBool (dmem eqb d k))
    | KGetDefault k v => (d, match dget eqb d k with Some v' => OVal v' | None => OVal v end)
    | KPop k v => match dget eqb d k with
                  | Some v' => (ddel eqb d k, OVal v')
                  | None => (d, match v with Some v => OVal v | None => ORaise KeyError end)
                  end
    | KSetDefault k v => match dget eqb d k with Some v' => (d, OVal v') | None => (dset eqb d k v, OVal v) end
    | KPopItem => match rev d with
                  | [] => (d, ORaise KeyError)
                  | (k, v) :: _ => (ddel eqb d k, OItem k v)
                  end
    end.
  Fixpoint ref_run (d : dict K V) (l : list (op K V)) : list (out K V) * dict K V :=
    match l with
    | [] => ([], d)
    | o :: t => let (d1, x) := ref_step d o in let (xs, d') := ref_run d1 t in (x :: xs, d')
    end.
  Definition plain_op (o : op K V) : Prop := match o with KGet _ | KSet _ _ | KDel _ | KLen | KKeys => True | _ => False end.
  (** a factory that does not look into the dictionary *)
  Definition simple (factory : K -> prog K V) : Prop := forall k, factory k = match f k with Ok v => Ret v | Err e => Fail e end.
End Reference.
Definition reading {K V} (o : op K V) : Prop := match o with KGet _ | KIn _ | KGetDefault _ _ | KLen | KKeys => True | _ => False end.
