(** C84: what tainting is to do. *)
From Verif Require Import Prelude Taint_Model.
Set Implicit Arguments.

Section Programs.
  Variable V : Type.
  Variable op2 : top -> V -> V -> res V.
  (** the program as if nothing was tainted *)
  Definition pstore := nat -> option V.
  Fixpoint peval (s : pstore) (e : texpr V) : res V :=
    match e with
    | Const v => Ok v
    | Var _ x => match s x with Some v => Ok v | None => Err NameErrorExn end
    | Bin o l r => res_bind (peval s l) (fun a => res_bind (peval s r) (fun b => op2 o a b))
    end.
  Definition pexec (s : pstore) (p : stmt V) : res pstore :=
    match p with
    | Assign x e => res_map (set s x) (peval s e)
    | Aug x o e =>
        match s x with
        | None => Err NameErrorExn
        | Some a => res_bind (peval s e) (fun b => res_map (set s x) (op2 o a b))
        end
    end.
  Fixpoint prun (s : pstore) (l : list (stmt V)) : res pstore :=
    match l with [] => Ok s | p :: t => res_bind (pexec s p) (fun s' => prun s' t) end.

  (** which variables depend on tainted ones *)
  Fixpoint depends (f : nat -> bool) (e : texpr V) : bool :=
    match e with Const _ => false | Var _ x => f x | Bin _ l r => depends f l || depends f r end.
  Definition flow (f : nat -> bool) (p : stmt V) : nat -> bool :=
    match p with
    | Assign x e => fun y => if Nat.eqb y x then depends f e else f y
    | Aug x _ e => fun y => if Nat.eqb y x then f x || depends f e else f y
    end.

  (** a store of the tainting program stands for a store of the plain one, and for a set of tainted variables *)
  Definition represents (s : store V) (h : list V) (p : pstore) (f : nat -> bool) : Prop :=
    forall x, match s x, p x with
              | Some (P v), Some w => v = w /\ f x = false
              | Some (C c), Some w => nth_error h c = Some w /\ f x = true
              | None, None => True
              | _, _ => False
              end.

  (** the operators used *)
  Fixpoint uses (ok : top -> Prop) (e : texpr V) : Prop := match e with Const _ => True | Var _ _ => True | Bin o l r => ok o /\ uses ok l /\ uses ok r end.
  Definition stmt_uses (ok : top -> Prop) (p : stmt V) : Prop := match p with Assign _ e => uses ok e | Aug _ o e => ok o /\ uses ok e end.
  (** x = y with a bare variable *)
  Definition copies (p : stmt V) : Prop := match p with Assign _ (Var _ _) => True | _ => False end.
  Definition augments (p : stmt V) : Prop := match p with Aug _ _ _ => True | _ => False end.
  (** no two variables hold the same TaintedObject *)
  Definition apart (s : store V) : Prop := forall x y c, s x = Some (C c) -> s y = Some (C c) -> x = y.
End Programs.

Section Trees.
  Variable V : Type.
  (** the tree without taints *)
  Fixpoint erase (x : tree V) : tree V :=
    match x with Leaf v => Leaf v | Seq m l => Seq m (map erase l) | T y => erase y end.
  Definition is_tainted (x : tree V) : Prop := match x with T _ => True | _ => False end.
  (** no TaintedObject around a TaintedObject *)
  Inductive sound : tree V -> Prop :=
  | S_leaf : forall v, sound (Leaf v)
  | S_seq : forall m l, (forall y, In y l -> sound y) -> sound (Seq m l)
  | S_T : forall x, sound x -> ~ is_tainted x -> sound (T x).
End Trees.
