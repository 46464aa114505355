(** Model of satella/debug/tainting/tainteds.py and environment.py. *)
From Verif Require Import Prelude.
Set Implicit Arguments.

(** * Programs over immutable values
    What the operators of the values do is given by [op2]; asked to work with a TaintedObject they give NotImplemented, so that Python asks
    the TaintedObject for the reflected method. A TaintedObject is a cell of the heap, as the in-place operators change its value.
    [Other] stands for the operators that TaintedObject does not define (/, //, %, **, <<, >>, &, |, ^, @). *)
Inductive top : Type := Add | Sub | Mul | Eq_ | Ne_ | Lt_ | Le_ | Gt_ | Ge_ | Other.
Section Programs.
  Variable V : Type.
  Variable op2 : top -> V -> V -> res V.
  Variable truth : V -> bool.
  Variable of_bool : bool -> V.
  Variable session : bool.      (* whether the thread has a tainting session *)

  Inductive tv : Type := P (v : V) | C (cell : nat).

  (** access_tainted (tainteds.py:175-183) *)
  Definition access (h : list V) (x : tv) : option V := match x with P v => Some v | C c => nth_error h c end.
  (** taint (tainteds.py:186-192) of a value that is not tainted, with __init__ (tainteds.py:41-47) *)
  Definition taint_value (h : list V) (r : res V) : list V * res tv :=
    match r with
    | Err e => (h, Err e)
    | Ok v => if session then (h ++ [v], Ok (C (length h))) else (h, Err RuntimeError)
    end.
  Definition plain (h : list V) (r : res V) : list V * res tv := (h, res_map P r).
  (** __ne__ is object's: not __eq__() *)
  Definition not_equal (h : list V) (r : res V) : list V * res tv :=
    match r with
    | Err e => (h, Err e)
    | Ok v => if session then (h, Ok (P (of_bool (negb (truth v))))) else (h, Err RuntimeError)
    end.
  (** a op b of a tainted [a] (tainteds.py:108-130, 141-143, 150-152) *)
  Definition tainted_op (h : list V) (o : top) (a b : V) : list V * res tv :=
    match o with
    | Ne_ => not_equal h (op2 Eq_ a b)
    | Other => (h, Err TypeError)
    | _ => taint_value h (op2 o a b)
    end.
  (** a op b of a tainted [b] only: __radd__ (tainteds.py:132-134), and the mirrored comparisons *)
  Definition reflected_op (h : list V) (o : top) (a b : V) : list V * res tv :=
    match o with
    | Add => taint_value h (op2 Add a b)
    | Eq_ => taint_value h (op2 Eq_ b a)
    | Lt_ => taint_value h (op2 Gt_ b a)
    | Le_ => taint_value h (op2 Ge_ b a)
    | Gt_ => taint_value h (op2 Lt_ b a)
    | Ge_ => taint_value h (op2 Le_ b a)
    | Ne_ => not_equal h (op2 Eq_ b a)
    | Sub | Mul | Other => (h, Err TypeError)
    end.
  Definition binary (h : list V) (o : top) (x y : tv) : list V * res tv :=
    match access h x, access h y with
    | Some a, Some b =>
        match x, y with
        | P _, P _ => plain h (op2 o a b)
        | C _, _ => tainted_op h o a b
        | P _, C _ => reflected_op h o a b
        end
    | _, _ => (h, Err ImpossibleExn)      (* cells are never freed *)
    end.

  Inductive texpr : Type := Const (v : V) | Var (x : nat) | Bin (o : top) (l r : texpr).
  Inductive stmt : Type := Assign (x : nat) (e : texpr) | Aug (x : nat) (o : top) (e : texpr).     (* x = e, x o= e *)
  Definition store := nat -> option tv.
  Definition set (A : Type) (s : nat -> option A) (x : nat) (v : A) : nat -> option A := fun y => if Nat.eqb y x then Some v else s y.
  Fixpoint teval (s : store) (h : list V) (e : texpr) : list V * res tv :=
    match e with
    | Const v => (h, Ok (P v))
    | Var x => (h, match s x with Some v => Ok v | None => Err NameErrorExn end)
    | Bin o l r =>
        match teval s h l with
        | (h1, Err e) => (h1, Err e)
        | (h1, Ok a) => match teval s h1 r with (h2, Err e) => (h2, Err e) | (h2, Ok b) => binary h2 o a b end
        end
    end.
  Definition in_place (o : top) : bool := match o with Add | Sub | Mul => true | _ => false end.
  Definition texec (s : store) (h : list V) (p : stmt) : res (store * list V) :=
    match p with
    | Assign x e => match teval s h e with (h1, Ok v) => Ok (set s x v, h1) | (_, Err e) => Err e end
    | Aug x o e =>
        match s x with
        | None => Err NameErrorExn
        | Some v =>
            match teval s h e with
            | (_, Err e) => Err e
            | (h1, Ok w) =>
                match v, in_place o with
                | C c, true =>                                                    (* tainteds.py:136-139, 145-148, 154-157 *)
                    match access h1 v, access h1 w with
                    | Some a, Some b => res_map (fun r => (s, upd h1 c r)) (op2 o a b)
                    | _, _ => Err ImpossibleExn
                    end
                | _, _ => match binary h1 o v w with (h2, Ok r) => Ok (set s x r, h2) | (_, Err e) => Err e end
                end
            end
        end
    end.
  Fixpoint trun (s : store) (h : list V) (l : list stmt) : res (store * list V) :=
    match l with [] => Ok (s, h) | p :: t => res_bind (texec s h p) (fun q => trun (fst q) (snd q) t) end.
End Programs.
Arguments P {V} v.
Arguments C {V} cell.

(** * taint of containers: trees of values, mutable sequences and mappings (by their values), immutable ones and TaintedObjects *)
Section Trees.
  Variable V : Type.
  Inductive tree : Type := Leaf (v : V) | Seq (mutable : bool) (l : list tree) | T (x : tree).
  (** taint and TaintedObject.__init__ (tainteds.py:41-60, 186-192), in a session. Mutable containers are changed in place: what was inside of
      the result is what the argument has become. *)
  Fixpoint taint (x : tree) : tree :=
    match x with
    | T _ => x
    | Leaf _ => T x
    | Seq true l => T (Seq true (map taint l))
    | Seq false _ => T x
    end.
  (** access_tainted (tainteds.py:175-183): the outer one only *)
  Definition access_tainted (x : tree) : tree := match x with T y => y | _ => x end.
  (** what the caller's object is after taint(x) *)
  Definition argument_after (x : tree) : tree := match x with T _ => x | _ => access_tainted (taint x) end.
  (** x[i] (tainteds.py:165-166): of a TaintedObject, tainted *)
  Fixpoint item (x : tree) (i : nat) : res tree :=
    match x with
    | Leaf _ => Err TypeError
    | Seq _ l => match nth_error l i with Some y => Ok y | None => Err IndexError end
    | T y => res_map taint (item y i)
    end.
  (** list(x) (tainteds.py:67-69) *)
  Fixpoint items (x : tree) : res (list tree) :=
    match x with
    | Leaf _ => Err TypeError
    | Seq _ l => Ok l
    | T y => res_map (map taint) (items y)
    end.
  Fixpoint walk (x : tree) (path : list nat) : res tree :=
    match path with [] => Ok x | i :: t => res_bind (item x i) (fun y => walk y t) end.
End Trees.

(** * Sessions: local.satella_tainting of each thread, and enabled of each environment (environment.py:56-83) *)
Record sessions : Type := MkS { local : nat -> option nat; enabled : nat -> bool }.
Inductive sop : Type := Enter (t env : nat) | Exit (t env : nat) | GetSession (t : nat).
Definition put (A : Type) (f : nat -> A) (k : nat) (v : A) : nat -> A := fun j => if Nat.eqb j k then v else f j.
Definition sstep (s : sessions) (o : sop) : sessions * res (option nat) :=
  match o with
  | Enter t e =>
      match local s t with
      | Some _ => (MkS (local s) (put (enabled s) e true), Err RuntimeError)
      | None => (MkS (put (local s) t (Some e)) (put (enabled s) e true), Ok (Some e))
      end
  | Exit t e =>
      match local s t with
      | Some _ => (MkS (put (local s) t None) (put (enabled s) e false), Ok None)
      | None => (s, Err AttributeError)
      end
  | GetSession t => (s, match local s t with Some e => Ok (Some e) | None => Err RuntimeError end)
  end.
