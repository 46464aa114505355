(** Model of satella/coding/structures/proxy.py: Proxy, and of satella/coding/optionals.py: Optional.

    Values of type [V] are ordinary objects; what Python's operators do to them is given by [op2], [op1] and [cmp2]. They know nothing of
    proxies: asked to work with a Proxy on the other side their methods give NotImplemented, so that Python asks the Proxy's method for the
    reflected operation. All proxies are of the same class, and the objects are immutable, so that [x += y] of an object is [x = x + y]. *)
From Coq Require Import String.
From Verif Require Import Prelude.
Set Implicit Arguments.

Inductive bop : Type := Add | Sub | Mul | TrueDiv | FloorDiv | Mod_ | Divmod | Pow | LShift | RShift | And_ | Or_ | Xor | MatMul.
Inductive uop : Type := Neg | Pos | Invert | Abs | Round | RoundTo (n : Z) | Trunc | Floor | Ceil      (* give an object *)
                      | Int_ | Float_ | Complex | Str | Repr | Bool_ | Len | Hash | Index | Iter | Next.  (* convert *)
Inductive cop : Type := Eq_ | Ne_ | Lt_ | Le_ | Gt_ | Ge_.
(** the comparison Python asks the other side for *)
Definition mirror (c : cop) : cop := match c with Eq_ => Eq_ | Ne_ => Ne_ | Lt_ => Gt_ | Le_ => Ge_ | Gt_ => Lt_ | Ge_ => Le_ end.

(** whether Proxy defines the method, and whether it is decorated with wrap_operation (proxy.py:106-158, 186-190, 232-234, 307-309, 327-329) *)
Definition forward (o : bop) : option bool :=
  match o with
  | Add | Sub | Mul | TrueDiv | FloorDiv | LShift | RShift | Xor | Pow | MatMul => Some true
  | And_ | Or_ | Divmod => Some false
  | Mod_ => None
  end.
(** the reflected method (proxy.py:133-134, 236-278, 335-337) *)
Definition reflected (o : bop) : option bool :=
  match o with
  | Add | Sub | Mul | TrueDiv | FloorDiv | LShift | RShift | Xor | Pow | MatMul | And_ | Or_ => Some true
  | Divmod => Some false
  | Mod_ => None
  end.
(** the in-place method (proxy.py:110-166, 280-290, 311-313, 331-333) *)
Definition inplace_method (o : bop) : bool := match o with Mod_ | Divmod => false | _ => true end.
Definition wrapped_unary (u : uop) : bool :=                                         (* proxy.py:219-221, 315-325, 342-373 *)
  match u with Neg | Pos | Invert | Abs | Round | RoundTo _ | Trunc | Floor | Ceil => true | _ => false end.

Section Proxies.
  Variable V : Type.
  Variable op2 : bop -> V -> V -> res V.
  Variable op1 : uop -> V -> res V.
  Variable cmp2 : cop -> V -> V -> res bool.

  (** an object, or a Proxy of something, with its wrap_operations *)
  Inductive val : Type := Plain (v : V) | Prox (x : val) (wrap : bool).

  (** wrap_operation (proxy.py:15-23): self.__class__(result), whose wrap_operations is the default, False *)
  Definition wrap_result (decorated wrap : bool) (r : res val) : res val :=
    if (decorated && wrap)%bool then res_map (fun x => Prox x false) r else r.

  (** [a op y] for an ordinary [a] *)
  Fixpoint eval_plain (o : bop) (a : V) (y : val) : res val :=
    match y with
    | Plain b => res_map Plain (op2 o a b)
    | Prox y' w => match reflected o with None => Err TypeError | Some d => wrap_result d w (eval_plain o a y') end
    end.
  (** [x op y] *)
  Fixpoint eval (o : bop) (x y : val) : res val :=
    match x with
    | Plain a => eval_plain o a y
    | Prox x' w => match forward o with None => Err TypeError | Some d => wrap_result d w (eval o x' y) end
    end.
  (** [x op= y], for a name that holds x: what it holds afterwards *)
  Fixpoint inplace (o : bop) (x y : val) : res val :=
    match x with
    | Plain a => eval_plain o a y
    | Prox x' w => if inplace_method o then res_map (fun z => Prox z w) (inplace o x' y) else eval o x y
    end.
  (** operators, functions and conversions of one object; round(x) becomes round(obj, 0) (proxy.py:342-345) *)
  Fixpoint unary (u : uop) (x : val) : res val :=
    match x with
    | Plain a => res_map Plain (op1 u a)
    | Prox x' w => wrap_result (wrapped_unary u) w (unary (match u with Round => RoundTo 0 | _ => u end) x')
    end.
  (** comparison of something with an ordinary object *)
  Fixpoint compare_left (c : cop) (x : val) (b : V) : res bool :=
    match x with Plain a => cmp2 c a b | Prox x' _ => compare_left c x' b end.
  (** proxy.py:180-184, 192-202 *)
  Fixpoint compare (c : cop) (x y : val) : res bool :=
    match x with
    | Prox x' _ => compare c x' y
    | Plain a => match y with Plain b => cmp2 c a b | Prox y' _ => compare_left (mirror c) y' a end
    end.

  (** expressions *)
  Inductive expr : Type := Const (x : val) | Bin (o : bop) (l r : expr) | Un (u : uop) (e : expr).
  Fixpoint value (e : expr) : res val :=
    match e with
    | Const x => Ok x
    | Bin o l r => res_bind (value l) (fun a => res_bind (value r) (fun b => eval o a b))
    | Un u x => res_bind (value x) (unary u)
    end.
End Proxies.
Arguments Plain {V} v.
Arguments Prox {V} x wrap.

(** * Optional (optionals.py:40-112)
    [None] is Optional(None). A use of an object is a call, an item or an attribute; what they give for an ordinary object is given by [use]:
    a value, Python's None or an exception. *)
Section Optionals.
  Variables (V U : Type).
  Variable use : V -> U -> res (option V).        (* inner None: the result is Python's None *)
  Variable none_use : U -> exn.                   (* what Python's None raises: TypeError or AttributeError *)
  Variable cmp2 : cop -> V -> V -> res bool.
  Variable cmp_none : cop -> V -> res bool.       (* None compared with an object *)
  Variable contains truth : V -> res bool.

  (** what a program holds: an ordinary object, Python's None, or an Optional of one of them *)
  Inductive ref : Type := Obj (v : V) | PyNone | Opt (o : option V).
  Definition of_option (o : option V) : ref := match o with Some v => Obj v | None => PyNone end.
  (** optionals.py:81-95: the empty Optional answers with itself, others hand out what the object gives, not wrapped *)
  Definition access (r : ref) (u : U) : res ref :=
    match r with
    | Obj v | Opt (Some v) => res_map of_option (use v u)
    | PyNone => Err (none_use u)
    | Opt None => Ok (Opt None)
    end.
  Fixpoint chain (r : ref) (us : list U) : res ref :=
    match us with [] => Ok r | u :: t => res_bind (access r u) (fun r' => chain r' t) end.
  (** optionals.py:75-79; the other comparisons are those of Proxy (proxy.py:183-184, 192-202) *)
  Definition opt_compare (c : cop) (o : option V) (b : V) : res bool :=
    match c, o with
    | Eq_, None => Ok false
    | Eq_, Some a => cmp2 Eq_ b a
    | _, None => cmp_none c b
    | _, Some a => cmp2 c a b
    end.
  (** optionals.py:69-73, 89-91 *)
  Definition opt_contains (o : option V) : res bool := match o with None => Ok false | Some a => contains a end.
  Definition opt_truth (o : option V) : res bool := match o with None => Ok false | Some a => truth a end.
  (** setitem and delitem (optionals.py:97-105): whether the object was asked to do it *)
  Definition opt_change (o : option V) (u : U) : option (res (option V)) := match o with None => None | Some a => Some (use a u) end.
End Optionals.
