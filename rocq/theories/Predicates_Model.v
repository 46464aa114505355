(** Model of PredicateClass, of x, and of build_structure (satella/coding/predicates.py).

    The plain values of Python are a type [V]; what its operators do to them is given by parameters ([op2], [op1], ...), and so is what
    the class of a plain value does with a predicate as the right operand ([own]). An expression is what the programmer writes; [build]
    is what Python does with it, through the operators of PredicateClass. *)
From Coq Require Import String.
From Verif Require Import Prelude.
Set Implicit Arguments.

Inductive binop : Type :=
| Add | Sub | Mul | MatMul | BAnd | BOr | RShift | LShift | BXor | TrueDiv | FloorDiv | Mod | Pow          (* have a reflected method *)
| Lt | Gt | Le | Ge | Eq | Ne                                                                              (* reflected: the mirror image *)
| Getitem.                                                                                                 (* not reflected *)
Inductive unop : Type := Neg | Invert | Abs | ToStr | ToInt | ToFloat | IsFalse | Length.
(** how Python names the method it asks of the left operand, and of the right one *)
Inductive method : Type := Fwd (op : binop) | Refl (op : binop).
Definition mirror (op : binop) : method :=
  match op with Lt => Fwd Gt | Gt => Fwd Lt | Le => Fwd Ge | Ge => Fwd Le | Eq => Fwd Eq | Ne => Fwd Ne | _ => Refl op end.
(** the methods of the class: the function of module operator, and swap_order (predicates.py:193-225) *)
Definition table (m : method) : option (binop * bool) :=
  match m with
  | Fwd Getitem => Some (Getitem, false)
  | Fwd Eq => Some (Eq, false) | Fwd Ne => Some (Ne, false) | Fwd Lt => Some (Lt, false) | Fwd Gt => Some (Gt, false)
  | Fwd Le => Some (Le, false) | Fwd Ge => Some (Ge, false)
  | Fwd Add => Some (Add, false) | Fwd Sub => Some (Sub, false) | Fwd Mul => Some (Mul, false) | Fwd MatMul => Some (MatMul, false)
  | Fwd BAnd => Some (BAnd, false) | Fwd BOr => Some (BOr, false) | Fwd RShift => Some (RShift, false) | Fwd LShift => Some (LShift, false)
  | Fwd BXor => Some (BXor, false) | Fwd TrueDiv => Some (TrueDiv, false) | Fwd FloorDiv => Some (FloorDiv, false)
  | Fwd Mod => Some (Mod, false) | Fwd Pow => Some (Pow, false)
  | Refl Add => Some (Add, true) | Refl Sub => Some (Sub, true) | Refl Mul => Some (Mul, true) | Refl MatMul => Some (MatMul, true)
  | Refl BAnd => Some (BAnd, true) | Refl BOr => Some (BOr, true) | Refl RShift => Some (RShift, true) | Refl LShift => Some (LShift, true)
  | Refl BXor => Some (BXor, true) | Refl TrueDiv => Some (TrueDiv, true) | Refl FloorDiv => Some (FloorDiv, true)
  | Refl Mod => Some (Mod, true) | Refl Pow => Some (Pow, true)
  | Refl _ => None
  end.

Section Values.
  Variable V : Type.
  Variables (op2 : binop -> V -> V -> res V) (op1 : unop -> V -> res V) (attr : V -> string -> res V) (call0 : V -> res V) (call1 : V -> V -> res V)
            (contains : V -> V -> res V) (truth : V -> bool) (of_bool : bool -> V).
  (** what the operator of a plain value's own class makes of a predicate on its right; None is NotImplemented *)
  Variable own : binop -> V -> option (res V).

  Inductive expr : Type :=
  | X | Const (c : V) | Bin (op : binop) (a b : expr) | Un (op : unop) (a : expr) | Attr (a : expr) (name : string)
  | Call0 (a : expr) | Call1 (a b : expr) | In_ (a b : expr) | OneOf (a : expr) (c : V) | Inside (a : expr) (c : V)
  | And (a b : expr) | Or (a b : expr) | Not (a : expr).

  (** an object at hand when the expression has been evaluated. Simplified: what Python goes on to do with a bound method of a predicate
      (compare it, call it, use it as an operand) is not followed; wherever one is used, Bound, TypeError or AttributeError stands for
      whatever happens, and no theorem says anything about it *)
  Inductive object : Type := Plain (v : V) | Pred (operation : V -> res V) | Bound.       (* Bound: a method of a predicate *)
  Definition bind (A B : Type) (r : res A) (f : A -> res B) : res B := match r with Ok a => f a | Err e => Err e end.

  (** predicates.py:16-46 make_operation_two_args; the second argument is a predicate or a plain value *)
  Definition two_args (f : V -> V -> res V) (swap : bool) (self : V -> res V) (a : object) : object :=
    match a with
    | Pred q => if swap then Pred (fun v => bind (q v) (fun l => bind (self v) (fun r => f l r)))
                else Pred (fun v => bind (self v) (fun l => bind (q v) (fun r => f l r)))
    | Plain c => if swap then Pred (fun v => bind (self v) (fun r => f c r)) else Pred (fun v => bind (self v) (fun l => f l c))
    | Bound => Bound
    end.
  (** predicates.py:49-60 make_operation_single_arg *)
  Definition single_arg (f : V -> res V) (self : V -> res V) : object := Pred (fun v => bind (self v) f).
  (** the attributes a predicate has itself: its methods (predicates.py:76-234); __getattr__ is only asked about the others *)
  Definition methods : list string :=
    ["operation"; "str"; "int"; "float"; "false"; "has_keys"; "one_of"; "has_p"; "type"; "is_instance"; "identity"; "is_valid_schema"; "has";
     "inside"; "instanceof"; "length"]%string.

  (** a binary operator of Python *)
  Definition operate (op : binop) (l r : object) : res object :=
    match l, r with
    | Plain a, Plain b => bind (op2 op a b) (fun v => Ok (Plain v))
    | Pred p, _ =>
      match table (Fwd op) with Some (f, swap) => Ok (two_args (op2 f) swap p r) | None => Err TypeError end
    | Plain c, Pred q =>
      match own op c with
      | Some r => bind r (fun v => Ok (Plain v))
      | None => match table (mirror op) with Some (f, swap) => Ok (two_args (op2 f) swap q l) | None => Err TypeError end
      end
    | _, _ => Err TypeError
    end.
  (** no __bool__ and no __len__: a predicate is true *)
  Definition true_obj (o : object) : bool := match o with Plain v => truth v | _ => true end.
  Fixpoint build (e : expr) : res object :=
    match e with
    | X => Ok (Pred (fun v => Ok v))                                             (* predicates.py:12-13, 83-84, 234 *)
    | Const c => Ok (Plain c)
    | Bin op a b => bind (build a) (fun l => bind (build b) (fun r => operate op l r))
    | Un op a => bind (build a) (fun l => match l with                            (* predicates.py:86-90, 189, 226-228 *)
        | Plain v => bind (op1 op v) (fun w => Ok (Plain w)) | Pred p => Ok (single_arg (op1 op) p) | Bound => Err TypeError end)
    | Attr a name => bind (build a) (fun l => match l with                        (* predicates.py:192 __getattr__ *)
        | Plain v => bind (attr v name) (fun w => Ok (Plain w))
        | Pred p => if memb String.eqb name methods then Ok Bound else Ok (Pred (fun v => bind (p v) (fun l => attr l name)))
        | Bound => Err AttributeError end)
    | Call0 a => bind (build a) (fun l => match l with                            (* predicates.py:92-94 __call__ without arguments *)
        | Plain v => bind (call0 v) (fun w => Ok (Plain w)) | Pred p => Ok (Pred (fun v => bind (p v) call0)) | Bound => Err TypeError end)
    | Call1 a b => bind (build a) (fun l => bind (build b) (fun r => match l, r with   (* predicates.py:95-96 *)
        | Plain v, Plain w => bind (call1 v w) (fun u => Ok (Plain u))
        | Pred p, Plain w => bind (p w) (fun u => Ok (Plain u))
        | _, _ => Err TypeError end))
    | In_ a b => bind (build a) (fun l => bind (build b) (fun r => match l, r with     (* a in b: the truth of what b.__contains__(a) returns *)
        | Plain v, Plain w => bind (contains w v) (fun u => Ok (Plain u))
        | Bound, _ => Err TypeError
        | _, Pred q => Ok (Plain (of_bool (true_obj (two_args contains false q l))))   (* predicates.py:191 *)
        | Pred _, Plain w => Ok (Plain (of_bool false))                                 (* not an element of the container *)
        | _, Bound => Err TypeError end))
    | OneOf a c => bind (build a) (fun l => match l with                          (* predicates.py:70-71, 104-108; [c] is the tuple of values *)
        | Plain v => Err AttributeError | Pred p => Ok (two_args (fun l values => contains values l) false p (Plain c)) | Bound => Err AttributeError end)
    | Inside a c => bind (build a) (fun l => match l with                         (* predicates.py:182-183 *)
        | Plain v => Err AttributeError | Pred p => Ok (two_args contains false p (Plain c)) | Bound => Err AttributeError end)
    | And a b => bind (build a) (fun l => if true_obj l then build b else Ok l)
    | Or a b => bind (build a) (fun l => if true_obj l then Ok l else build b)
    | Not a => bind (build a) (fun l => Ok (Plain (of_bool (negb (true_obj l)))))
    end.

  (** * build_structure (predicates.py:237-284) *)
  (** the class of a sequence: calling it with a list gives such a sequence with these elements, or TypeError (a named tuple, a range) *)
  Inductive kind : Type := KList | KTuple | KOther.
  Inductive struct : Type :=
  | SPred (p : V -> res V)
  | SVal (v : V)                                (* neither a mapping nor a sequence *)
  | SStr (s : string)
  | SSeq (k : kind) (l : list struct)
  | SDict (l : list (struct * struct))
  | SWrapped (s : struct).                      (* a HashableWrapper *)
  Variable hashable : struct -> bool.

  (** with nested_call=True (predicates.py:259-284). A string is a sequence of strings: RecursionError, unless it is empty: str([]) *)
  Fixpoint rebuild (s : struct) (v : V) : res struct :=
    match s with
    | SDict l =>
      match l with
      | [] => Err NameErrorExn                                                     (* f has not been assigned: UnboundLocalError *)
      | (k, w) :: _ =>                                                              (* the loop ends after the first entry *)
        bind (rebuild k v) (fun k' => bind (rebuild w v) (fun w' => if hashable k' then Ok (SDict [(k', w')]) else Err TypeError))
      end
    | SStr EmptyString => Ok (SStr "[]"%string)
    | SStr (String _ _) => Err RuntimeError
    | SSeq k l =>
      bind ((fix elems (l : list struct) : res (list struct) :=
               match l with
               | [] => Ok []
               | e :: t =>
                 bind (match e with SPred p => bind (p v) (fun w => Ok (SVal w)) | _ => rebuild e v end) (fun e' => bind (elems t) (fun t' => Ok (e' :: t')))
               end) l)
           (fun l' => match k with KOther => Err TypeError | _ => Ok (SSeq k l') end)
    | SWrapped s => rebuild s v
    | SPred p => bind (p v) (fun w => Ok (SVal w))
    | SVal w => Ok (SVal w)
    end.
  (** predicates.py:255-257; [final] is final_operator *)
  Definition build_structure (s : struct) (v : V) (final : struct -> res struct) : res struct := bind (rebuild s v) final.
End Values.
