(* C69: what Python does with the arguments of a call, said declaratively
   (language reference 6.3.4 "Calls" and 8.7 "Function definitions"). *)
From Coq Require Import List Bool Arith ZArith String.
From Verif Require Import Prelude Args_Model.
Import ListNotations.
Set Implicit Arguments.

(* A signature Python lets one write: no two parameters of the same name, kinds
   in the order positional-only, positional-or-keyword, *args, keyword-only,
   **kwargs, at most one *args and at most one **kwargs. *)
Definition rank (k : kind) : nat :=
  match k with PosOnly => 0 | PosOrKw => 1 | VarPos => 2 | KwOnly => 3 | VarKw => 4 end.

Record writable (s : sig) : Prop := {
  wr_names : NoDup (map p_name s);
  wr_order : forall i j p q, i < j -> nth_error s i = Some p -> nth_error s j = Some q ->
    rank (p_kind p) <= rank (p_kind q);
  wr_one_varpos : forall i j p q, nth_error s i = Some p -> nth_error s j = Some q ->
    p_kind p = VarPos -> p_kind q = VarPos -> i = j;
  wr_one_varkw : forall i j p q, nth_error s i = Some p -> nth_error s j = Some q ->
    p_kind p = VarKw -> p_kind q = VarKw -> i = j;
  wr_star_no_default : forall p, In p s -> p_kind p = VarPos \/ p_kind p = VarKw ->
    p_default p = None
}.

(* The number of parameters that can be given by position. *)
Definition slots (s : sig) : nat :=
  List.length (filter (fun p => match p_kind p with PosOnly | PosOrKw => true | _ => false end) s).

(* p can be given by name. *)
Definition by_name (p : param) : Prop := p_kind p = PosOrKw \/ p_kind p = KwOnly.

(* The value Python gives to the i-th parameter p of s in a call
   f( *args, **kw); None if there is none. Positional parameters come first in
   a writable signature, so the i-th parameter takes the i-th argument. *)
Definition value_of (s : sig) (args : list val) (kw : vars) (i : nat) (p : param) : option val :=
  match p_kind p with
  | VarPos => Some (Tup (skipn (slots s) args))
  | VarKw => Some (Dct (filter (fun e => negb (existsb
      (fun q => String.eqb (p_name q) (fst e)
                && match p_kind q with PosOrKw | KwOnly => true | _ => false end) s)) kw))
  | KwOnly => match dget String.eqb kw (p_name p) with
              | Some v => Some v | None => p_default p end
  | PosOnly => match nth_error args i with
               | Some v => Some v | None => p_default p end
  | PosOrKw => match nth_error args i with
               | Some v => Some v
               | None => match dget String.eqb kw (p_name p) with
                         | Some v => Some v | None => p_default p end
               end
  end.

(* Some parameter gets no value. *)
Definition lacking (s : sig) (args : list val) (kw : vars) : Prop :=
  exists i p, nth_error s i = Some p /\ value_of s args kw i p = None.

(* There is an argument no parameter can take: a surplus positional argument, a
   keyword of no parameter, or a keyword of a parameter already given by
   position. *)
Definition too_many (s : sig) (args : list val) (kw : vars) : Prop :=
  (slots s < List.length args /\ ~ exists p, In p s /\ p_kind p = VarPos) \/
  (exists n, In n (dkeys kw) /\ (~ exists p, In p s /\ p_kind p = VarKw) /\
     forall p, In p s -> p_name p = n -> ~ by_name p) \/
  (exists i p, nth_error s i = Some p /\ p_kind p = PosOrKw /\ i < List.length args /\
     In (p_name p) (dkeys kw)).

Definition python_accepts (s : sig) (args : list val) (kw : vars) : Prop :=
  ~ lacking s args kw /\ ~ too_many s args kw.

(* b gives every parameter of s the value Python gives it, and nothing else. *)
Definition python_binding (s : sig) (args : list val) (kw : vars) (b : vars) : Prop :=
  (forall i p, nth_error s i = Some p -> get b (p_name p) = value_of s args kw i p) /\
  (forall n, In n (dkeys b) -> In n (map p_name s)).

(* A positional parameter in front of *args is passed by name. *)
Definition named_before_star (s : sig) (args : list val) : Prop :=
  (exists p, In p s /\ p_kind p = VarPos) /\
  exists i p, nth_error s i = Some p /\ (p_kind p = PosOnly \/ p_kind p = PosOrKw) /\
    List.length args <= i /\ p_default p = None.

(* keyword names get_arguments takes for itself *)
Definition reserved : list string := ["function"; "special_behaviour"]%string.

(* What call_with_arguments promises: every parameter found in the dictionary
   gets that value, the others their defaults. *)
Definition promised (d : vars) (p : param) : option val :=
  match get d (p_name p) with
  | Some v => Some v
  | None => match p_kind p with
            | VarPos => Some (Tup [])
            | VarKw => Some (Dct [])
            | _ => p_default p
            end
  end.

(* the dictionary makes sense for s: *args is a tuple, **kwargs a dictionary
   with distinct keys, none of them the name of a parameter *)
Definition sensible (s : sig) (d : vars) : Prop :=
  forall p v, In p s -> get d (p_name p) = Some v ->
    (p_kind p = VarPos -> exists l, v = Tup l) /\
    (p_kind p = VarKw -> exists m, v = Dct m /\ dwf m /\
       forall q, In q s -> by_name q -> ~ In (p_name q) (dkeys m)).

(* some positional parameter is left to its default although a later one, or
   *args, is given *)
Definition gap (s : sig) (d : vars) : Prop :=
  exists i j p q, i < j /\ nth_error s i = Some p /\ nth_error s j = Some q /\
    (p_kind p = PosOnly \/ p_kind p = PosOrKw) /\ get d (p_name p) = None /\
    exists v, get d (p_name q) = Some v /\
      (p_kind q = PosOnly \/ p_kind q = PosOrKw \/ (p_kind q = VarPos /\ v <> Tup [])).
