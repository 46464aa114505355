(* C69: call arguments taken apart and put together again:
   get_arguments and call_with_arguments (satella/coding/misc.py), together
   with CPython's own rule for binding a call to a signature, on which
   satella/coding/overloading.py and the decorators rely. *)
From Coq Require Import List Bool Arith ZArith String.
From Verif Require Import Prelude.
Import ListNotations.
Set Implicit Arguments.

(* Python values, as far as argument passing looks into them: *args is a tuple
   of values, **kwargs a dictionary from names to values, everything else is
   opaque. *)
Inductive val : Type :=
| PyNone
| Atom (n : Z)
| Str (s : string)
| Tup (l : list val)
| Dct (d : list (string * val)).

(* inspect.Parameter.kind *)
Inductive kind : Type :=
| PosOnly          (* def f(a, /)   *)
| PosOrKw          (* def f(a)      *)
| VarPos           (* def f( *args) *)
| KwOnly           (* def f( *, k)  *)
| VarKw.           (* def f( **kw)  *)

(* inspect.Parameter; p_default = None is Parameter.empty. *)
Record param : Type := Param { p_name : string; p_kind : kind; p_default : option val }.

Definition sig := list param.
Definition vars := dict string val.

Definition kind_eqb (a b : kind) : bool :=
  match a, b with
  | PosOnly, PosOnly | PosOrKw, PosOrKw | VarPos, VarPos | KwOnly, KwOnly
  | VarKw, VarKw => true
  | _, _ => false
  end.

(* satella/coding/misc.py:285-286, 309-311: the membership tests on param.kind *)
Definition takes_positional (p : param) : bool :=
  match p_kind p with PosOnly | PosOrKw | VarPos => true | _ => false end.
Definition takes_keyword (p : param) : bool :=
  match p_kind p with PosOrKw | KwOnly | VarKw => true | _ => false end.

Definition get (d : vars) (n : string) : option val := dget String.eqb d n.
Definition set (d : vars) (n : string) (v : val) : vars := dset String.eqb d n v.
Definition del (d : vars) (n : string) : vars := ddel String.eqb d n.
Definition has (d : vars) (n : string) : bool := dmem String.eqb d n.

(* satella/coding/misc.py:289-307: the loop over the positional parameters. The two reversed
   lists popped from their ends are modelled as lists consumed from the front.
   `al` is arguments_left. The result is (local_vars, arguments_left). *)
Fixpoint ga_positionals (special : bool) (ps : list param) (args : list val)
    (lv : vars) (al : list string) : vars * list string :=
  match ps with
  | [] => (lv, al)
  | p :: ps' =>
      if kind_eqb (p_kind p) VarPos && negb special
      then (* satella/coding/misc.py:294-295: args is not consumed *)
        ga_positionals special ps' args (set lv (p_name p) (Tup args)) al
      else
        match args with
        | v :: args' =>                           (* satella/coding/misc.py:298-299 *)
            ga_positionals special ps' args' (set lv (p_name p) v)
              (List.remove string_dec (p_name p) al)
        | [] =>
            match p_default p with
            | Some d => ga_positionals special ps' [] (set lv (p_name p) d) al
            | None => (lv, al)                         (* satella/coding/misc.py:304: break *)
            end
        end
  end.

(* satella/coding/misc.py:314-332: the loop over the parameters that can be given by name. *)
Fixpoint ga_keywords (special : bool) (ks : list param) (kw : vars) (lv : vars) : vars :=
  match ks with
  | [] => lv
  | k :: ks' =>
      if kind_eqb (p_kind k) VarKw && negb special
      then ga_keywords special ks' kw (set lv (p_name k) (Dct kw))
      else
        match get kw (p_name k) with
        | Some v => ga_keywords special ks' (del kw (p_name k)) (set lv (p_name k) v)
        | None =>
            match p_default k with
            | Some d => ga_keywords special ks' kw (set lv (p_name k) d)
            | None =>
                if special then ga_keywords special ks' kw (set lv (p_name k) PyNone)
                else ga_keywords special ks' kw lv       (* 325, 329-330: continue *)
            end
        end
  end.

(* satella/coding/misc.py:334-341: every parameter must have received a value. *)
Fixpoint ga_rest (special : bool) (ps : list param) (lv : vars) : res vars :=
  match ps with
  | [] => Ok lv
  | p :: ps' =>
      if has lv (p_name p) then ga_rest special ps' lv
      else if special then ga_rest special ps' (set lv (p_name p) PyNone)
      else Err TypeError
  end.

(* satella/coding/misc.py:275-341, _get_arguments.  Simplified:
   comparing a default with Parameter.empty never raises; the signature is
   given instead of a function. *)
Definition get_arguments_ (special : bool) (s : sig) (args : list val) (kw : vars) : res vars :=
  let '(lv, al) :=
    ga_positionals special (filter takes_positional s) args [] (map p_name s) in
  let ks := filter (fun p => takes_keyword p && memb String.eqb (p_name p) al) s in
  ga_rest special s (ga_keywords special ks kw lv).

(* satella/coding/misc.py:257-272: get_arguments(function, *args, **kwargs) has parameters of
   its own, and so has _get_arguments: a keyword argument named like one of them
   is a TypeError of Python's. *)
Definition get_arguments (s : sig) (args : list val) (kw : vars) : res vars :=
  if has kw "function" || has kw "special_behaviour" then Err TypeError
  else get_arguments_ false s args kw.

(* satella/coding/misc.py:360-379: the loop that distributes the dictionary. The state is
   (args, kwargs, what is left of the dictionary). Simplified: a value for
   *args that is no tuple, or for **kwargs that is no dictionary, is a
   TypeError (Python also accepts other iterables and mappings). *)
Fixpoint cw_loop (ps : list param) (args : list val) (kw : vars) (d : vars)
    : res (list val * vars * vars) :=
  match ps with
  | [] => Ok (args, kw, d)
  | p :: ps' =>
      match get d (p_name p) with
      | None =>
          match p_kind p with
          | VarKw | VarPos => cw_loop ps' args kw d
          | _ => match p_default p with
                 | None => Err TypeError
                 | Some _ => cw_loop ps' args kw d
                 end
          end
      | Some v =>
          let d' := del d (p_name p) in
          match p_kind p with
          | PosOnly | PosOrKw => cw_loop ps' (args ++ [v]) kw d'
          | VarPos => match v with Tup l => cw_loop ps' (args ++ l) kw d' | _ => Err TypeError end
          | KwOnly => cw_loop ps' args (set kw (p_name p) v) d'
          | VarKw => match v with
                     | Dct m => cw_loop ps' args
                                  (fold_left (fun k e => set k (fst e) (snd e)) m kw) d'
                     | _ => Err TypeError
                     end
          end
      end
  end.

(* satella/coding/misc.py:344-384, call_with_arguments, up to the call: the positional and the
   keyword arguments the function is called with. *)
Definition call_with_arguments (s : sig) (d : vars) : res (list val * vars) :=
  match cw_loop s [] [] d with
  | Err e => Err e
  | Ok (args, kw, rest) =>
      match rest with [] => Ok (args, kw) | _ :: _ => Err ValueError end
  end.

(* CPython: inspect.Signature.bind followed by apply_defaults, which is also
   what a call does: used by overloading.py:87-88. Positional arguments fill
   the positional parameters from the left, then each keyword argument fills
   the parameter of that name, then defaults; what is left over goes to *args
   and **kwargs or is a TypeError. *)
Fixpoint bind_positionals (ps : list param) (args : list val) : vars * list val :=
  match ps, args with
  | p :: ps', v :: args' =>
      let '(b, r) := bind_positionals ps' args' in ((p_name p, v) :: b, r)
  | _, _ => ([], args)
  end.

Definition fills_by_position (p : param) : bool :=
  match p_kind p with PosOnly | PosOrKw => true | _ => false end.
Definition fills_by_name (p : param) : bool :=
  match p_kind p with PosOrKw | KwOnly => true | _ => false end.

(* the keyword arguments no parameter of s is called like *)
Definition unclaimed (s : sig) (kw : vars) : vars :=
  filter (fun e => negb (memb String.eqb (fst e) (map p_name (filter fills_by_name s)))) kw.

Fixpoint bind_params (ps : list param) (b : vars) (surplus : list val) (extra : vars)
    (kw : vars) : res vars :=
  match ps with
  | [] => Ok []
  | p :: ps' =>
      let one :=
        match p_kind p with
        | VarPos => Ok (Tup surplus)
        | VarKw => Ok (Dct extra)
        | _ =>
            match get b (p_name p), (if fills_by_name p then get kw (p_name p) else None) with
            | Some _, Some _ => Err TypeError            (* multiple values *)
            | Some v, None => Ok v
            | None, Some v => Ok v
            | None, None => match p_default p with Some d => Ok d | None => Err TypeError end
            end
        end in
      match one with
      | Err e => Err e
      | Ok v => match bind_params ps' b surplus extra kw with
                | Err e => Err e
                | Ok r => Ok ((p_name p, v) :: r)
                end
      end
  end.

Definition py_bind (s : sig) (args : list val) (kw : vars) : res vars :=
  let '(b, surplus) := bind_positionals (filter fills_by_position s) args in
  let extra := unclaimed s kw in
  if (match surplus with [] => false | _ => true end)
     && negb (existsb (fun p => kind_eqb (p_kind p) VarPos) s) then Err TypeError
  else if (match extra with [] => false | _ => true end)
     && negb (existsb (fun p => kind_eqb (p_kind p) VarKw) s) then Err TypeError
  else bind_params s b surplus extra kw.
