(** satella/exceptions.py: CustomException and CodedCustomException. Texts are lists of characters (numbers). *)
From Coq Require Import List Bool Arith ZArith.
From Verif Require Import Prelude.
Import ListNotations.
Open Scope nat_scope.

Definition text := list nat.
Definition comma : text := [44; 32].
Definition equals : text := [61].
Definition opening : text := [40].
Definition closing : text := [41].
Definition dot : nat := 46.

(** sep.join(l) *)
Fixpoint join (sep : text) (l : list text) : text := match l with [] => [] | [x] => x | x :: t => x ++ sep ++ join sep t end.
(** s.split('.')[-1] *)
Fixpoint after_last_dot (s : text) : text :=
  match s with
  | [] => []
  | c :: t => if existsb (Nat.eqb dot) t then after_last_dot t else if c =? dot then t else c :: t
  end.
Fixpoint gather {A} (l : list (res A)) : res (list A) := match l with [] => Ok [] | x :: t => res_bind x (fun y => res_bind (gather t) (fun r => Ok (y :: r))) end.

(** An exception object: its class's module and qualified name, what repr() does on each argument, and its kwargs:
    None if no attribute of this name was ever set, because __init__ (exceptions.py 24-26) was overridden. *)
Record exception := { x_module : text; x_qualname : text; x_args : list (res text); x_kwargs : option (list (text * res text)) }.
Definition builtins : text := [98; 117; 105; 108; 116; 105; 110; 115].

(** CustomException.__str__, exceptions.py 28-36: map with a function of two arguments and one iterable calls it with one argument. *)
Definition exception_str (x : exception) : res text :=
  res_bind (gather (x_args x)) (fun args =>
    let a := after_last_dot (x_qualname x) ++ opening ++ join comma args in
    match x_kwargs x with
    | None => Ok (a ++ closing)
    | Some [] => Ok (a ++ closing)
    | Some (_ :: _) => Err TypeError
    end).
(** CustomException.__repr__, exceptions.py 38-50 *)
Definition exception_repr (x : exception) : res text :=
  res_bind (gather (x_args x)) (fun args =>
    let a := (if list_eq_dec Nat.eq_dec (x_module x) builtins then [] else x_module x ++ [dot]) ++ x_qualname x ++ opening ++ join comma args in
    match x_kwargs x with
    | None => Ok (a ++ closing)
    | Some [] => Ok (a ++ closing)
    | Some kwargs =>
      match gather (map (fun kv => res_bind (snd kv) (fun r => Ok (fst kv ++ equals ++ r))) kwargs) with
      | Ok l => Ok (a ++ comma ++ join comma l ++ closing)
      | Err AttributeError => Ok (a ++ closing)
      | Err e => Err e
      end
    end).

(** ** Coded exceptions *)
(** A class: which one it is, its own attribute `code` if it has one (Some None is None), and its bases. CodedCustomException is number 0. *)
Inductive cls := Cls (number : nat) (own_code : option (option Z)) (bases : list cls).
Definition number (c : cls) := match c with Cls n _ _ => n end.
Definition own_code (c : cls) := match c with Cls _ k _ => k end.
Definition bases (c : cls) := match c with Cls _ _ b => b end.
Definition coded : nat := 0.

(** get_base_of_bases, exceptions.py 53-57 *)
Fixpoint get_base_of_bases (classes : list cls) : list cls := match classes with [] => [] | c :: t => bases c ++ get_base_of_bases t end.
Fixpoint height (c : cls) : nat := match c with Cls _ _ b => S (list_max (map height b)) end.
Definition heights (l : list cls) : nat := list_max (map height l).
Definition has_number (n : nat) (l : list cls) : bool := existsb (fun c => number c =? n) l.

(** The loops of __instancecheck__, exceptions.py 73-75 and 77-79. Running out of fuel gives None. *)
Fixpoint climb (fuel : nat) (l : list cls) : option (list cls) :=
  match fuel with
  | 0 => None
  | S f => if negb (has_number coded (get_base_of_bases l)) && negb (match l with [] => true | _ => false end) then climb f (get_base_of_bases l) else Some l
  end.

Section Check.
  (** the method resolution order, starting with the class itself *)
  Variable mro : cls -> list cls.
  (** An instance: its class, and its own attribute `code` *)
  Record instance := { i_class : cls; i_code : option (option Z) }.
  (** CodedCustomException.__init__, exceptions.py 133-137 *)
  Definition coded_init (c : cls) (code : option Z) : instance := {| i_class := c; i_code := match code with Some k => Some (Some k) | None => None end |}.
  (** setattr(instance, 'code', k) *)
  Definition set_code (i : instance) (k : option Z) : instance := {| i_class := i_class i; i_code := Some k |}.

  Definition first_code (l : list cls) : option (option Z) := match find (fun c => match own_code c with Some _ => true | None => false end) l with Some c => own_code c | None => None end.
  (** cls.code: of the class or those it inherits from, and otherwise that of the metaclass, exceptions.py 64 *)
  Definition class_code (c : cls) : option Z := match first_code (mro c) with Some k => k | None => None end.
  (** instance.code: AttributeError if there is none *)
  Definition instance_code (i : instance) : res (option Z) :=
    match i_code i with
    | Some k => Ok k
    | None => match first_code (mro (i_class i)) with Some k => Ok k | None => Err AttributeError end
    end.
  (** type.__instancecheck__ *)
  Definition subclass_check (c : cls) (i : instance) : bool := has_number (number c) (mro (i_class i)).
  Definition code_eqb (a b : option Z) : bool := match a, b with Some x, Some y => Z.eqb x y | None, None => true | _, _ => false end.

  (** CodedCustomExceptionMetaclass.__instancecheck__, exceptions.py 66-89: isinstance(i, c). None: did not end. *)
  Definition instance_check (c : cls) (i : instance) : option bool :=
    if subclass_check c i then Some true
    else if number c =? coded then Some (subclass_check c i)
    else match climb (S (heights [c])) [c] with
         | None => None
         | Some class_base =>
           match climb (S (heights [i_class i])) [i_class i] with
           | None => None
           | Some inst_base =>
             if negb (existsb (fun x => has_number (number x) inst_base) class_base) then Some false
             else match instance_code i with
                  | Ok k => Some (code_eqb (class_code c) k)
                  | Err _ => Some (subclass_check c i)
                  end
           end
         end.
End Check.
