(** What a call of a descriptor does to the objects it is given (satella/configuration/schema/structs.py, base.py).

    Schema_Model.v says what descriptors accept and answer; here lists and dictionaries are objects that can be changed, and it is
    said which are. The checkers are those of a descriptor that has refused nothing yet. What the user's functions (makers and
    mappers) are given they do not change. *)
From Coq Require Import String.
From Verif Require Import Prelude.
Set Implicit Arguments.

(** a value that cannot be changed, or an object *)
Inductive val := VAtom (n : nat) | VRef (n : nat).
Inductive cell := LCell (l : list val) | TCell (l : list val) | DCell (d : dict string val).
Record heap := { cells : nat -> cell; next : nat }.
Definition alloc (h : heap) (c : cell) : heap * nat :=
  ({| cells := fun n => if Nat.eqb n (next h) then c else cells h n; next := S (next h) |}, next h).
Definition write (h : heap) (n : nat) (c : cell) : heap :=
  {| cells := fun m => if Nat.eqb m n then c else cells h m; next := next h |}.

Inductive desc :=
(* schema/base.py:69-82, a descriptor that has its own maker and checkers (also a Caster); Descriptor() itself gives back what it is given *)
| HBasic (make : val -> res val)
(* structs.py:10-27 *)
| HList (type_descriptor : desc)
(* structs.py:65-124 *)
| HDict (keys : list (string * (bool * val * desc))) (unknown_key_mapper : string -> val -> res val)
(* structs.py:127-148 *)
| HUnion (descriptors : list desc).

Section Call.
  Variable call : desc -> heap -> val -> heap * res val.
  (** structs.py:27. The list that is made is seen by nobody until it is complete. *)
  Fixpoint list_loop (d : desc) (h : heap) (l : list val) (acc : list val) : heap * res (list val) :=
    match l with
    | [] => (h, Ok acc)
    | p :: t => match call d h p with
                | (h', Ok w) => list_loop d h' t (acc ++ [w])
                | (h', Err e) => (h', Err e)
                end
    end.
  (** structs.py:110-119: [value] is the dictionary keys are popped from *)
  Fixpoint keys_loop (keys : list (string * (bool * val * desc))) (h : heap) (value : nat) (output : dict string val) : heap * res (dict string val) :=
    match keys with
    | [] => (h, Ok output)
    | (key, (optional, default, kd)) :: t =>
      match cells h value with
      | DCell d =>
        match dget String.eqb d key with
        | None => if optional then keys_loop t h value (dset String.eqb output key default) else (h, Err ConfigurationValidationError)
        | Some v =>
          match call kd (write h value (DCell (ddel String.eqb d key))) v with
          | (h', Ok w) => keys_loop t h' value (dset String.eqb output key w)
          | (h', Err e) => (h', Err e)
          end
        end
      | _ => (h, Err AttributeError)
      end
    end.
  (** structs.py:121-122 *)
  Fixpoint unknown_loop (mapper : string -> val -> res val) (value : dict string val) (output : dict string val) : res (dict string val) :=
    match value with
    | [] => Ok output
    | (k, v) :: t => match mapper k v with
                     | Ok w => unknown_loop mapper t (dset String.eqb output k w)
                     | Err e => Err e
                     end
    end.
  (** structs.py:143-148 *)
  Fixpoint union_loop (descriptors : list desc) (h : heap) (v : val) : heap * res val :=
    match descriptors with
    | [] => (h, Err ConfigurationValidationError)
    | d :: t => match call d h v with
                | (h', Err ConfigurationValidationError) => union_loop t h' v
                | r => r
                end
    end.
End Call.

(** copy.copy, structs.py:99; a tuple is its own copy *)
Definition copy (h : heap) (v : val) : heap * val :=
  match v with
  | VAtom _ => (h, v)
  | VRef n => match cells h n with
              | TCell _ => (h, v)
              | c => let (h', m) := alloc h c in (h', VRef m)
              end
  end.
(** A nested descriptor is called with less fuel; the depth of the descriptor suffices. *)
Fixpoint call (fuel : nat) (d : desc) (h : heap) (v : val) : heap * res val :=
  match fuel with
  | O => (h, Err Diverges)
  | S fuel' =>
    match d with
    | HBasic make => (h, match make v with
                         | Err TypeError | Err ValueError | Err ConfigurationError => Err ConfigurationValidationError
                         | r => r
                         end)
    | HList td =>                                       (* structs.py:24-27: must_be_type(list, tuple), list(value) *)
      match v with
      | VRef n =>
        match cells h n with
        | LCell l | TCell l =>
          let (h1, m) := alloc h (LCell l) in
          match list_loop (call fuel') td h1 l [] with
          | (h2, Ok ws) => let (h3, k) := alloc h2 (LCell ws) in (h3, Ok (VRef k))
          | (h2, Err e) => (h2, Err e)
          end
        | DCell _ => (h, Err ConfigurationValidationError)
        end
      | VAtom _ => (h, Err ConfigurationValidationError)
      end
    | HDict keys mapper =>                              (* structs.py:98-124 *)
      let (h1, v1) := copy h v in
      match v1 with
      | VRef n =>
        match cells h1 n with
        | DCell d =>
          let (h2, m) := alloc h1 (DCell d) in          (* super().__call__(value): dict(value) *)
          match keys_loop (call fuel') keys h2 m [] with
          | (h3, Ok output) =>
            match cells h3 m with
            | DCell rest => match unknown_loop mapper rest output with
                            | Ok out => let (h4, k) := alloc h3 (DCell out) in (h4, Ok (VRef k))
                            | Err e => (h3, Err e)
                            end
            | _ => (h3, Err AttributeError)
            end
          | (h3, Err e) => (h3, Err e)
          end
        | _ => (h1, Err ConfigurationValidationError)
        end
      | VAtom _ => (h1, Err ConfigurationValidationError)
      end
    | HUnion descriptors => union_loop (call fuel') descriptors h v
    end
  end.
