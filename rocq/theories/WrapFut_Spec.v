(** What one expects of a wrapped future, and of collections of futures. *)
From Verif Require Import Prelude Futures_Model WrapFut_Model.
Set Implicit Arguments.

Section Spec.
  Variable V : Type.
  (** The life of the wrapped future alone, without its wrapping: how it ended, and whether its callbacks were called. *)
  Inductive life := Alive (running : bool) | Completed (r : res V) (called : bool) | Cancelled (called : bool).
  Definition lives (s : life) (m : move V) : life :=
    match m, s with
    | Run, Alive _ => Alive true
    | Finish r, Alive _ => Completed r false
    | CancelSource, Alive false => Cancelled false
    | Notify, Completed r _ => Completed r true
    | Notify, Cancelled _ => Cancelled true
    | _, _ => s
    end.
  Definition life_after (ms : list (move V)) : life := fold_left lives ms (Alive false).
  Definition alive (ms : list (move V)) : Prop := exists b, life_after ms = Alive b.
  Definition completed (ms : list (move V)) : Prop := exists r b, life_after ms = Completed r b.
  (** completed, and all its callbacks called *)
  Definition notified (ms : list (move V)) : Prop := exists r, life_after ms = Completed r true.
  (** what result() of the future itself says *)
  Definition outcome (s : life) : res V :=
    match s with Alive _ => Err TimeoutExn | Completed r _ => r | Cancelled _ => Err CancelledExn end.
  Definition callbacks_called (s : life) : Prop :=
    match s with Alive _ => False | Completed _ b | Cancelled b => b = true end.

  (** these steps are of other threads *)
  Definition others (ms : list (move V)) : Prop := ~ In Construct ms.
End Spec.
Arguments Alive {V}.
Arguments Cancelled {V}.

(** The schedule of a construction: [m1] before the callback is added (line 187), [m2] before the state of the
    source is read (188), [m3] before it is written (188), and [m4] afterwards; each is steps of other threads, as
    many as you like. The whole of a schedule: *)
Definition schedule V (m1 m2 m3 m4 : list (move V)) : list (move V) :=
  m1 ++ Construct :: m2 ++ Construct :: m3 ++ Construct :: m4.

(** The contents of collections and lists, when lists were plain values: nobody else's changes are seen. *)
Definition values : Type := ((nat -> option (list nat)) * (nat -> list nat))%type.
Definition value_of (v : values) (o : operand) : option (list nat) :=
  match o with OColl c => fst v c | OList l => Some (snd v l) | OTuple fs => Some fs | OFuture f => Some [f] end.
Definition assign (v : values) (c : nat) (x : option (list nat)) : values :=
  match x with Some x => (fun c' => if Nat.eqb c' c then Some x else fst v c', snd v) | None => v end.
Definition concat (x y : option (list nat)) : option (list nat) :=
  match x, y with Some x, Some y => Some (x ++ y) | _, _ => None end.
Definition value_step (v : values) (op : coll_op) : values :=
  match op with
  | CNew c o => assign v c (value_of v o)
  | CAdd c a o => assign v c (concat (fst v a) (value_of v o))
  | CIAdd c o => assign v c (concat (fst v c) (value_of v o))
  | CAppend c f => assign v c (concat (fst v c) (Some [f]))
  | CUser l f => (fst v, fun l' => if Nat.eqb l' l then snd v l ++ [f] else snd v l')
  end.
Definition values_after (v : values) (ops : list coll_op) : values := fold_left value_step ops v.

(** no collection is made of a list *)
Definition copies (op : coll_op) : Prop := match op with CNew _ (OList _) => False | _ => True end.
(** the lists of the user have numbers below [n] *)
Definition known (n : nat) (op : coll_op) : Prop :=
  match op with
  | CUser l _ => l < n
  | CNew _ (OList l) | CAdd _ _ (OList l) | CIAdd _ (OList l) => l < n
  | _ => True
  end.
