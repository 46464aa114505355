(** C74: what close() should do, from the history of the object alone. *)
From Verif Require Import Prelude Closeable_Model.
Set Implicit Arguments.

(** the object needs a cleanup: its constructor was run, and it was not closed since *)
Fixpoint needs (h : list op) (b : bool) : bool :=
  match h with
  | [] => b
  | Init :: t => needs t true
  | Closed :: t => needs t b
  | _ :: t => needs t false
  end.
(** operations that close the object *)
Definition closing (p : op) : bool := match p with Close _ | With _ _ | Del _ => true | _ => false end.
(** what the operation answers, [b] saying whether there is something to clean up *)
Definition answer (b : bool) (p : op) : out :=
  match p with
  | Init => ODone None
  | Closed => OBool (negb b)
  | Close f => ODone (if b then f else None)
  | With body f => ODone (match (if b then f else None) with Some e => Some e | None => body end)
  | Del _ => ODone None
  end.

(** the threads that looked at the object before any thread had its second step *)
Fixpoint early (seen : list nat) (es : list nat) : list nat :=
  match es with
  | [] => seen
  | t :: r => if memb Nat.eqb t seen then seen else early (seen ++ [t]) r
  end.
Definition cleaned (s : sys) (t : nat) : Prop := nth_error (at_ s) t = Some (Finished true).
Definition all_finished (s : sys) : Prop := forall t p, nth_error (at_ s) t = Some p -> exists v, p = Finished v.
(** there are never two threads between the check and the mark *)
Definition apart (n : nat) (es : list nat) : Prop := forall es1 es2, es = es1 ++ es2 -> forall t u v w,
  nth_error (at_ (exec (start n) es1)) t = Some (Marking v) -> nth_error (at_ (exec (start n) es1)) u = Some (Marking w) -> t = u.
