(** C76, C77: what a transaction does to its connection, and when a lazily loaded object is loaded. *)
From Verif Require Import Prelude Db_Model.
Set Implicit Arguments.

(** ** C76 *)
(** things to be done one after another, up to the first call that raises: what was done, and what was raised *)
Fixpoint in_turn (fails : list event -> call -> option exn) (before : list event) (plan : list event) : list event * option exn :=
  match plan with
  | [] => ([], None)
  | e :: t =>
    match (match e with Made c => fails before c | _ => None end) with
    | Some x => ([e], Some x)
    | None => let (l, r) := in_turn fails (before ++ [e]) t in (e :: l, r)
    end
  end.
(** a body without another with statement on the same object: what it does with cursor [c], and what it raises *)
Definition flat (body : list prog) : Prop := forall p, In p body -> match p with With _ => False | _ => True end.
Fixpoint uses (c : nat) (body : list prog) : list event := match body with Use :: t => Used c :: uses c t | _ => [] end.
Fixpoint raised (body : list prog) : option exn := match body with Use :: t => raised t | Raise e :: _ => Some e | _ => None end.
Definition only (b : bool) (e : event) : list event := if b then [e] else [].
(** beginning: the connection, if it is still to be got, and a cursor *)
Definition opening (to_get : bool) : list event := only to_get (Made Getter) ++ [Made MakeCursor].
(** end: the commit, or the rollback and a line of the log, then the cursor is closed and the connection if asked for *)
Definition ending (close_after log_exception : bool) (c : nat) (r : option exn) : list event :=
  (match r with None => [Made Commit] | Some _ => Made Rollback :: only log_exception Logged end) ++
  Made (CloseCursor c) :: only close_after (Made CloseConnection).

(** nothing raises *)
Definition reliable : list event -> call -> option exn := fun _ _ => None.

(** how many times something is in a list *)
Fixpoint getters (l : list event) : nat := match l with [] => 0 | Made Getter :: t => S (getters t) | _ :: t => getters t end.

(** ** C77 *)
Definition succeeds (p : lop) : bool := match p with Refresh None | Method None => true | _ => false end.
