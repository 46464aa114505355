(** Specification of DictDeleter and ListDeleter: a container, a position in it,
    and the positions marked. *)
From Verif Require Import Prelude Deleters_Model.
Set Implicit Arguments.

(** the elements whose position is not marked, in order *)
Definition unmarked {A} (marked : nat -> bool) (l : list A) : list A :=
  map snd (filter (fun p => negb (marked (fst p))) (combine (seq 0 (length l)) l)).

Section DictDeleterSpec.
  Context {K V : Type}.
  Variable d : list (K * V).                         (* the entries in order *)
  (** [passed]: entries presented in the running iteration (None: none was
      started); [at_entry]: the position of the entry presented last *)
  Record pass := { passed : option nat; at_entry : option nat; showing : iter_mode; to_delete : list nat }.
  Definition pass0 : pass := {| passed := None; at_entry := None; showing := ITER_KEYS; to_delete := [] |}.

  Definition show (m : iter_mode) (e : K * V) : dd_out K V :=
    match m with ITER_KEYS => DOKey (fst e) | ITER_VALUES => DOValue (snd e) | ITER_ITEMS => DOItem (fst e) (snd e) end.
  Definition dd_answer (s : pass) (o : dd_op) : dd_out K V :=
    match o with
    | DNext => match passed s with
               | None => DORaise AttributeError
               | Some n => match nth_error d n with Some e => show (showing s) e | None => DORaise StopIteration end
               end
    | DDelete => match at_entry s with None => DORaise AttributeError | Some _ => DONone end
    | _ => DONone
    end.
  Definition dd_after (s : pass) (o : dd_op) : pass :=
    match o with
    | DIter => {| passed := Some 0; at_entry := at_entry s; showing := showing s; to_delete := to_delete s |}
    | DNext => match passed s with
               | Some n => if Nat.ltb n (length d)
                           then {| passed := Some (S n); at_entry := Some n; showing := showing s; to_delete := to_delete s |}
                           else s
               | None => s
               end
    | DMode m => {| passed := passed s; at_entry := at_entry s; showing := m; to_delete := to_delete s |}
    | DDelete => match at_entry s with
                 | Some n => {| passed := passed s; at_entry := at_entry s; showing := showing s; to_delete := n :: to_delete s |}
                 | None => s
                 end
    end.
  Fixpoint dd_session (s : pass) (ops : list dd_op) (outs : list (dd_out K V)) : Prop :=
    match ops, outs with
    | [], [] => True
    | o :: ops', out :: outs' => out = dd_answer s o /\ dd_session (dd_after s o) ops' outs'
    | _, _ => False
    end.
  Definition dd_marked (body : list dd_op) (i : nat) : bool :=
    existsb (Nat.eqb i) (to_delete (fold_left dd_after body pass0)).
End DictDeleterSpec.

Section ListDeleterSpec.
  Context {T : Type}.
  Open Scope Z_scope.
  (** [cursor]: -1 is before the first element, the length is after the last *)
  Record cur := { contents : list T; forward : bool; cursor : Z; marked : list Z; done : bool }.
  Definition before_first (l : list T) (fwd : bool) : Z := if fwd then -1 else Z.of_nat (length l).
  Definition cur0 (l : list T) (fwd : bool) : cur :=
    {| contents := l; forward := fwd; cursor := before_first l fwd; marked := []; done := false |}.
  Definition elem_at (s : cur) (i : Z) : option T := if i <? 0 then None else nth_error (contents s) (Z.to_nat i).

  Definition goes_up (s : cur) (o : ld_op) : bool := match o with LPrev => negb (forward s) | _ => forward s end.
  (** the position next or prev moves to; from the far end, nowhere *)
  Definition target (s : cur) (o : ld_op) : Z :=
    if goes_up s o
    then if cursor s =? Z.of_nat (length (contents s)) then cursor s else cursor s + 1
    else if cursor s =? -1 then -1 else cursor s - 1.
  Definition or_raise (x : option T) (e : exn) : ld_out T := match x with Some x => LOElem x | None => LORaise e end.

  Definition ld_answer (s : cur) (o : ld_op) : ld_out T :=
    match o with
    | LNext | LPrev => or_raise (elem_at s (target s o)) StopIteration
    | LValue => or_raise (elem_at s (cursor s)) IndexError
    | LList => LOList (contents s)
    | _ => LONone
    end.
  Definition ld_after (s : cur) (o : ld_op) : cur :=
    match o with
    | LIter => {| contents := contents s; forward := forward s; cursor := before_first (contents s) (forward s); marked := []; done := done s |}
    | LNext | LPrev => {| contents := contents s; forward := forward s; cursor := target s o; marked := marked s; done := done s |}
    | LDelete => {| contents := contents s; forward := forward s; cursor := cursor s; marked := cursor s :: marked s; done := done s |}
    | LRemove => if done s then s
                 else {| contents := unmarked (fun i => existsb (Z.eqb (Z.of_nat i)) (marked s)) (contents s);
                         forward := forward s; cursor := cursor s; marked := marked s; done := true |}
    | LReversed => cur0 (contents s) (negb (forward s))
    | LCopy => {| contents := contents s; forward := forward s; cursor := cursor s; marked := marked s; done := false |}
    | LValue | LList => s
    end.
  (** The class answers otherwise only when it steps onto, or looks at, the
      place before the first element of a list that is not empty. *)
  Definition ld_documented (s : cur) (o : ld_op) : Prop :=
    match o with
    | LNext | LPrev => contents s = [] \/ cursor s = -1 \/ target s o <> -1
    | LValue => contents s = [] \/ cursor s <> -1
    | _ => True
    end.
  (** Every call takes effect as specified; it is answered as specified too,
      without exception ([strict]) or where the class does as documented. *)
  Fixpoint ld_session (strict : bool) (s : cur) (ops : list ld_op) (outs : list (ld_out T)) : Prop :=
    match ops, outs with
    | [], [] => True
    | o :: ops', out :: outs' =>
      (strict = true \/ ld_documented s o -> out = ld_answer s o) /\ ld_session strict (ld_after s o) ops' outs'
    | _, _ => False
    end.
End ListDeleterSpec.
Arguments cur : clear implicits.
