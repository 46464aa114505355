(** Specification of SparseMatrix: a map from coordinates to values, and its
    extent. *)
From Verif Require Import Prelude SparseMatrix_Model.
Set Implicit Arguments.
Open Scope Z_scope.

Section SparseMatrixSpec.
  Context {V : Type}.
  Variable ltV : V -> V -> bool.

  (** [m c r] is the value in column c, row r, if any *)
  Definition cells := Z -> Z -> option V.
  Definition occupied (m : cells) (c r : Z) : Prop := m c r <> None.

  (** cols and rows are 1 + the largest occupied column and row, 0 if there is none *)
  Definition extent (m : cells) (cols rows : Z) : Prop :=
    (forall c r, occupied m c r -> 0 <= c < cols /\ 0 <= r < rows) /\
    (cols = 0 \/ exists r, occupied m (cols - 1) r) /\
    (rows = 0 \/ exists c, occupied m c (rows - 1)).

  (** Python's negative indices count from the end *)
  Definition idx (i n : Z) : Z := if i <? 0 then i + n else i.
  Definition at_ {A} (l : list A) (i : Z) : option A := if i <? 0 then None else nth_error l (Z.to_nat i).

  (** the list of m c r for c = 0 .. cols - 1, resp. r = 0 .. rows - 1 *)
  Definition is_row (m : cells) (cols r : Z) (l : list (option V)) : Prop :=
    Z.of_nat (length l) = cols /\ forall c, 0 <= c < cols -> at_ l c = Some (m c r).
  Definition is_col (m : cells) (rows c : Z) (l : list (option V)) : Prop :=
    Z.of_nat (length l) = rows /\ forall r, 0 <= r < rows -> at_ l r = Some (m c r).
  Definition is_all (m : cells) (cols rows : Z) (l : list (list (option V))) : Prop :=
    Z.of_nat (length l) = rows /\ forall r, 0 <= r < rows -> exists row, at_ l r = Some row /\ is_row m cols r row.
  (** v is the largest (smallest) of the values *)
  Definition is_best (better : V -> V -> bool) (m : cells) (v : V) : Prop :=
    (exists c r, m c r = Some v) /\ forall c r x, m c r = Some x -> better x v = false.

  (** what a call writes: [Some w] when it sets cell (c, r) to w *)
  Definition writes (cols rows : Z) (o : sm_op V) (c r : Z) : option (option V) :=
    let row vs r0 := if r =? r0 then at_ vs c else None in
    let col vs c0 := if c =? c0 then at_ vs r else None in
    match o with
    | MSet c0 r0 v => if (c =? idx c0 cols) && (r =? idx r0 rows) then Some v else None
    | MSetRow r0 vs => row vs (idx r0 rows)
    | MSetCol c0 vs => col vs (idx c0 cols)
    | MAppendRow vs => row vs rows
    | MDel c0 r0 => if (c =? idx c0 cols) && (r =? idx r0 rows) then Some None else None
    | MDelRow r0 => if r =? idx r0 rows then Some None else None
    | MDeleteRow r0 => if r =? r0 then Some None else None
    | MDelCol c0 => if c =? idx c0 cols then Some None else None
    | _ => None
    end.

  (** content after the call *)
  Definition after (m : cells) (cols rows : Z) (o : sm_op V) (c r : Z) : option V :=
    match o with
    | MClear => None
    | MSetAll l => match at_ l r with
                   | Some row => match at_ row c with Some v => v | None => None end
                   | None => None
                   end
    | MShoot => if Z.even c && Z.even r then m (c / 2) (r / 2) else None
    | _ => match writes cols rows o c r with Some v => v | None => m c r end
    end.

  Definition answer (m : cells) (cols rows : Z) (o : sm_op V) (out : sm_out V) : Prop :=
    match o with
    | MGet c r => out = if (idx r rows <? rows) && (idx c cols <? cols)
                        then MOCell (m (idx c cols) (idx r rows)) else MORaise IndexError
    | MRow r => if idx r rows <? rows then exists l, out = MOList l /\ is_row m cols (idx r rows) l
                else out = if cols =? 0 then MOList [] else MORaise IndexError
    | MCol c => if idx c cols <? cols then exists l, out = MOList l /\ is_col m rows (idx c cols) l
                else out = if rows =? 0 then MOList [] else MORaise IndexError
    | MGetRow r => exists l, out = MOList l /\ is_row m cols r l
    | MIter => exists l, out = MOMatrix l /\ is_all m cols rows l
    | MRows | MLen => out = MOZ rows
    | MCols => out = MOZ cols
    | MBool => exists b, out = MOBool b /\ (b = true <-> exists c r, occupied m c r)
    | MMax => if rows =? 0 then out = MORaise IndexError
              else exists v, out = MOCell (Some v) /\ is_best (fun x y => ltV y x) m v
    | MMin => if rows =? 0 then out = MORaise IndexError
              else exists v, out = MOCell (Some v) /\ is_best ltV m v
    | MNeighbours c r diagonals =>
      exists l, out = MOCoords l /\ NoDup l /\
        forall c' r', In (c', r') l <->
          (0 <= c' < cols /\ 0 <= r' < rows /\ (c', r') <> (c, r) /\ Z.abs (c' - c) <= 1 /\ Z.abs (r' - r) <= 1 /\
           (diagonals = true \/ c' = c \/ r' = r))
    | _ => out = MONone
    end.

  (** a negative index that reaches before the beginning *)
  Definition before_start (cols rows : Z) (o : sm_op V) : bool :=
    match o with
    | MSet c r _ | MDel c r | MGet c r => (idx c cols <? 0) || (idx r rows <? 0)
    | MSetRow r _ | MDelRow r | MRow r => idx r rows <? 0
    | MSetCol c _ | MDelCol c | MCol c => idx c cols <? 0
    | _ => false
    end.
  (** such a call must raise IndexError and change nothing *)
  Definition respects (m : cells) (cols rows : Z) (o : sm_op V) (out : sm_out V) (m' : cells) : Prop :=
    if before_start cols rows o then out = MORaise IndexError /\ forall c r, m' c r = m c r
    else answer m cols rows o out /\ forall c r, m' c r = after m cols rows o c r.

  (** The situations in which the class deviates. No index may reach before the
      beginning; a call that deletes must leave a cell it does
      not write to (or delete nothing); delete_row must name an occupied row;
      bool() is not asked; max() and min() need a value in the corner (0, 0). *)
  Definition deletes_nothing (m : cells) (cols rows : Z) (o : sm_op V) : Prop :=
    forall c r, writes cols rows o c r = Some None -> m c r = None.
  Definition leaves_a_cell (m : cells) (cols rows : Z) (o : sm_op V) : Prop :=
    exists c r, occupied m c r /\ writes cols rows o c r = None.
  Definition safe (m : cells) (cols rows : Z) (o : sm_op V) : Prop :=
    before_start cols rows o = false /\
    match o with
    | MDeleteRow r => exists c, occupied m c r
    | MBool => False
    | MMax | MMin => rows = 0 \/ occupied m 0 0
    | _ => True
    end /\ (deletes_nothing m cols rows o \/ leaves_a_cell m cols rows o).

  (** Every call is answered and takes effect as specified; with [until_unsafe],
      up to the first call that is not safe. *)
  Fixpoint sm_session (until_unsafe : bool) (m : cells) (cols rows : Z) (ops : list (sm_op V)) (outs : list (sm_out V))
    : Prop :=
    match ops, outs with
    | [], [] => True
    | o :: ops', out :: outs' =>
      (if until_unsafe then safe m cols rows o else True) ->
      exists m' cols' rows',
        respects m cols rows o out m' /\ extent m' cols' rows' /\
        sm_session until_unsafe m' cols' rows' ops' outs'
    | _, _ => False
    end.
End SparseMatrixSpec.
