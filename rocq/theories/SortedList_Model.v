(** /repo/satella/coding/structures/sorted_list.py and ranking.py *)
From Verif Require Import Prelude PySeq_Model.

Set Implicit Arguments.

Section SortedList.
  Context {A : Type}.
  Variable ltA : A -> A -> bool.    (* [<] on the elements *)
  Variable eqA : A -> A -> bool.    (* [==] on the elements *)
  Variable key : A -> Z.            (* the key function (documented to return int) *)

  Record slist := { sl_items : list A; sl_keys : list Z }.

  (** [<] on the pairs (key(item), item) *)
  Definition lt_pair (p q : Z * A) : bool :=
    if Z.eqb (fst p) (fst q)
    then (if eqA (snd p) (snd q) then false else ltA (snd p) (snd q))
    else Z.ltb (fst p) (fst q).

  (** sorted_list.py 22-26, __init__ *)
  Definition sl_init (items : list A) : slist :=
    let sort := py_sorted lt_pair (map (fun x => (key x, x)) items) in
    {| sl_items := map snd sort; sl_keys := map fst sort |}.

  (** sorted_list.py 73-91, add: the for loop stops at the first index whose key
      is >= the new one, its else branch takes the length *)
  Definition sl_add (s : slist) (x : A) : slist * nat :=
    let kv := key x in
    let index := match find_index (fun k => Z.leb kv k) (sl_keys s) with
                 | Some i => i
                 | None => length (sl_keys s)
                 end in
    ({| sl_items := insert_at index x (sl_items s);
        sl_keys := insert_at index kv (sl_keys s) |}, index).

  (** 54-57, extend *)
  Definition sl_extend (s : slist) (xs : list A) : slist :=
    fold_left (fun s x => fst (sl_add s x)) xs s.

  (** 50-52, index: deque.index raises ValueError *)
  Definition sl_index (s : slist) (x : A) : res nat :=
    match find_index (fun y => eqA y x) (sl_items s) with
    | Some i => Ok i
    | None => Err ValueError
    end.

  (** 62-71, remove *)
  Definition sl_remove (s : slist) (x : A) : slist * res nat :=
    match find_index (fun y => eqA y x) (sl_items s) with
    | None => (s, Err ValueError)
    | Some i => ({| sl_items := del_nth i (sl_items s); sl_keys := del_nth i (sl_keys s) |}, Ok i)
    end.

  (** 34-37, pop: keys first, then items *)
  Definition sl_pop (s : slist) : slist * res A :=
    match rev (sl_keys s) with
    | [] => (s, Err IndexError)
    | _ :: rk =>
      match rev (sl_items s) with
      | [] => ({| sl_items := sl_items s; sl_keys := rev rk |}, Err IndexError)
      | x :: ri => ({| sl_items := rev ri; sl_keys := rev rk |}, Ok x)
      end
    end.

  (** 39-42, popleft *)
  Definition sl_popleft (s : slist) : slist * res A :=
    match sl_keys s with
    | [] => (s, Err IndexError)
    | _ :: rk =>
      match sl_items s with
      | [] => ({| sl_items := []; sl_keys := rk |}, Err IndexError)
      | x :: ri => ({| sl_items := ri; sl_keys := rk |}, Ok x)
      end
    end.

  Inductive sl_op :=
  | SLAdd (x : A) | SLExtend (xs : list A) | SLRemove (x : A) | SLPop | SLPopLeft
  | SLIndex (x : A) | SLContains (x : A) | SLLen | SLBool | SLIter
  | SLGet (i : Z) | SLSlice (a b : option Z).
  Inductive sl_out :=
  | SONone | SOIndex (i : nat) | SOItem (x : A) | SOItems (l : list A) | SOBool (b : bool) | SORaise (e : exn).

  Definition sl_step (s : slist) (o : sl_op) : slist * sl_out :=
    match o with
    | SLAdd x => let (s', i) := sl_add s x in (s', SOIndex i)
    | SLExtend xs => (sl_extend s xs, SONone)
    | SLRemove x => match sl_remove s x with (s', Ok _) => (s', SONone) | (s', Err e) => (s', SORaise e) end
    | SLPop => match sl_pop s with (s', Ok x) => (s', SOItem x) | (s', Err e) => (s', SORaise e) end
    | SLPopLeft => match sl_popleft s with (s', Ok x) => (s', SOItem x) | (s', Err e) => (s', SORaise e) end
    | SLIndex x => (s, match sl_index s x with Ok i => SOIndex i | Err e => SORaise e end)
    | SLContains x => (s, SOBool (memb eqA x (sl_items s)))               (* 31-32, 126-127 *)
    | SLLen => (s, SOIndex (length (sl_items s)))                         (* 47-48, 120-121 *)
    | SLBool => (s, SOBool (match sl_items s with [] => false | _ => true end))  (* 28-29 *)
    | SLIter => (s, SOItems (sl_items s))                                 (* 44-45, 117-118 *)
    | SLGet i => (s, match py_index (sl_items s) i with                   (* 59-60, 143-144 *)
                     | Some x => SOItem x | None => SORaise IndexError end)
    | SLSlice a b => (s, SOItems (py_slice (sl_items s) a b))             (* 135-142, step 1, consumed at once *)
    end.

  Fixpoint sl_run (s : slist) (ops : list sl_op) : list sl_out * slist :=
    match ops with
    | [] => ([], s)
    | o :: t => let (s1, out) := sl_step s o in
                let (outs, s') := sl_run s1 t in (out :: outs, s')
    end.

  (** ** Ranking (ranking.py).  Objects are compared by [eqA], which here also
      stands for identity: id(x) is modelled by x itself. *)
  Record ranking := { rk_list : slist; rk_pos : dict A nat }.

  (** the for loops of 36-37, 47-48 and 56-57: record positions from [start] on *)
  Definition rk_record (start : nat) (l : list A) (d : dict A nat) : dict A nat :=
    fold_left (fun d p => dset eqA d (snd p) (fst p)) (combine (seq start (length l)) l) d.

  (** 31-37 *)
  Definition rk_init (items : list A) : ranking :=
    let l := sl_init items in {| rk_list := l; rk_pos := rk_record 0 (sl_items l) [] |}.

  (** 42-48: self.ranking[index:] is the slice from index on *)
  Definition rk_add (r : ranking) (x : A) : ranking :=
    let (l, index) := sl_add (rk_list r) x in
    {| rk_list := l; rk_pos := rk_record index (skipn index (sl_items l)) (rk_pos r) |}.

  (** 50-57 *)
  Definition rk_remove (r : ranking) (x : A) : ranking * res nat :=
    match sl_index (rk_list r) x with
    | Err e => (r, Err e)
    | Ok index =>
      match sl_remove (rk_list r) x with
      | (l, Err e) => ({| rk_list := l; rk_pos := rk_pos r |}, Err e)
      | (l, Ok _) => ({| rk_list := l; rk_pos := rk_record index (skipn index (sl_items l)) (rk_pos r) |}, Ok index)
      end
    end.

  Inductive rk_op :=
  | RKAdd (x : A) | RKRemove (x : A) | RKCalc (x : A) | RKPosition (x : A) | RKGet (i : Z) | RKSorted.

  Definition rk_step (r : ranking) (o : rk_op) : ranking * sl_out :=
    match o with
    | RKAdd x => (rk_add r x, SONone)
    | RKRemove x => match rk_remove r x with (r', Ok _) => (r', SONone) | (r', Err e) => (r', SORaise e) end
    | RKCalc x => (r, match dget eqA (rk_pos r) x with                     (* 39-40 *)
                      | Some p => SOIndex p | None => SORaise KeyError end)
    | RKPosition x => (r, match sl_index (rk_list r) x with Ok i => SOIndex i | Err e => SORaise e end) (* 59-67 *)
    | RKGet i => (r, match py_index (sl_items (rk_list r)) i with          (* 69-75 *)
                     | Some x => SOItem x | None => SORaise IndexError end)
    | RKSorted => (r, SOItems (sl_items (rk_list r)))                      (* 77-81 *)
    end.

  Fixpoint rk_run (r : ranking) (ops : list rk_op) : list sl_out * ranking :=
    match ops with
    | [] => ([], r)
    | o :: t => let (r1, out) := rk_step r o in
                let (outs, r') := rk_run r1 t in (out :: outs, r')
    end.
End SortedList.
Arguments slist : clear implicits.
Arguments sl_op : clear implicits.
Arguments sl_out : clear implicits.
Arguments rk_op : clear implicits.
Arguments ranking : clear implicits.
