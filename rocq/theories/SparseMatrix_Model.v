(** /repo/satella/coding/structures/sparse_matrix.py: SparseMatrix.  The values
    are those other than None; [option V] is a value or None. *)
From Verif Require Import Prelude.

Set Implicit Arguments.

Section SparseMatrix.
  Context {V : Type}.
  Variable ltV : V -> V -> bool.                 (* [<] on values, for min and max *)

  (** 87-93; the defaultdicts are plain dictionaries, lookups that would create
      an entry do so explicitly below *)
  Record smat := {
    sm_rows : dict Z (dict Z V);                 (* rows_dict: row number => column number => value *)
    sm_kcc : dict Z nat;                         (* known_column_count *)
    sm_nc : Z; sm_nr : Z
  }.
  Definition sm_empty : smat := {| sm_rows := []; sm_kcc := []; sm_nc := 0; sm_nr := 0 |}.

  (** 10-19 _cleanup_key for an int *)
  Definition sanitize (i n : Z) : Z := if Z.ltb i 0 then (i + n)%Z else i.

  (** max() of the keys of a dictionary; ValueError when it is empty *)
  Fixpoint zmax (l : list Z) : option Z :=
    match l with
    | [] => None
    | x :: t => match zmax t with None => Some x | Some m => Some (Z.max x m) end
    end.

  (** 213-217 *)
  Definition kcc_incr (d : dict Z nat) (c : Z) : dict Z nat :=
    match dget Z.eqb d c with None => dset Z.eqb d c 1 | Some n => dset Z.eqb d c (S n) end.
  (** 219-223; [None] is the KeyError of an unknown column *)
  Definition kcc_decr (d : dict Z nat) (c : Z) : option (dict Z nat) :=
    match dget Z.eqb d c with
    | None => None
    | Some n => Some (if Nat.eqb n 1 then ddel Z.eqb d c else dset Z.eqb d c (n - 1))
    end.

  (** 271-280: assigning one cell, indices already cleaned up *)
  Definition sm_put (s : smat) (c r : Z) (v : V) : smat :=
    let nc := if Z.leb (sm_nc s) c then (c + 1)%Z else sm_nc s in
    let nr := if Z.leb (sm_nr s) r then (r + 1)%Z else sm_nr s in
    match dget Z.eqb (sm_rows s) r with
    | None => {| sm_rows := dset Z.eqb (sm_rows s) r [(c, v)]; sm_kcc := kcc_incr (sm_kcc s) c; sm_nc := nc; sm_nr := nr |}
    | Some row =>
      {| sm_rows := dset Z.eqb (sm_rows s) r (dset Z.eqb row c v);
         sm_kcc := if dmem Z.eqb row c then sm_kcc s else kcc_incr (sm_kcc s) c;
         sm_nc := nc; sm_nr := nr |}
    end.

  (** 327-339: deleting one cell, indices already cleaned up. The KeyError of
      _decrement_column_count is silenced (314); the ValueError of max() is not
      a TypeError and so is not silenced (306-312). *)
  Definition sm_drop (s : smat) (c r : Z) : smat * option exn :=
    match dget Z.eqb (sm_rows s) r with
    | None => (s, None)
    | Some row =>
      if dmem Z.eqb row c then
        let row' := ddel Z.eqb row c in
        let rows' := match row' with [] => ddel Z.eqb (sm_rows s) r | _ => dset Z.eqb (sm_rows s) r row' end in
        match kcc_decr (sm_kcc s) c with
        | None => ({| sm_rows := rows'; sm_kcc := sm_kcc s; sm_nc := sm_nc s; sm_nr := sm_nr s |}, None)
        | Some kcc' =>
          match zmax (dkeys kcc') with
          | None => ({| sm_rows := rows'; sm_kcc := kcc'; sm_nc := sm_nc s; sm_nr := sm_nr s |}, Some ValueError)
          | Some mc =>
            match zmax (dkeys rows') with
            | None => ({| sm_rows := rows'; sm_kcc := kcc'; sm_nc := mc + 1; sm_nr := sm_nr s |}, Some ValueError)
            | Some mr => ({| sm_rows := rows'; sm_kcc := kcc'; sm_nc := mc + 1; sm_nr := mr + 1 |}, None)
            end
          end
        end
      else (s, None)
    end.

  (** 314-326 __delitem__ with two ints *)
  Definition sm_delitem (s : smat) (c r : Z) : smat * option exn :=
    sm_drop s (sanitize c (sm_nc s)) (sanitize r (sm_nr s)).
  (** 252-256, 270 __setitem__ with two ints *)
  Definition sm_setitem (s : smat) (c r : Z) (v : option V) : smat * option exn :=
    match v with
    | None => sm_delitem s c r
    | Some v => (sm_put s (sanitize c (sm_nc s)) (sanitize r (sm_nr s)) v, None)
    end.
  (** 292-304 __getitem__ with two ints *)
  Definition sm_getitem (s : smat) (c0 r0 : Z) : res (option V) :=
    let c := sanitize c0 (sm_nc s) in
    let r := sanitize r0 (sm_nr s) in
    if Z.leb (sm_nr s) r then Err IndexError
    else if Z.leb (sm_nc s) c then Err IndexError
    else match dget Z.eqb (sm_rows s) r with
         | None => Ok None
         | Some row => Ok (dget Z.eqb row c)
         end.

  (** a for loop whose body may raise *)
  Section Loops.
    Variables (S A : Type).
    Variable body : S -> A -> S * option exn.
    Fixpoint for_each (l : list A) (s : S) : S * option exn :=
      match l with
      | [] => (s, None)
      | x :: t => match body s x with
                  | (s', Some e) => (s', Some e)
                  | (s', None) => for_each t s'
                  end
      end.
  End Loops.
  Fixpoint enumZ {A} (i : Z) (l : list A) : list (Z * A) :=        (* enumerate *)
    match l with [] => [] | x :: t => (i, x) :: enumZ (i + 1) t end.
  Definition rangeZ (n : Z) : list Z := map Z.of_nat (seq 0 (Z.to_nat n)).    (* range(n) *)

  (** 264-266 [sm[:, r] = vs] *)
  Definition sm_set_row (s : smat) (r0 : Z) (vs : list (option V)) : smat * option exn :=
    let r := sanitize r0 (sm_nr s) in
    for_each (fun s p => sm_setitem s (fst p) r (snd p)) (enumZ 0 vs) s.
  (** 267-269 [sm[c, :] = vs] *)
  Definition sm_set_col (s : smat) (c0 : Z) (vs : list (option V)) : smat * option exn :=
    let c := sanitize c0 (sm_nc s) in
    for_each (fun s p => sm_setitem s c (fst p) (snd p)) (enumZ 0 vs) s.
  (** 151-164 from_iterable *)
  Definition sm_from (m : list (list (option V))) : smat * option exn :=
    for_each (fun s p => for_each (fun s q => sm_setitem s (fst q) (fst p) (snd q)) (enumZ 0 (snd p)) s)
             (enumZ 0 m) sm_empty.
  (** 258-263 [sm[:, :] = m] *)
  Definition sm_set_all (s : smat) (m : list (list (option V))) : smat * option exn :=
    match sm_from m with
    | (s', None) => (s', None)
    | (_, Some e) => (s, Some e)
    end.
  (** 92-93: __init__ *)
  Definition sm_init (m : list (list (option V))) : smat * option exn :=
    match m with [] => (sm_empty, None) | _ => sm_set_all sm_empty m end.

  (** 320-322 [del sm[:, r]] and 323-325 [del sm[c, :]] *)
  Definition sm_del_row (s : smat) (r0 : Z) : smat * option exn :=
    let r := sanitize r0 (sm_nr s) in
    for_each (fun s c => sm_delitem s c r) (rangeZ (sm_nc s)) s.
  Definition sm_del_col (s : smat) (c0 : Z) : smat * option exn :=
    let c := sanitize c0 (sm_nc s) in
    for_each (fun s r => sm_delitem s c r) (rangeZ (sm_nr s)) s.

  (** 225-233 delete_row; looking up a missing row creates it *)
  Definition sm_delete_row (s : smat) (r : Z) : smat * option exn :=
    let rows := match dget Z.eqb (sm_rows s) r with None => dset Z.eqb (sm_rows s) r [] | Some _ => sm_rows s end in
    let s1 := {| sm_rows := rows; sm_kcc := sm_kcc s; sm_nc := sm_nc s; sm_nr := sm_nr s |} in
    let cols := match dget Z.eqb rows r with None => [] | Some row => dkeys row end in
    for_each (fun s c => sm_delitem s c r) cols s1.

  (** 122-130 append_row *)
  Definition sm_append_row (s : smat) (vs : list (option V)) : smat * option exn :=
    let r := sm_nr s in
    for_each (fun s p => sm_setitem s (fst p) r (snd p)) (enumZ 0 vs) s.

  (** 182-200 get_row *)
  Definition sm_get_row (s : smat) (r : Z) : list (option V) :=
    match dget Z.eqb (sm_rows s) r with
    | None => map (fun _ => None) (rangeZ (sm_nc s))
    | Some row => map (fun i => dget Z.eqb row i) (rangeZ (sm_nc s))
    end.
  (** 176-177 __iter__ *)
  Definition sm_iter (s : smat) : list (list (option V)) := map (sm_get_row s) (rangeZ (sm_nr s)).

  (** a list comprehension whose elements may raise *)
  Fixpoint collect {A} (l : list (res A)) : res (list A) :=
    match l with
    | [] => Ok []
    | Err e :: _ => Err e
    | Ok x :: t => res_map (cons x) (collect t)
    end.
  (** 288-289 [sm[:, r]], 290-291 [sm[c, :]] *)
  Definition sm_row_slice (s : smat) (r0 : Z) : res (list (option V)) :=
    let r := sanitize r0 (sm_nr s) in collect (map (fun c => sm_getitem s c r) (rangeZ (sm_nc s))).
  Definition sm_col_slice (s : smat) (c0 : Z) : res (list (option V)) :=
    let c := sanitize c0 (sm_nc s) in collect (map (fun r => sm_getitem s c r) (rangeZ (sm_nr s))).

  (** 56-85 max and min; [better x item] is [x > item] or [x < item]. Comparing
      with None is a TypeError. *)
  Fixpoint sm_best_loop (better : V -> V -> bool) (l : list (option V)) (item : option V) : res (option V) :=
    match l with
    | [] => Ok item
    | None :: t => sm_best_loop better t item
    | Some x :: t => match item with
                     | None => Err TypeError
                     | Some y => sm_best_loop better t (if better x y then Some x else item)
                     end
    end.
  Definition sm_best (better : V -> V -> bool) (s : smat) : res (option V) :=
    match sm_getitem s 0 0 with
    | Err e => Err e
    | Ok item => sm_best_loop better (concat (sm_iter s)) item
    end.

  (** 202-211 shoot *)
  Definition sm_shoot (s : smat) : smat * option exn :=
    for_each (fun n p => for_each (fun n q => sm_setitem n (fst q * 2) (fst p * 2) (snd q)) (enumZ 0 (snd p)) n)
             (enumZ 0 (sm_iter s)) sm_empty.

  (** 95-120 get_neighbour_coordinates *)
  Definition sm_neighbours (s : smat) (col row : Z) (diagonals : bool) : list (Z * Z) :=
    flat_map (fun dr =>
      flat_map (fun dc =>
        if Z.eqb dr 0 && Z.eqb dc 0 then []
        else if Z.ltb 1 (Z.abs dc + Z.abs dr) && negb diagonals then []
        else let cc := (col + dc)%Z in
             let cr := (row + dr)%Z in
             if Z.ltb cc 0 || Z.ltb cr 0 then []
             else if Z.leb (sm_nc s) cc || Z.leb (sm_nr s) cr then []
             else [(cc, cr)]) [(-1)%Z; 0%Z; 1%Z]) [(-1)%Z; 0%Z; 1%Z].

  (** Calls. [MShoot] continues with the returned matrix. *)
  Inductive sm_op :=
  | MSet (c r : Z) (v : option V) | MSetRow (r : Z) (vs : list (option V)) | MSetCol (c : Z) (vs : list (option V))
  | MSetAll (m : list (list (option V)))
  | MDel (c r : Z) | MDelRow (r : Z) | MDelCol (c : Z) | MClear | MDeleteRow (r : Z)
  | MAppendRow (vs : list (option V))
  | MGet (c r : Z) | MRow (r : Z) | MCol (c : Z) | MGetRow (r : Z) | MIter
  | MRows | MCols | MLen | MBool | MMax | MMin | MShoot | MNeighbours (c r : Z) (diagonals : bool).
  Inductive sm_out :=
  | MONone | MOCell (v : option V) | MOList (l : list (option V)) | MOMatrix (m : list (list (option V)))
  | MOZ (z : Z) | MOBool (b : bool) | MOCoords (l : list (Z * Z)) | MORaise (e : exn).

  Definition mo_unit (p : smat * option exn) : smat * sm_out :=
    (fst p, match snd p with None => MONone | Some e => MORaise e end).
  Definition mo_res {A} (f : A -> sm_out) (r : res A) : sm_out :=
    match r with Ok a => f a | Err e => MORaise e end.

  Definition sm_step (s : smat) (o : sm_op) : smat * sm_out :=
    match o with
    | MSet c r v => mo_unit (sm_setitem s c r v)
    | MSetRow r vs => mo_unit (sm_set_row s r vs)
    | MSetCol c vs => mo_unit (sm_set_col s c vs)
    | MSetAll m => mo_unit (sm_set_all s m)
    | MDel c r => mo_unit (sm_delitem s c r)
    | MDelRow r => mo_unit (sm_del_row s r)
    | MDelCol c => mo_unit (sm_del_col s c)
    | MClear => (sm_empty, MONone)                                       (* 132-139, 318-319 *)
    | MDeleteRow r => mo_unit (sm_delete_row s r)
    | MAppendRow vs => mo_unit (sm_append_row s vs)
    | MGet c r => (s, mo_res MOCell (sm_getitem s c r))
    | MRow r => (s, mo_res MOList (sm_row_slice s r))
    | MCol c => (s, mo_res MOList (sm_col_slice s c))
    | MGetRow r => (s, MOList (sm_get_row s r))
    | MIter => (s, MOMatrix (sm_iter s))                                 (* 176-177, 286-287 *)
    | MRows | MLen => (s, MOZ (sm_nr s))                                 (* 171-174, 179-180 *)
    | MCols => (s, MOZ (sm_nc s))                                        (* 166-169 *)
    | MBool => (s, MOBool (Z.eqb (sm_nr s) 0))                           (* 144-145 *)
    | MMax => (s, mo_res MOCell (sm_best (fun x y => ltV y x) s))
    | MMin => (s, mo_res MOCell (sm_best ltV s))
    | MShoot => match sm_shoot s with (s', None) => (s', MONone) | (_, Some e) => (s, MORaise e) end
    | MNeighbours c r d => (s, MOCoords (sm_neighbours s c r d))
    end.

  Fixpoint sm_run (s : smat) (ops : list sm_op) : list sm_out * smat :=
    match ops with
    | [] => ([], s)
    | o :: t => let (s1, out) := sm_step s o in
                let (outs, s') := sm_run s1 t in (out :: outs, s')
    end.
End SparseMatrix.
Arguments smat : clear implicits.
Arguments sm_op : clear implicits.
Arguments sm_out : clear implicits.
