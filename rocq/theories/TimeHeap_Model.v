(** /repo/satella/coding/structures/heaps/time.py: TimeBasedHeap and
    TimeBasedSetHeap.  Entries are pairs (timestamp, item). Timestamps are
    integers (floats in the code; only compared). *)
From Verif Require Import Prelude Heapq_Model Heap_Model.

Set Implicit Arguments.

Section TimeHeap.
  Context {V : Type}.
  Variable ltV : V -> V -> bool.        (* [<] on items *)
  Variable eqV : V -> V -> bool.        (* [==] on items *)
  Variable sub1 : V -> res V.           (* [item[1]], used by mistake in get_timestamp *)

  Definition entry := (Z * V)%type.

  (** Python's [<] on 2-tuples: the first differing component decides *)
  Definition ltE (p q : entry) : bool :=
    if Z.eqb (fst p) (fst q)
    then (if eqV (snd p) (snd q) then false else ltV (snd p) (snd q))
    else Z.ltb (fst p) (fst q).
  (** [==] on 2-tuples *)
  Definition eqE (p q : entry) : bool := Z.eqb (fst p) (fst q) && eqV (snd p) (snd q).

  (** Calls.  [TPut ts v] is put(ts, v) with v not None; [TPutNow now v] is
      put(v), the clock source answering [now]. [TPopLess t n] calls
      pop_less_than(t) and asks the resulting generator for n elements (a full
      loop is any n larger than the heap). *)
  Inductive time_op :=
  | TPut (ts : Z) (v : V)
  | TPutNow (now : Z) (v : V)
  | TPop
  | TPopLess (t : Z) (n : nat)
  | TPopTimestamp (t : Z)
  | TPopItem (v : V)
  | TRemove (v : V)
  | TPeek
  | TItems
  | TGetTimestamp (v : V)
  | TLen
  | TCopy.   (* copy.copy(heap), continue with the copy *)

  Inductive time_out :=
  | TONone
  | TOEntry (e : entry)
  | TOEntries (l : list entry)
  | TOItem (v : V)
  | TOItems (l : list V)
  | TOTime (t : Z)
  | TONat (n : nat)
  | TORaise (e : exn).

  (** heaps/time.py 124-127: the generator loop of pop_less_than, for n calls
      to next(); [pop] is the pop method of the class. *)
  Section PopLess.
    Variable S : Type.
    Variable data_of : S -> list entry.
    Variable pop : S -> S * res entry.
    Fixpoint pop_less_loop (less : Z) (n : nat) (s : S) : S * list entry * option exn :=
      match n with
      | O => (s, [], None)
      | Datatypes.S m =>
        match data_of s with
        | [] => (s, [], None)                                  (* while self *)
        | e :: _ =>
          if Z.leb less (fst e) then (s, [], None)              (* data[0][0] >= less *)
          else match pop s with
               | (s', Err ex) => (s', [], Some ex)
               | (s', Ok x) => match pop_less_loop less m s' with
                               | (s2, l, ex) => (s2, x :: l, ex)
                               end
               end
        end
      end.
  End PopLess.

  Definition pop_entries (r : list entry) (ex : option exn) : time_out :=
    match ex with None => TOEntries r | Some e => TORaise e end.

  (** ** TimeBasedHeap *)

  (** time.py 49-60 pop_timestamp *)
  Definition th_pop_timestamp (data : list entry) (t : Z) : list entry * res V :=
    match find_index (fun e => Z.eqb (fst e) t) data with
    | None => (data, Err ValueError)
    | Some i => match nth_error data i with
                | None => (data, Err ImpossibleExn)
                | Some (_, v) => (heapify ltE (del_nth i data), Ok v)
                end
    end.

  (** time.py 62-68 get_timestamp: compares [elem[1]], not [elem], with the item *)
  Fixpoint th_get_timestamp (data : list entry) (v : V) : time_out :=
    match data with
    | [] => TONone
    | (ts, elem) :: t =>
      match sub1 elem with
      | Err e => TORaise e
      | Ok y => if eqV y v then TOTime ts else th_get_timestamp t v
      end
    end.

  (** time.py 70-83 pop_item *)
  Definition th_pop_item (data : list entry) (v : V) : list entry * res entry :=
    match find_index (fun e => eqV (snd e) v) data with
    | None => (data, Err ValueError)
    | Some i => match nth_error data i with
                | None => (data, Err ImpossibleExn)
                | Some e => (heapify ltE (del_nth i data), Ok e)
                end
    end.

  (** time.py 129-133 remove *)
  Definition th_remove (data : list entry) (v : V) : list entry :=
    heap_filter_map ltE data (Some (fun e => negb (eqV (snd e) v))) None.

  Definition th_step (data : list entry) (o : time_op) : list entry * time_out :=
    match o with
    | TPut ts v => (heap_push ltE data (ts, v), TONone)                 (* 85-98 *)
    | TPutNow now v => (heap_push ltE data (now, v), TONone)            (* 92-93 *)
    | TPop => match heap_pop ltE data with
              | (d, Ok e) => (d, TOEntry e)
              | (d, Err e) => (d, TORaise e)
              end
    | TPopLess t n =>                                                   (* 108-127 *)
      match pop_less_loop (fun d => d) (heap_pop ltE) t n data with
      | (d, l, ex) => (d, pop_entries l ex)
      end
    | TPopTimestamp t => match th_pop_timestamp data t with
                         | (d, Ok v) => (d, TOItem v)
                         | (d, Err e) => (d, TORaise e)
                         end
    | TPopItem v => match th_pop_item data v with
                    | (d, Ok e) => (d, TOEntry e)
                    | (d, Err e) => (d, TORaise e)
                    end
    | TRemove v => (th_remove data v, TONone)
    | TPeek => (data, match data with [] => TORaise IndexError | e :: _ => TOEntry e end) (* 100-106 *)
    | TItems => (data, TOItems (map snd data))                          (* 35-40 *)
    | TGetTimestamp v => (data, th_get_timestamp data v)
    | TLen => (data, TONat (length data))
    | TCopy => ([], TONone)
      (* base.py 69-70: self.__class__(copy of data); TimeBasedHeap.__init__
         (time.py 42-47) takes the list as its clock source and starts empty *)
    end.

  Fixpoint th_run (data : list entry) (ops : list time_op) : list time_out * list entry :=
    match ops with
    | [] => ([], data)
    | o :: t => let (d, out) := th_step data o in
                let (outs, d') := th_run d t in (out :: outs, d')
    end.

  (** ** TimeBasedSetHeap: data plus item_to_timestamp *)
  Record tsh := { ts_data : list entry; ts_map : dict V Z }.
  Definition tsh_init : tsh := {| ts_data := []; ts_map := [] |}.       (* 181-187 *)

  (** 204-218 pop_item *)
  Definition tsh_pop_item (s : tsh) (v : V) : tsh * res entry :=
    match find_index (fun e => eqV (snd e) v) (ts_data s) with
    | None => (s, Err ValueError)
    | Some i =>
      match nth_error (ts_data s) i with
      | None => (s, Err ImpossibleExn)
      | Some e =>
        let d := heapify ltE (del_nth i (ts_data s)) in
        if dmem eqV (ts_map s) (snd e)
        then ({| ts_data := d; ts_map := ddel eqV (ts_map s) (snd e) |}, Ok e)
        else ({| ts_data := d; ts_map := ts_map s |}, Err KeyError)
      end
    end.

  (** 189-202 pop_timestamp: the entry is dropped from the list, then from the
      map (KeyError when missing), then the list is heapified *)
  Definition tsh_pop_timestamp (s : tsh) (t : Z) : tsh * res V :=
    match find_index (fun e => Z.eqb (fst e) t) (ts_data s) with
    | None => (s, Err ValueError)
    | Some i =>
      match nth_error (ts_data s) i with
      | None => (s, Err ImpossibleExn)
      | Some e =>
        let d := del_nth i (ts_data s) in
        if dmem eqV (ts_map s) (snd e)
        then ({| ts_data := heapify ltE d; ts_map := ddel eqV (ts_map s) (snd e) |}, Ok (snd e))
        else ({| ts_data := d; ts_map := ts_map s |}, Err KeyError)
      end
    end.

  (** 220-225 push *)
  Definition tsh_push (s : tsh) (e : entry) : tsh * option exn :=
    let r := if dmem eqV (ts_map s) (snd e)
             then match tsh_pop_item s (snd e) with
                  | (s', Ok _) => (s', None)
                  | (s', Err ex) => (s', Some ex)
                  end
             else (s, None) in
    match r with
    | (s', Some ex) => (s', Some ex)
    | (s', None) => ({| ts_data := heap_push ltE (ts_data s') e;
                        ts_map := dset eqV (ts_map s') (snd e) (fst e) |}, None)
    end.

  (** 227-230 pop *)
  Definition tsh_pop (s : tsh) : tsh * res entry :=
    match heappop ltE (ts_data s) with
    | None => (s, Err IndexError)
    | Some (e, d) =>
      if dmem eqV (ts_map s) (snd e)
      then ({| ts_data := d; ts_map := ddel eqV (ts_map s) (snd e) |}, Ok e)
      else ({| ts_data := d; ts_map := ts_map s |}, Err KeyError)
    end.

  Definition unit_out (r : option exn) : time_out :=
    match r with None => TONone | Some e => TORaise e end.

  Definition tsh_step (s : tsh) (o : time_op) : tsh * time_out :=
    match o with
    | TPut ts v => let (s', r) := tsh_push s (ts, v) in (s', unit_out r)         (* 232-245 *)
    | TPutNow now v => let (s', r) := tsh_push s (now, v) in (s', unit_out r)
    | TPop => match tsh_pop s with
              | (s', Ok e) => (s', TOEntry e)
              | (s', Err e) => (s', TORaise e)
              end
    | TPopLess t n =>                                                             (* 247-265 *)
      match pop_less_loop ts_data tsh_pop t n s with
      | (s', l, ex) => (s', pop_entries l ex)
      end
    | TPopTimestamp t => match tsh_pop_timestamp s t with
                         | (s', Ok v) => (s', TOItem v)
                         | (s', Err e) => (s', TORaise e)
                         end
    | TPopItem v => match tsh_pop_item s v with
                    | (s', Ok e) => (s', TOEntry e)
                    | (s', Err e) => (s', TORaise e)
                    end
    | TRemove v => ({| ts_data := heap_filter_map ltE (ts_data s)                 (* 267-271 *)
                                    (Some (fun e => negb (eqV (snd e) v))) None;
                       ts_map := ts_map s |}, TONone)
    | TPeek => (s, TORaise AttributeError)      (* not defined on TimeBasedSetHeap *)
    | TItems => (s, TOItems (map snd (ts_data s)))                                (* 174-179 *)
    | TGetTimestamp v => (s, match dget eqV (ts_map s) v with                     (* 165-172 *)
                             | Some t => TOTime t
                             | None => TORaise ValueError
                             end)
    | TLen => (s, TONat (length (ts_data s)))
    | TCopy => (tsh_init, TONone)   (* as for TimeBasedHeap: time.py 181-187 ignores the data *)
    end.

  Fixpoint tsh_run (s : tsh) (ops : list time_op) : list time_out * tsh :=
    match ops with
    | [] => ([], s)
    | o :: t => let (s1, out) := tsh_step s o in
                let (outs, s') := tsh_run s1 t in (out :: outs, s')
    end.
End TimeHeap.
Arguments time_op : clear implicits.
Arguments time_out : clear implicits.
Arguments tsh : clear implicits.
Arguments entry : clear implicits.
