(** /repo/satella/coding/structures/dictionaries/expiring.py: ExpiringEntryDict.
    Keys are not None (TimeBasedSetHeap.put treats None specially) and are
    orderable (the heap compares them when two timestamps are equal). *)
From Verif Require Import Prelude Heapq_Model Heap_Model TimeHeap_Model.

Set Implicit Arguments.

Section Expiring.
  Context {K V : Type}.
  Variable ltK eqK : K -> K -> bool.
  Variable timeout : Z.                      (* expiration_timeout *)

  (** 162-177: data and key_to_expiration_time ([expire_on] is never used) *)
  Record exd := { ex_data : dict K V; ex_heap : tsh K }.
  Definition ex_init : exd := {| ex_data := []; ex_heap := tsh_init |}.

  (** 203-207 cleanup at time_getter() = less: the for loop over the generator
      pop_less_than; a KeyError of [del self.data[key]] leaves the loop. *)
  Fixpoint ex_cleanup_loop (fuel : nat) (less : Z) (s : exd) : exd * option exn :=
    match ts_data (ex_heap s) with
    | [] => (s, None)
    | e :: _ =>
      if Z.leb less (fst e) then (s, None)
      else match fuel with
           | O => (s, Some Diverges)
           | S f =>
             match tsh_pop ltK eqK (ex_heap s) with
             | (h, Err ex) => ({| ex_data := ex_data s; ex_heap := h |}, Some ex)
             | (h, Ok (_, k)) =>
               if dmem eqK (ex_data s) k
               then ex_cleanup_loop f less {| ex_data := ddel eqK (ex_data s) k; ex_heap := h |}
               else ({| ex_data := ex_data s; ex_heap := h |}, Some KeyError)
             end
           end
    end.
  Definition ex_cleanup (s : exd) (now : Z) : exd * option exn :=
    ex_cleanup_loop (length (ts_data (ex_heap s))) now s.

  (** 209-212 __setitem__ *)
  Definition ex_setitem (s : exd) (k : K) (v : V) (now : Z) : exd * option exn :=
    match tsh_push ltK eqK (ex_heap s) ((now + timeout)%Z, k) with
    | (h, Some e) => ({| ex_data := ex_data s; ex_heap := h |}, Some e)
    | (h, None) => ({| ex_data := dset eqK (ex_data s) k v; ex_heap := h |}, None)
    end.

  (** 214-221 __getitem__, ValueError rethrown as KeyError *)
  Definition ex_getitem (s : exd) (k : K) (now : Z) : exd * res V :=
    match dget eqK (ts_map (ex_heap s)) k with
    | None => (s, Err KeyError)
    | Some ts =>
      if Z.ltb ts now then
        (if dmem eqK (ex_data s) k
         then ({| ex_data := ddel eqK (ex_data s) k; ex_heap := ex_heap s |}, Err KeyError)
         else (s, Err KeyError))
      else (s, match dget eqK (ex_data s) k with Some v => Ok v | None => Err KeyError end)
    end.

  (** 223-226 __delitem__ *)
  Definition ex_delitem (s : exd) (k : K) : exd * option exn :=
    match tsh_pop_item ltK eqK (ex_heap s) k with
    | (h, Err e) => ({| ex_data := ex_data s; ex_heap := h |}, Some e)
    | (h, Ok _) =>
      if dmem eqK (ex_data s) k
      then ({| ex_data := ddel eqK (ex_data s) k; ex_heap := h |}, None)
      else ({| ex_data := ex_data s; ex_heap := h |}, Some KeyError)
    end.

  (** 179-189 __contains__ *)
  Definition ex_contains (s : exd) (k : K) (now : Z) : exd * res bool :=
    match dget eqK (ts_map (ex_heap s)) k with
    | None => (s, Ok false)
    | Some ts =>
      if Z.ltb ts now
      then match ex_delitem s k with
           | (s', None) => (s', Ok false)
           | (s', Some e) => (s', Err e)
           end
      else (s, Ok true)
    end.

  (** Calls; t is what time_getter() says (for [EDel] and [EGetTimestamp], which
      do not read the clock, the moment of the call). [EGetD], [EPop] and
      [ESetDefault] are get(k, d), pop(k) and setdefault(k, v) of
      collections.abc.MutableMapping. *)
  Inductive ex_op :=
  | EGet (k : K) (t : Z)
  | EGetD (k : K) (d : V) (t : Z)
  | ESet (k : K) (v : V) (t : Z)
  | EDel (k : K) (t : Z)
  | EPop (k : K) (t : Z)
  | ESetDefault (k : K) (v : V) (t t2 : Z)
  | EContains (k : K) (t : Z)
  | ELen (t : Z)
  | EIter (t : Z)
  | ECleanup (t : Z)
  | EGetTimestamp (k : K) (t : Z).
  Inductive ex_out :=
  | EONone
  | EOVal (v : V)
  | EOBool (b : bool)
  | EONat (n : nat)
  | EOKeys (l : list K)
  | EOTime (t : Z)
  | EORaise (e : exn).

  Definition eo_unit (p : exd * option exn) : exd * ex_out :=
    (fst p, match snd p with None => EONone | Some e => EORaise e end).
  Definition eo_val (p : exd * res V) : exd * ex_out :=
    (fst p, match snd p with Ok v => EOVal v | Err e => EORaise e end).

  Definition ex_step (s : exd) (o : ex_op) : exd * ex_out :=
    match o with
    | EGet k t => eo_val (ex_getitem s k t)
    | EGetD k d t => match ex_getitem s k t with
                     | (s', Err KeyError) => (s', EOVal d)
                     | p => eo_val p
                     end
    | ESet k v t => eo_unit (ex_setitem s k v t)
    | EDel k _ => eo_unit (ex_delitem s k)
    | EPop k t => match ex_getitem s k t with
                  | (s', Ok v) => match ex_delitem s' k with
                                  | (s2, None) => (s2, EOVal v)
                                  | (s2, Some e) => (s2, EORaise e)
                                  end
                  | p => eo_val p
                  end
    | ESetDefault k v t t2 =>
      match ex_getitem s k t with
      | (s', Err KeyError) => match ex_setitem s' k v t2 with
                              | (s2, None) => (s2, EOVal v)
                              | (s2, Some e) => (s2, EORaise e)
                              end
      | p => eo_val p
      end
    | EContains k t => match ex_contains s k t with
                       | (s', Ok b) => (s', EOBool b)
                       | (s', Err e) => (s', EORaise e)
                       end
    | ELen t => match ex_cleanup s t with                                   (* 158-160 *)
                | (s', None) => (s', EONat (length (ex_data s')))
                | (s', Some e) => (s', EORaise e)
                end
    | EIter t => match ex_cleanup s t with                                  (* 199-201 *)
                 | (s', None) => (s', EOKeys (dkeys (ex_data s')))
                 | (s', Some e) => (s', EORaise e)
                 end
    | ECleanup t => eo_unit (ex_cleanup s t)
    | EGetTimestamp k _ =>                                                  (* 191-197 *)
      (s, match dget eqK (ts_map (ex_heap s)) k with Some t => EOTime t | None => EORaise KeyError end)
    end.

  Fixpoint ex_run (s : exd) (ops : list ex_op) : list ex_out * exd :=
    match ops with
    | [] => ([], s)
    | o :: t => let (s1, out) := ex_step s o in
                let (outs, s') := ex_run s1 t in (out :: outs, s')
    end.
End Expiring.
Arguments exd : clear implicits.
Arguments ex_op : clear implicits.
Arguments ex_out : clear implicits.
