(** Model of the functions of satella/coding/sequences/iterators.py and choose.py.

    An iterator is the list of the elements it has still to give (see
    PyGen_Model). The decorators of these functions are resolved here: for_argument
    (iter) makes an iterator of the argument; silence_excs(StopIteration) on a
    generator function has no effect on what its body raises later, when iterated
    over, and on a plain function replaces StopIteration by a return value. The
    deprecation warnings are left out. Numbers are integers: rounding of floats is
    not modelled. *)
From Verif Require Import Prelude PySeq_Model PyGen_Model.
Set Implicit Arguments.

Section Iterators.
  Context {T : Type}.

  (** [yield from iterator] *)
  Fixpoint yield_from (l : list T) : gen (list T) T :=
    match l with [] => gstop [] | x :: t => gyield x t (yield_from t) end.
  (** [for i in range(n): next(iterator)]; None when StopIteration is raised (the
      iterator is exhausted then) *)
  Fixpoint advance (n : nat) (l : list T) : option (list T) :=
    match n, l with
    | O, _ => Some l
    | S _, [] => None
    | S n', _ :: t => advance n' t
    end.

  (** sequences/iterators.py:11-27 iterate_callable; [exc_classes] tells the exceptions that
      end the iteration. Bounded by [fuel], since the callable may never raise. *)
  Fixpoint iterate_callable (fuel : nat) (clbl : Z -> res T) (exc_classes : exn -> bool) (i : Z) : gen unit T :=
    match fuel with
    | O => graise Diverges tt
    | S fuel' => match clbl i with
                 | Ok x => gyield x tt (iterate_callable fuel' clbl exc_classes (i + 1)%Z)
                 | Err e => if exc_classes e then gstop tt else graise e tt
                 end
    end.

  (** sequences/iterators.py:43-50 length *)
  Fixpoint length_loop (i : Z) (l : list T) : Z := match l with [] => i | _ :: t => length_loop (i + 1)%Z t end.
  Definition it_length (l : list T) : Z := length_loop 0 l.

  (** sequences/iterators.py:93-111 append_sequence; a tuple is a list *)
  Fixpoint append_sequence (elems : list T) (l : list (list T)) : gen (list (list T)) (list T) :=
    match l with [] => gstop [] | tpl :: t => gyield (tpl ++ elems) t (append_sequence elems t) end.

  (** sequences/iterators.py:253-269 unique *)
  Fixpoint unique_loop (eqb : T -> T -> bool) (already_seen l : list T) : gen (list T) T :=
    match l with
    | [] => gstop []
    | elem :: t => if memb eqb elem already_seen then unique_loop eqb already_seen t
                   else gyield elem t (unique_loop eqb (already_seen ++ [elem]) t)
    end.
  Definition unique (eqb : T -> T -> bool) (l : list T) : gen (list T) T := unique_loop eqb [] l.

  (** sequences/iterators.py:272-283 even *)
  Fixpoint even (l : list T) : gen (list T) T :=
    match l with
    | [] => gstop []
    | x :: t => gyield x t (match t with [] => gstop [] | _ :: t' => even t' end)
    end.
  (** sequences/iterators.py:286-297 odd *)
  Fixpoint odd (l : list T) : gen (list T) T :=
    match l with
    | [] => gstop []
    | _ :: t => match t with [] => gstop [] | y :: t' => gyield y t' (odd t') end
    end.

  (** sequences/iterators.py:300-325 count; [start or 0], [if start_at] *)
  Fixpoint count_loop (num step : Z) (l : list T) : gen (list T) Z :=
    match l with [] => gstop [] | _ :: t => gyield num t (count_loop (num + step)%Z step t) end.
  Definition count (l : list T) (start : option Z) (step : Z) (start_at : option Z) : gen (list T) Z :=
    let start' := match start_at with Some z => if (z =? 0)%Z then start else start_at | None => start end in
    count_loop (match start' with Some z => z | None => 0%Z end) step l.

  (** sequences/iterators.py:340-355 infinite_counter, its first [n] elements *)
  Fixpoint infinite_counter (i step : Z) (n : nat) : list Z :=
    match n with O => [] | S n' => i :: infinite_counter (i + step)%Z step n' end.

  (** sequences/iterators.py:366-382 other_sequence_no_longer_than; two sources *)
  Fixpoint no_longer_than {U : Type} (base : list U) (other : list T) : gen (list U * list T) T :=
    match base with
    | [] => gstop ([], other)
    | _ :: b => match other with
                | [] => gstop (b, [])
                | x :: o => gyield x (b, o) (no_longer_than b o)
                end
    end.

  (** sequences/iterators.py:837-856 take_n: what it returns or raises, and what is left *)
  Fixpoint take_loop (n : nat) (l output : list T) : list T * list T :=
    match n, l with
    | O, _ => (output, l)
    | S _, [] => (output, [])
    | S n', x :: t => take_loop n' t (output ++ [x])
    end.
  Definition take_n (l : list T) (n skip : Z) : res (list T) * list T :=
    match advance (Z.to_nat skip) l with
    | None => (Err StopIteration, [])
    | Some r => let (out, left) := take_loop (Z.to_nat n) r [] in (Ok out, left)
    end.

  (** sequences/iterators.py:404-418, the body of shift: what the returned iterator gives.
      [reversible]: the argument has __reversed__ (and can be iterated over anew) *)
  Definition shift (reversible : bool) (l : list T) (factor : Z) : res (list T) :=
    if (0 <=? factor)%Z
    then match advance (Z.to_nat factor) l with
         | None => Err StopIteration
         | Some iterator => Ok (iterator ++ firstn (Z.to_nat factor) l)
         end
    else if reversible
         then match fst (take_n (rev l) (- factor) 0) with
              | Err e => Err e
              | Ok elements => gen_list (no_longer_than l (rev elements ++ l))
              end
         else Ok (py_slice l (Some factor) None ++ py_slice l None (Some factor)).

  (** [zip( *iterators)]: the first element of each, until one has none *)
  Fixpoint heads (ls : list (list T)) : option (list T * list (list T)) :=
    match ls with
    | [] => Some ([], [])
    | [] :: _ => None
    | (x :: t) :: r => match heads r with Some (hs, ts) => Some (x :: hs, t :: ts) | None => None end
    end.
  Fixpoint zip_from (l : list T) (ls : list (list T)) : list (list T) :=
    match l with
    | [] => []
    | x :: t => match heads ls with Some (hs, ts) => (x :: hs) :: zip_from t ts | None => [] end
    end.
  Definition py_zip (ls : list (list T)) : list (list T) := match ls with [] => [] | l :: r => zip_from l r end.

  (** sequences/iterators.py:451-458, the body of zip_shifted. Arguments: iterables, with a
      shift or without. The result None is Python's None, returned when
      StopIteration is silenced. *)
  Fixpoint shift_all (args : list (bool * list T * option Z)) : res (list (list T)) :=
    match args with
    | [] => Ok []
    | (rv, l, None) :: r => res_map (cons l) (shift_all r)
    | (rv, l, Some f) :: r => res_bind (shift rv l f) (fun s => res_map (cons s) (shift_all r))
    end.
  Definition zip_shifted (args : list (bool * list T * option Z)) : res (option (list (list T))) :=
    match shift_all args with
    | Ok ls => Ok (Some (py_zip ls))
    | Err StopIteration => Ok None
    | Err e => Err e
    end.

  (** sequences/iterators.py:461-477 skip_first *)
  Definition skip_first (l : list T) (n : Z) : gen (list T) T :=
    match advance (Z.to_nat n) l with
    | None => graise StopIterationInGenerator []
    | Some r => yield_from r
    end.
  (** sequences/iterators.py:608-626 stop_after *)
  Fixpoint stop_loop (n : nat) (l : list T) : gen (list T) T :=
    match n, l with
    | O, _ => gstop l
    | S _, [] => graise StopIterationInGenerator []
    | S n', x :: t => gyield x t (stop_loop n' t)
    end.
  Definition stop_after (l : list T) (n : Z) : gen (list T) T := stop_loop (Z.to_nat n) l.

  (** sequences/iterators.py:629-643 n_th *)
  Definition n_th (l : list T) (n : Z) : res T * list T :=
    match advance (Z.to_nat n) l with
    | Some (x :: r) => (Ok x, r)
    | _ => (Err IndexError, [])
    end.

  (** sequences/iterators.py:702-722 is_empty; StopIteration is silenced into True *)
  Definition is_empty (l : list T) (exhaust : bool) : bool * list T :=
    if exhaust then ((it_length l =? 0)%Z, [])
    else match l with [] => (true, []) | _ :: t => (false, t) end.

  (** sequences/iterators.py:763-788 smart_zip; an element is a tuple (inr) or not (inl) *)
  Definition smart_row (row : list (T + list T)) : list T :=
    fold_left (fun a elem => match elem with inr tpl => a ++ tpl | inl x => a ++ [x] end) row [].

  (** sequences/iterators.py:791-803 enumerate2 *)
  Fixpoint enumerate2 (l : list T) (v step : Z) : gen (list T) (Z * T) :=
    match l with [] => gstop [] | item :: t => gyield (v, item) t (enumerate2 t (v + step)%Z step) end.

  (** sequences/iterators.py:806-834 smart_enumerate; a row that tuple() refuses is None *)
  Fixpoint smart_enumerate (l : list (option (list T))) (i step : Z) : gen (list (option (list T))) (Z * list T) :=
    match l with
    | [] => gstop []
    | Some row :: t => gyield (i, row) t (smart_enumerate t (i + step)%Z step)
    | None :: t => graise TypeError t
    end.

  (** choose.py:35-72 choose, from the loop on: what it returns or raises, and what
      is left of the iterable *)
  Fixpoint choose_loop (filter_fun : T -> bool) (check_multiple : bool) (candidate : option T) (l : list T) : res T * list T :=
    match l with
    | [] => match candidate with None => (Err ValueError, []) | Some x => (Ok x, []) end
    | elem :: t =>
      if filter_fun elem
      then if check_multiple
           then match candidate with
                | Some _ => (Err ValueError, t)
                | None => choose_loop filter_fun check_multiple (Some elem) t
                end
           else (Ok elem, t)
      else choose_loop filter_fun check_multiple candidate t
    end.
  Definition choose (filter_fun : T -> bool) (l : list T) (check_multiple : bool) : res T * list T :=
    choose_loop filter_fun check_multiple None l.
  (** choose.py:5-18 choose_one *)
  Definition choose_one (filter_fun : T -> bool) (l : list T) : res T * list T := choose filter_fun l true.
  (** choose.py:21-33 choose_with_index *)
  Fixpoint choose_with_index_loop (filter_fun : T -> bool) (i : nat) (l : list T) : res (T * nat) * list T :=
    match l with
    | [] => (Err ValueError, [])
    | item :: t => if filter_fun item then (Ok (item, i), t) else choose_with_index_loop filter_fun (S i) t
    end.
  Definition choose_with_index (filter_fun : T -> bool) (l : list T) : res (T * nat) * list T :=
    choose_with_index_loop filter_fun 0 l.
End Iterators.

(** sequences/iterators.py:763-788 smart_zip *)
Definition smart_zip {T} (ls : list (list (T + list T))) : list (list T) := map smart_row (py_zip ls).

(** sequences/iterators.py:725-734 map_list and 737-760 to_iterator, whose body is the loop
    756-758 *)
Fixpoint to_iterator {A B} (fun_ : A -> B) (l : list A) : gen (list A) B :=
  match l with [] => gstop [] | item :: t => gyield (fun_ item) t (to_iterator fun_ t) end.
Definition map_list {A B} (fun_ : A -> B) (l : list A) : list B := map fun_ l.

(** sequences/iterators.py:328-337 iter_dict_of_list *)
Fixpoint iter_dict_of_list {K U} (dct : list (K * list U)) : list (K * U) :=
  match dct with
  | [] => []
  | (key, items) :: t => map (fun item => (key, item)) items ++ iter_dict_of_list t
  end.

(** sequences/iterators.py:80-90, the generator in f_range; bounded by [fuel] *)
Fixpoint f_range_loop (fuel : nat) (f_start f_stop f_step : Z) : gen unit Z :=
  match fuel with
  | O => graise Diverges tt
  | S fuel' =>
    if (0 <? f_step)%Z
    then if (f_start <? f_stop)%Z
         then gyield f_start tt (f_range_loop fuel' (f_start + f_step)%Z f_stop f_step) else gstop tt
    else if (f_stop <? f_start)%Z
         then gyield f_start tt (f_range_loop fuel' (f_start + f_step)%Z f_stop f_step) else gstop tt
  end.
(** sequences/iterators.py:53-90 f_range *)
Definition f_range (fuel : nat) (args : list Z) : res (gen unit Z) :=
  match args with
  | [stop] => Ok (f_range_loop fuel 0 stop 1)
  | [start; stop] => Ok (f_range_loop fuel start stop 1)
  | [start; stop; step] => Ok (f_range_loop fuel start stop step)
  | _ => Err TypeError
  end.
