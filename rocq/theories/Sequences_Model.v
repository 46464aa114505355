(** Model of satella/coding/sequences/sequences.py. (The file has carriage
    returns as line ends; the lines cited are those Python counts.)

    Simplified: a sequence is the list of its elements; a slice of it is a list
    of elements (in Python, an object of the sequence's own type). *)
From Verif Require Import Prelude PySeq_Model PyGen_Model.
Set Implicit Arguments.

Section Sequences.
  Context {T : Type}.

  (** [copy_op(element)] is the i-th copy made. sequences.py:27-46 make_list *)
  Fixpoint make_list_loop (copy : nat -> T -> T) (element : T) (i n : nat) (output : list T) : list T :=
    match n with
    | O => output
    | S n' => make_list_loop copy element (S i) n' (output ++ [copy i element])
    end.
  Definition make_list (copy deepcopy : nat -> T -> T) (element : T) (n : Z) (deep_copy : bool) : list T :=
    make_list_loop (if deep_copy then deepcopy else copy) element 0 (Z.to_nat n) [].

  (** The first [n] elements; [None] is Python's None, [factory i] what the i-th
      call of return_factory gives. sequences.py:10-24 infinite_iterator *)
  Fixpoint infinite_iterator (returns : option T) (factory : option (nat -> option T)) (i n : nat) : list (option T) :=
    match n with
    | O => []
    | S n' => match returns with
              | None => match factory with None => None | Some f => f i end
              | Some _ => returns
              end :: infinite_iterator returns factory (S i) n'
    end.

  (** sequences.py:51-71 is_last; [for] loop 68-71. next() at 67 on an empty
      input raises StopIteration in the generator's body. *)
  Fixpoint is_last_loop (ret_var : T) (l : list T) : gen (list T) (bool * T) :=
    match l with
    | [] => gyield (true, ret_var) [] (gstop [])
    | val :: t => gyield (false, ret_var) t (is_last_loop val t)
    end.
  Definition is_last (l : list T) : gen (list T) (bool * T) :=
    match l with
    | [] => graise StopIterationInGenerator []
    | x :: t => is_last_loop x t
    end.

  (** sequences.py:74-105 add_next; [for] loop 98-105. *)
  Fixpoint add_next_loop (wrap_over skip_last : bool) (first_val prev_val : T) (l : list T) : gen (list T) (T * option T) :=
    match l with
    | val :: t => gyield (prev_val, Some val) t (add_next_loop wrap_over skip_last first_val val t)
    | [] => if wrap_over then gyield (prev_val, Some first_val) [] (gstop [])
            else if skip_last then gstop [] else gyield (prev_val, None) [] (gstop [])
    end.
  Definition add_next (wrap_over skip_last : bool) (l : list T) : gen (list T) (T * option T) :=
    match l with [] => gstop [] | x :: t => add_next_loop wrap_over skip_last x x t end.

  (** sequences.py:129-136, the inner loop of half_cartesian, from index [j] on *)
  Fixpoint half_inner (include_same_pairs : bool) (i : nat) (elem1 : T) (j : nat) (l : list T) : list (T * T) :=
    match l with
    | [] => []
    | elem2 :: t =>
      (if include_same_pairs
       then if Nat.leb i j then [(elem1, elem2)] else []
       else if Nat.ltb i j then [(elem1, elem2)] else [])
      ++ half_inner include_same_pairs i elem1 (S j) t
    end.
  (** the outer loop, for an object that can be iterated over again *)
  Fixpoint half_outer (include_same_pairs : bool) (seq : list T) (i : nat) (l : list T) : list (T * T) :=
    match l with
    | [] => []
    | elem1 :: t => half_inner include_same_pairs i elem1 0 seq ++ half_outer include_same_pairs seq (S i) t
    end.
  (** sequences.py:108-136 half_cartesian of a sequence *)
  Definition half_cartesian (seq : list T) (include_same_pairs : bool) : list (T * T) :=
    half_outer include_same_pairs seq 0 seq.
  (** half_cartesian of an iterator: both loops draw from the same source, so the
      inner one exhausts it *)
  Definition half_cartesian_iterator (source : list T) (include_same_pairs : bool) : list (T * T) :=
    match source with
    | [] => []
    | elem1 :: rest => half_inner include_same_pairs 0 elem1 0 rest
    end.

  (** sequences.py:156-160, group_quantity of a sequence. Python's loop has no
      bound; the model gives up with Diverges when [fuel] is spent. *)
  Fixpoint group_seq (fuel : nat) (length_ : Z) (s : list T) (i : Z) : gen (list T) (list T) :=
    match fuel with
    | O => graise Diverges []
    | S fuel' =>
      if (i <? Z.of_nat (length s))%Z
      then gyield (py_slice s (Some i) (Some (i + length_)%Z)) [] (group_seq fuel' length_ s (i + length_)%Z)
      else gstop []
    end.
  (** sequences.py:161-171, group_quantity of any other iterable *)
  Fixpoint group_iter (length_ : Z) (entries l : list T) : gen (list T) (list T) :=
    match l with
    | [] => match entries with [] => gstop [] | _ => gyield entries [] (gstop []) end
    | elem :: t =>
      if (Z.of_nat (length entries) =? length_)%Z
      then gyield entries t (group_iter length_ [elem] t)
      else group_iter length_ (entries ++ [elem]) t
    end.
  (** sequences.py:139-171 group_quantity *)
  Definition group_quantity (is_sequence : bool) (length_ : Z) (l : list T) : gen (list T) (list T) :=
    if is_sequence then group_seq (S (length l)) length_ l 0%Z else group_iter length_ [] l.

  (** sequences.py:174-185 filter_out_nones and 188-199 filter_out_false:
      [keep] is "is not None" and truth *)
  Fixpoint filter_out_loop (keep : T -> bool) (l output : list T) : list T :=
    match l with
    | [] => output
    | item :: t => filter_out_loop keep t (if keep item then output ++ [item] else output)
    end.
  Definition filter_out_nones (is_none : T -> bool) (l : list T) : list T := filter_out_loop (fun x => negb (is_none x)) l [].
  Definition filter_out_false (truth : T -> bool) (l : list T) : list T := filter_out_loop truth l [].

  (** sequences.py:202-217 index_of_max; [gt] is Python's [>]. seq[0] on an
      empty sequence raises IndexError, which is rethrown as ValueError *)
  Fixpoint index_of_max_loop (gt : T -> T -> bool) (l : list T) (i max_index : nat) (max_elem : T) : nat :=
    match l with
    | [] => max_index
    | elem :: t => if gt elem max_elem then index_of_max_loop gt t (S i) i elem
                   else index_of_max_loop gt t (S i) max_index max_elem
    end.
  Definition index_of_max (gt : T -> T -> bool) (l : list T) : res nat :=
    match l with
    | [] => Err ValueError
    | x :: _ => Ok (index_of_max_loop gt l 0 0 x)
    end.

  (** sequences.py:220-234 index_of *)
  Fixpoint index_of_loop (predicate : T -> bool) (l : list T) (i : nat) : res nat :=
    match l with
    | [] => Err ValueError
    | elem :: t => if predicate elem then Ok i else index_of_loop predicate t (S i)
    end.
  Definition index_of (predicate : T -> bool) (l : list T) : res nat := index_of_loop predicate l 0.
End Sequences.
