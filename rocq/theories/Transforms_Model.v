(** Model of satella/coding/transforms: __init__.py, percentile.py, interpol.py,
    misc.py, words.py and predicates.py.

    Numbers are rationals: rounding of floats is not modelled. *)
From Coq Require Import QArith Qround.
From Verif Require Import Prelude PySeq_Model PyGen_Model.
Set Implicit Arguments.
Local Open Scope Z_scope.

(** Python's [<] on numbers *)
Definition qlt (a b : Q) : bool := negb (Qle_bool b a).

(** transforms/__init__.py:67-80 clip *)
Definition clip (v minimum maximum : Q) : Q :=
  if qlt v minimum then minimum else if qlt maximum v then maximum else v.

(** percentile.py:7-23 percentile; an index out of range is IndexError *)
Definition percentile (n : list Q) (percent : Q) : res Q :=
  let k := (inject_Z (Z.of_nat (length n) - 1) * percent)%Q in
  let f := Qfloor k in
  let c := Qceiling k in
  if f =? c
  then match py_index n f with Some x => Ok x | None => Err IndexError end
  else match py_index n f, py_index n c with
       | Some a, Some b => Ok (a * (inject_Z c - k) + b * (k - inject_Z f))%Q
       | _, _ => Err IndexError
       end.

(** bisect.bisect_left of Python's library *)
Fixpoint bisect_left_loop (fuel : nat) (a : list Q) (x : Q) (lo hi : nat) : nat :=
  match fuel with
  | O => lo
  | S fuel' =>
    if Nat.ltb lo hi
    then let mid := Nat.div2 (lo + hi) in
         if qlt (nth mid a 0%Q) x then bisect_left_loop fuel' a x (S mid) hi else bisect_left_loop fuel' a x lo mid
    else lo
  end.
Definition bisect_left (a : list Q) (x : Q) : nat := bisect_left_loop (S (length a)) a x 0 (length a).

(** interpol.py:7-47 linear_interpolate; series[0] of an empty one is IndexError *)
Definition linear_interpolate (series : list (Q * Q)) (t : Q) (clip : bool) : res Q :=
  match py_index series 0, py_index series (-1) with
  | Some (t0, v0), Some (tn, vn) =>
    if qlt t t0 then if clip then Ok v0 else Err ValueError
    else if qlt tn t then if clip then Ok vn else Err ValueError
    else if Qeq_bool t t0 then Ok v0
    else let i := Z.of_nat (bisect_left (map fst series) t) - 1 in
         if i =? Z.of_nat (length series) - 1 then Ok vn
         else match py_index series i, py_index series (i + 1) with
              | Some (t1, v1), Some (t2, v2) =>
                if Qle_bool t1 t && Qle_bool t t2
                then if Qeq_bool t2 t1 then Err ZeroDivision
                     else Ok ((v2 - v1) / (t2 - t1) * (t - t1) + v1)%Q
                else Err AssertionError
              | _, _ => Err IndexError
              end
  | _, _ => Err IndexError
  end.

Section Seq.
  Context {T : Type}.
  (** transforms/__init__.py:105-106, the loop of pad_to_multiple_of_length.
      [factory i] is what the i-th call of pad_with_factory gives. *)
  Fixpoint pad_loop (fuel : nat) (multiple_of : Z) (factory : nat -> T) (i : nat) (seq : list T) : res (list T) :=
    match fuel with
    | O => Err Diverges
    | S fuel' =>
      if multiple_of =? 0 then Err ZeroDivision
      else if Z.of_nat (length seq) mod multiple_of =? 0 then Ok seq
      else pad_loop fuel' multiple_of factory (S i) (seq ++ [factory i])
    end.
  (** transforms/__init__.py:83-107 pad_to_multiple_of_length; an element may be
      Python's None. The decorator makes a new list of the argument first. *)
  Definition pad_to_multiple_of_length (none : T) (seq : list T) (multiple_of : Z) (pad_with : option T)
    (pad_with_factory : option (nat -> T)) : res (list T) :=
    match pad_with, pad_with_factory with
    | Some _, Some _ => Err ValueError
    | _, Some factory => pad_loop (S (Z.to_nat (Z.abs multiple_of))) multiple_of factory 0 seq
    | Some x, None => pad_loop (S (Z.to_nat (Z.abs multiple_of))) multiple_of (fun _ => x) 0 seq
    | None, None => pad_loop (S (Z.to_nat (Z.abs multiple_of))) multiple_of (fun _ => none) 0 seq
    end.

  (** transforms/__init__.py:55-64 none_if_false *)
  Definition none_if_false (truth : T -> bool) (y : T) : option T := if negb (truth y) then None else Some y.

  (** transforms/__init__.py:117-129 one_tuple; a tuple is a list *)
  Fixpoint one_tuple (l : list T) : gen (list T) (list T) :=
    match l with [] => gstop [] | z :: t => gyield [z] t (one_tuple t) end.

  (** transforms/__init__.py:181-190, the body of split_shuffle_and_join.
      [shuffle] is what random.shuffle makes of its argument. *)
  Fixpoint split_loop (whether_to_shuffle : T -> bool) (l not_shuffled shuffled : list T) : list T * list T :=
    match l with
    | [] => (not_shuffled, shuffled)
    | elem :: t => if whether_to_shuffle elem then split_loop whether_to_shuffle t not_shuffled (shuffled ++ [elem])
                   else split_loop whether_to_shuffle t (not_shuffled ++ [elem]) shuffled
    end.
  Definition split_shuffle_and_join (shuffle : list T -> list T) (entries : list T) (whether_to_shuffle : T -> bool)
    (not_shuffled_to_front : bool) : list T :=
    let (not_shuffled, shuffled) := split_loop whether_to_shuffle entries [] [] in
    if not_shuffled_to_front then not_shuffled ++ shuffle shuffled else shuffle shuffled ++ not_shuffled.

  (** transforms/misc.py:6-24 list_values_to_indices *)
  Fixpoint indices_loop (eqb : T -> T -> bool) (idx : Z) (l : list T) (result : dict T Z) : res (dict T Z) :=
    match l with
    | [] => Ok result
    | val :: t => if dmem eqb result val then Err ValueError else indices_loop eqb (idx + 1) t (dset eqb result val idx)
    end.
  Definition list_values_to_indices (eqb : T -> T -> bool) (lst : list T) : res (dict T Z) := indices_loop eqb 0 lst [].

  (** words.py:6-18 hashables_to_int; [set_of words] is the order in which Python
      iterates over set(words) *)
  Fixpoint words_loop (eqb : T -> T -> bool) (i : Z) (l : list T) (dictionary : dict T Z) : dict T Z :=
    match l with [] => dictionary | word :: t => words_loop eqb (i + 1) t (dset eqb dictionary word i) end.
  Definition hashables_to_int (eqb : T -> T -> bool) (set_of : list T -> list T) (words : list T) : dict T Z :=
    words_loop eqb 0 (set_of words) [].
End Seq.

Section Dicts.
  Context {K V : Type}.
  Variables (eqK : K -> K -> bool) (eqV : V -> V -> bool).
  (** transforms/predicates.py:4-18 is_subset *)
  Fixpoint is_subset_loop (items superset : dict K V) : bool :=
    match items with
    | [] => true
    | (k, v) :: t => match dget eqK superset k with
                     | None => false
                     | Some v2 => if negb (eqV v v2) then false else is_subset_loop t superset
                     end
    end.
  Definition is_subset (subset superset : dict K V) : bool := is_subset_loop subset superset.

  (** transforms/__init__.py:25-52 unpack_dict; the result None is Python's None.
      [map_through] may raise, and a KeyError of its own is taken for a missing key. *)
  Fixpoint unpack_dict (dct : dict K V) (args : list K) (map_through : V -> res V) (raise_if_not_found : bool)
    : gen (list K) (option V) :=
    match args with
    | [] => gstop []
    | key :: t =>
      match match dget eqK dct key with Some v => map_through v | None => Err KeyError end with
      | Ok v => gyield (Some v) t (unpack_dict dct t map_through raise_if_not_found)
      | Err KeyError => if negb raise_if_not_found then gyield None t (unpack_dict dct t map_through raise_if_not_found)
                        else graise KeyError t
      | Err e => graise e t
      end
    end.
End Dicts.
