(** What ListWrapperIterator, PushIterable, Subqueue, RollingArithmeticAverage and AlreadySeen promise. *)
From Verif Require Import Prelude PySeq_Model Wrappers_Model.
Set Implicit Arguments.

(** ** ListWrapperIterator over a list [src]: how many elements were taken from it, where the iteration is, whether its end was met *)
Section ListWrapperSpec.
  Variable T : Type.
  Variable eqb : T -> T -> bool.
  Variable src : list T.
  Record view : Type := mk_view { taken : nat; position : nat; end_met : bool }.
  Definition fresh : view := mk_view 0 0 false.
  (** at least k elements are needed *)
  Definition need (v : view) (k : Z) : view :=
    mk_view (Nat.max (taken v) (Nat.min (Z.to_nat k) (length src))) (position v) (end_met v || (Z.of_nat (length src) <? k)%Z).
  (** the answers are those of src itself; no more elements are taken than needed for them *)
  Definition lw_expected (v : view) (op : lwop T) : lwout T * view :=
    match op with
    | LNext => match nth_error src (position v) with
               | Some x => (LItem x, mk_view (Nat.max (taken v) (S (position v))) (S (position v)) (end_met v))
               | None => (LRaised StopIteration, mk_view (taken v) (position v) true)
               end
    | LLen => (LInt (length src), mk_view (length src) (position v) true)
    | LGet i => (match py_index src i with Some x => LItem x | None => LRaised IndexError end, need v (i + 1))
    | LSlice a b => (LList (py_slice src a b), need v (match b with Some b' => b' | None => 0 end))
    | LContains x => (LBool (memb eqb x src),
                      if memb eqb x (firstn (taken v) src) || end_met v then v
                      else match find_index (fun y => eqb y x) (skipn (position v) src) with
                           | Some j => mk_view (Nat.max (taken v) (S (position v + j))) (S (position v + j)) (end_met v)
                           | None => mk_view (length src) (length src) true
                           end)
    | LExhaust => (LNone, mk_view (length src) (position v) true)
    | LAdvance i => (LNone, need v i)
    end.
  (** the answers of src itself, p being the position of the iteration, which only iterating moves *)
  Fixpoint as_a_list (p : nat) (ops : list (lwop T)) : list (lwout T) :=
    match ops with
    | [] => []
    | LNext :: more => match nth_error src p with Some x => LItem x :: as_a_list (S p) more | None => LRaised StopIteration :: as_a_list p more end
    | LLen :: more => LInt (length src) :: as_a_list p more
    | LGet i :: more => match py_index src i with Some x => LItem x | None => LRaised IndexError end :: as_a_list p more
    | LSlice a b :: more => LList (py_slice src a b) :: as_a_list p more
    | LContains x :: more => LBool (memb eqb x src) :: as_a_list p more
    | LExhaust :: more | LAdvance _ :: more => LNone :: as_a_list p more
    end.
  (** what works before everything was taken: indices that do not count from the end, slices with a stop *)
  Definition from_the_start (i : option Z) : Prop := match i with Some i => (0 <= i)%Z | None => True end.
  Definition fine (v : view) (op : lwop T) : Prop :=
    match op with
    | LGet i => (0 <= i)%Z \/ end_met v = true
    | LSlice a b => from_the_start a /\ from_the_start b /\ b <> None \/ end_met v = true
    | _ => True
    end.
  Fixpoint lw_session (v : view) (ops : list (lwop T)) : list (lwout T) * view :=
    match ops with
    | [] => ([], v)
    | op :: more => let (o, v1) := lw_expected v op in let (os, v2) := lw_session v1 more in (o :: os, v2)
    end.
  Fixpoint all_fine (v : view) (ops : list (lwop T)) : Prop :=
    match ops with [] => True | op :: more => fine v op /\ all_fine (snd (lw_expected v op)) more end.
End ListWrapperSpec.

(** ** PushIterable: what was pushed, the next to come first, and then the rest *)
Fixpoint push_expected {T} (pushed src : list T) (ops : list (pop T)) : list (option (option T)) :=
  match ops with
  | [] => []
  | PPop :: more => match pushed, src with
                    | x :: p, _ => Some (Some x) :: push_expected p src more
                    | [], x :: r => Some (Some x) :: push_expected [] r more
                    | [], [] => Some None :: push_expected [] [] more
                    end
  | PPush x :: more => None :: push_expected (x :: pushed) src more
  | PPushLeft x :: more => None :: push_expected (pushed ++ [x]) src more
  end.

(** ** Subqueue: a queue per name, the names in the order in which they were first mentioned *)
Section SubqueueSpec.
  Variables N T : Type.
  Variable neqb : N -> N -> bool.
  Definition mention (names : list N) (n : N) : list N := if memb neqb n names then names else names ++ [n].
  Definition change (q : N -> list T) (n : N) (l : list T) : N -> list T := fun m => if neqb n m then l else q m.
  Fixpoint first_with (q : N -> list T) (names : list N) : option (N * T * list T) :=
    match names with
    | [] => None
    | n :: more => match q n with x :: l => Some (n, x, l) | [] => first_with q more end
    end.
  Fixpoint sq_expected (q : N -> list T) (names : list N) (ops : list (sop N T)) : list (sout N T) :=
    match ops with
    | [] => []
    | SPut n x :: more => SDone :: sq_expected (change q n (q n ++ [x])) (mention names n) more
    | SGet n :: more => match q n with
                        | x :: l => SItem n x :: sq_expected (change q n l) (mention names n) more
                        | [] => SEmpty :: sq_expected q (mention names n) more
                        end
    | SGetAny :: more => match first_with q names with
                         | Some (n, x, l) => SItem n x :: sq_expected (change q n l) names more
                         | None => SEmpty :: sq_expected q names more
                         end
    | SSize :: more => SInt (list_sum (map (fun n => length (q n)) names)) :: sq_expected q names more
    end.
  (** what was put under a name, what was taken from under it, what is left *)
  Definition puts_of (n : N) (ops : list (sop N T)) : list T := flat_map (fun op => match op with SPut m x => if neqb n m then [x] else [] | _ => [] end) ops.
  Definition gets_of (n : N) (outs : list (sout N T)) : list T := flat_map (fun o => match o with SItem m x => if neqb n m then [x] else [] | _ => [] end) outs.
  Definition left_of (n : N) (s : subq N T) : list T := match dget neqb s n with Some q => q | None => [] end.
End SubqueueSpec.

(** ** RollingArithmeticAverage: [vs] were inserted since the last clear *)
Definition last_n {A} (n : nat) (l : list A) : list A := skipn (length l - n) l.
Definition total (l : list Z) : Z := fold_right Z.add 0%Z l.
Fixpoint rolling_expected (n : nat) (vs : list Z) (ops : list rop) : list rout :=
  match ops with
  | [] => []
  | RInsert x :: more => RDone :: rolling_expected n (vs ++ [x]) more
  | RAvg :: more => (match vs with [] => RRaised ZeroDivision | _ => RMean (total (last_n n vs)) (length (last_n n vs)) end) :: rolling_expected n vs more
  | RClear :: more => RDone :: rolling_expected n [] more
  end.

(** ** AlreadySeen: an element is unique if it is not among the previous ones *)
Fixpoint firsts {T} (eqb : T -> T -> bool) (before l : list T) : list (res bool) :=
  match l with [] => [] | x :: more => Ok (negb (memb eqb x before)) :: firsts eqb (before ++ [x]) more end.
