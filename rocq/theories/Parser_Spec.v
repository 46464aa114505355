(** What BinaryParser promises (satella/parsing.py): reading a window of bytes from the left to the right. *)
From Verif Require Import Prelude Parser_Model.
Set Implicit Arguments.
Local Open Scope Z_scope.

Section Spec.
  Variables B V : Type.

  (** The bytes it sees, where in the stream they start, how many were read. *)
  Record reader : Type := mk_reader { window : list B; origin : nat; consumed : nat }.
  Definition left_to_read (r : reader) : list B := skipn (consumed r) (window r).
  Definition enough (r : reader) (n : Z) : bool := n <=? Z.of_nat (length (left_to_read r)).
  Definition advance (r : reader) (n : Z) : reader := mk_reader (window r) (origin r) (consumed r + Z.to_nat n).
  Definition next_bytes (r : reader) (n : Z) : list B := firstn (Z.to_nat n) (left_to_read r).

  (** A new one: the bytes from the offset on, no more than [len] of them. *)
  Definition new_reader (stream : list B) (offset : nat) (len : option nat) : res reader :=
    if (length stream <? offset)%nat then Err NotEnoughBytes
    else Ok (mk_reader (match len with Some l => firstn l (skipn offset stream) | None => skipn offset stream end) offset 0).

  Definition first_of (r : res (list V)) : res V :=
    match r with Ok (v :: _) => Ok v | Ok [] => Err IndexError | Err e => Err e end.

  (** What a call on one reader gives: the reader after, the outcome, and the new reader, if one was made. *)
  Definition reader_call (r : reader) (o : parser_op B V) : reader * parser_out B V * list reader :=
    match o with
    | PGetBytes n => if enough r n then (advance r n, OBytes (Ok (next_bytes r n)), []) else (r, OBytes (Err NotEnoughBytes), [])
    | PSkip n => if enough r n then (advance r n, OUnit (Ok tt), []) else (r, OUnit (Err NotEnoughBytes), [])
    | PAssert n => (r, OUnit (if enough r n then Ok tt else Err NotEnoughBytes), [])
    | PGetParser n =>
      if enough r n then (advance r n, OUnit (Ok tt), [mk_reader (next_bytes r n) (origin r + consumed r) 0])
      else (r, OUnit (Err NotEnoughBytes), [])
    | PReset => (mk_reader (window r) (origin r) 0, OUnit (Ok tt), [])
    | PGetStruct st =>
      if negb (single st) then (r, OValue (Err AssertionError), [])
      else if enough r (Z.of_nat (size st))
      then (advance r (Z.of_nat (size st)), OValue (first_of (unpack st (next_bytes r (Z.of_nat (size st))))), [])
      else (r, OValue (Err NotEnoughBytes), [])
    | PGetStructs st =>
      if enough r (Z.of_nat (size st))
      then (advance r (Z.of_nat (size st)), OValues (unpack st (next_bytes r (Z.of_nat (size st)))), [])
      else (r, OValues (Err NotEnoughBytes), [])
    | PRemainingCount => (r, OInt (Z.of_nat (length (left_to_read r))), [])
    | PRemaining => (r, OBytes (Ok (left_to_read r)), [])
    | PBytes => (r, OBytes (Ok (window r)), [])
    | PLen => (r, OInt (Z.of_nat (length (window r))), [])
    | PTell => (r, OInt (Z.of_nat (origin r + consumed r)), [])
    | PSeek i => (mk_reader (window r) (origin r) (Z.to_nat i - origin r), OUnit (Ok tt), [])
    end.
  Definition readers_step (rs : list reader) (i : nat) (o : parser_op B V) : list reader * parser_out B V :=
    match nth_error rs i with
    | None => (rs, OUnit (Err AttributeError))
    | Some r => match reader_call r o with (r', out, new) => (upd rs i r' ++ new, out) end
    end.
  Fixpoint readers_run (rs : list reader) (ops : list (nat * parser_op B V)) : list (parser_out B V) :=
    match ops with
    | [] => []
    | (i, o) :: t => let (rs', out) := readers_step rs i o in out :: readers_run rs' t
    end.

  (** Amounts are not negative, windows are at least [smallest]; a pointer that is set lies within the window. *)
  Definition proper_op (smallest : Z) (r : reader) (o : parser_op B V) : Prop :=
    match o with
    | PGetBytes n | PSkip n | PAssert n => 0 <= n
    | PGetParser n => smallest <= n
    | PSeek i => Z.of_nat (origin r) <= i <= Z.of_nat (origin r + length (window r))
    | _ => True
    end.
  Fixpoint proper (smallest : Z) (rs : list reader) (ops : list (nat * parser_op B V)) : Prop :=
    match ops with
    | [] => True
    | (i, o) :: t => (forall r, nth_error rs i = Some r -> proper_op smallest r o) /\ proper smallest (fst (readers_step rs i o)) t
    end.
  (** A window that lies within the stream and is not empty, or all of the stream. *)
  Definition proper_window (stream : list B) (offset : nat) (len : option nat) : Prop :=
    match len with
    | Some l => (0 < l)%nat /\ (offset + l <= length stream)%nat
    | None => offset = 0%nat
    end.
End Spec.
