(** Model of BinaryParser (satella/parsing.py).

    A session has any number of parsers: get_parser makes a new one over the same stream. The cache of
    struct.Struct objects (parsing.py:95-106) is left out: it returns what struct.Struct would. *)
From Verif Require Import Prelude PySeq_Model.
Set Implicit Arguments.
Local Open Scope Z_scope.

Section Parser.
  Variables B V : Type.
  Variable b_stream : list B.

  Record parser : Type := mk_parser { pointer : Z; init_ofs : Z; len : Z }.
  (** a struct.Struct: its size, whether its format is a single character, possibly with the order before it
      (parsing.py:138-143), and unpack *)
  Record struct : Type := mk_struct { size : nat; single : bool; unpack : list B -> res (list V) }.

  Definition stream_len : Z := Z.of_nat (length b_stream).
  Definition set_pointer (p : parser) (i : Z) : parser := mk_parser i (init_ofs p) (len p).
  Definition slice (a b : Z) : list B := py_slice b_stream (Some a) (Some b).

  (** parsing.py:38-45; [length or len(b_stream)]: 0 is taken for None *)
  Definition new_parser (offset : Z) (len : option Z) : res parser :=
    let l := match len with Some l => if l =? 0 then stream_len else l | None => stream_len end in
    if stream_len <? offset then Err NotEnoughBytes else Ok (mk_parser offset offset l).
  (** parsing.py:32-36 *)
  Definition get_remaining_bytes_count (p : parser) : Z := len p - pointer p + init_ofs p.
  (** parsing.py:47-48 *)
  Definition to_bytes (p : parser) : list B := slice (init_ofs p) (init_ofs p + len p).
  (** parsing.py:60-70 *)
  Definition has_bytes (p : parser) (n : Z) : bool := negb (len p + init_ofs p <? pointer p + n).
  (** parsing.py:50-58 *)
  Definition skip (p : parser) (n : Z) : parser * res unit :=
    if has_bytes p n then (set_pointer p (pointer p + n), Ok tt) else (p, Err NotEnoughBytes).
  (** parsing.py:72-86 *)
  Definition get_parser (p : parser) (n : Z) : parser * res parser :=
    if has_bytes p n then (set_pointer p (pointer p + n), new_parser (pointer p) (Some n)) else (p, Err NotEnoughBytes).
  (** parsing.py:88-93 *)
  Definition reset (p : parser) : parser := set_pointer p (init_ofs p).
  (** parsing.py:108-120 *)
  Definition get_bytes (p : parser) (n : Z) : parser * res (list B) :=
    if has_bytes p n then (set_pointer p (pointer p + n), Ok (slice (pointer p) (pointer p + n))) else (p, Err NotEnoughBytes).
  (** parsing.py:152-170 *)
  Definition get_structs (p : parser) (st : struct) : parser * res (list V) :=
    let n := Z.of_nat (size st) in
    if has_bytes p n then (set_pointer p (pointer p + n), unpack st (slice (pointer p) (pointer p + n))) else (p, Err NotEnoughBytes).
  (** parsing.py:122-150 *)
  Definition get_struct (p : parser) (st : struct) : parser * res V :=
    if negb (single st) then (p, Err AssertionError)
    else let n := Z.of_nat (size st) in
         if has_bytes p n
         then (set_pointer p (pointer p + n),
               match unpack st (slice (pointer p) (pointer p + n)) with
               | Ok (v :: _) => Ok v
               | Ok [] => Err IndexError
               | Err e => Err e
               end)
         else (p, Err NotEnoughBytes).
  (** parsing.py:172-180 *)
  Definition get_remaining_bytes (p : parser) : list B :=
    let advance := pointer p - init_ofs p in
    let remaining := len p - advance in
    slice (pointer p) (pointer p + remaining).

  Inductive parser_op : Type :=
  | PGetBytes (n : Z) | PSkip (n : Z) | PAssert (n : Z) | PGetParser (n : Z) | PReset
  | PGetStruct (st : struct) | PGetStructs (st : struct) | PRemainingCount | PRemaining | PBytes | PLen
  | PTell | PSeek (i : Z).
  Inductive parser_out : Type :=
  | OBytes (r : res (list B)) | OUnit (r : res unit) | OInt (z : Z) | OValue (r : res V) | OValues (r : res (list V)).

  (** one call on the parser with the given number; get_parser gives the next number to the new one *)
  Definition parser_step (ps : list parser) (i : nat) (o : parser_op) : list parser * parser_out :=
    match nth_error ps i with
    | None => (ps, OUnit (Err AttributeError))
    | Some p =>
      match o with
      | PGetBytes n => let (p', r) := get_bytes p n in (upd ps i p', OBytes r)
      | PSkip n => let (p', r) := skip p n in (upd ps i p', OUnit r)
      | PAssert n => (ps, OUnit (if has_bytes p n then Ok tt else Err NotEnoughBytes))
      | PGetParser n => match get_parser p n with
                        | (p', Ok q) => (upd ps i p' ++ [q], OUnit (Ok tt))
                        | (p', Err e) => (upd ps i p', OUnit (Err e))
                        end
      | PReset => (upd ps i (reset p), OUnit (Ok tt))
      | PGetStruct st => let (p', r) := get_struct p st in (upd ps i p', OValue r)
      | PGetStructs st => let (p', r) := get_structs p st in (upd ps i p', OValues r)
      | PRemainingCount => (ps, OInt (get_remaining_bytes_count p))
      | PRemaining => (ps, OBytes (Ok (get_remaining_bytes p)))
      | PBytes => (ps, OBytes (Ok (to_bytes p)))
      | PLen => (ps, OInt (len p))
      | PTell => (ps, OInt (pointer p))
      | PSeek k => (upd ps i (set_pointer p k), OUnit (Ok tt))
      end
    end.
  Fixpoint parser_run (ps : list parser) (ops : list (nat * parser_op)) : list parser_out * list parser :=
    match ops with
    | [] => ([], ps)
    | (i, o) :: t => let (ps', out) := parser_step ps i o in let (outs, ps'') := parser_run ps' t in (out :: outs, ps'')
    end.
End Parser.
Arguments PGetBytes {B V} n.
Arguments PSkip {B V} n.
Arguments PAssert {B V} n.
Arguments PGetParser {B V} n.
Arguments PReset {B V}.
Arguments PGetStruct {B V} st.
Arguments PGetStructs {B V} st.
Arguments PRemainingCount {B V}.
Arguments PRemaining {B V}.
Arguments PBytes {B V}.
Arguments PLen {B V}.
Arguments PTell {B V}.
Arguments PSeek {B V} i.
Arguments OBytes {B V} r.
Arguments OUnit {B V} r.
Arguments OInt {B V} z.
Arguments OValue {B V} r.
Arguments OValues {B V} r.
