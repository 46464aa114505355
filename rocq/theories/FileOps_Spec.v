(** What the functions on directories and files should do. *)
From Coq Require Import List Bool Arith.
From Verif Require Import Prelude FileOps_Model.
Import ListNotations.
Open Scope nat_scope.

(** the objects used by a program *)
Fixpoint uses (c : cmd) : list nat := match c with Jump j body => j :: flat_map uses body | _ => [] end.
Definition directory (w : cwd_state) (d : list nat) : Prop := d = [] \/ In d (dirs w).
Definition target (w : cwd_state) (p : path) : list nat := if absolute p then parts p else cwd w ++ parts p.
(** programs that neither change directory other than by `with`, nor remove directories, nor use an object again inside its own body *)
Inductive tame : cmd -> Prop :=
| t_jump j body : ~ In j (flat_map uses body) -> Forall tame body -> tame (Jump j body)
| t_makedirs p : tame (Makedirs p)
| t_raise e : tame (Raise e).

(** What an open /dev/null answers *)
Inductive null_answer (binary : bool) : null_op -> null_out -> Prop :=
| na_tell : null_answer binary NTell (NInt 0)
| na_truncate : null_answer binary NTruncate (NInt 0)
| na_seek v : null_answer binary (NSeek v) (NInt 0)
| na_writable : null_answer binary NWritable NTrue
| na_seekable : null_answer binary NSeekable NTrue
| na_read_bytes n : binary = true -> null_answer binary (NRead n) (NData (Bytes []))
| na_read_text n : binary = false -> null_answer binary (NRead n) (NData (Text []))
| na_write_bytes b : binary = true -> null_answer binary (NWrite (Bytes b)) (NInt (length b))
| na_write_text s : binary = false -> null_answer binary (NWrite (Text s)) (NInt (length s))
| na_write_wrong d : (binary = true -> forall b, d <> Bytes b) -> (binary = false -> forall s, d <> Text s) -> null_answer binary (NWrite d) (NRaise TypeError)
| na_flush : null_answer binary NFlush NNone
| na_close : null_answer binary NClose NNone
| na_exit : null_answer binary NExit NNone.
Definition closes (o : null_op) : Prop := o = NClose \/ o = NExit.

(** Lines of a text *)
Section Lines.
  Variables (is_space is_break : nat -> bool).
  Definition unbroken (l : list nat) : Prop := forall c, In c l -> is_break c = false.
  Inductive lines : list nat -> list (list nat) -> Prop :=
  | l_end : lines [] []
  | l_last l : l <> [] -> unbroken l -> lines l [l]
  | l_crlf l rest ls : unbroken l -> is_break 13 = true -> lines rest ls -> lines (l ++ 13 :: 10 :: rest) (l :: ls)
  | l_break l c rest ls : unbroken l -> is_break c = true -> ~ (c = 13 /\ exists r, rest = 10 :: r) -> lines rest ls -> lines (l ++ c :: rest) (l :: ls).
  Definition blank (l : list nat) : Prop := forall c, In c l -> is_space c = true.
  (** without white space at both ends *)
  Definition stripped (l s : list nat) : Prop :=
    (exists a b, l = a ++ s ++ b /\ blank a /\ blank b) /\ (forall c r, s = c :: r -> is_space c = false) /\ (forall r c, s = r ++ [c] -> is_space c = false).
End Lines.

(** A thing that may be removed, if its directory may be written to: all directories in it that hold something are writable. *)
Inductive removable : node -> Prop :=
| r_file c : removable (NFile c)
| r_link d : removable (NLink d)
| r_dir w l : (l = [] \/ w = true) -> (forall name m, In (name, m) l -> removable m) -> removable (NDir w l).
