(** What the functions of satella/files.py promise. *)
From Coq Require Import Ascii String DecimalString.
From Verif Require Import Prelude Files_Model.
Import ListNotations.
Open Scope list_scope.
Set Implicit Arguments.

Definition no_slash (p : path) : Prop := ~ In sl p.

(** ** make_noncolliding_name *)
(** [filename] is [stem] and the extension: from the last dot on, if there is a dot *)
Definition extension_of (filename stem ext : path) : Prop :=
  filename = stem ++ ext /\ (ext = [] /\ ~ In dot filename \/ exists e, ext = dot :: e /\ ~ In dot e).
(** the k-th name to try: without a number, then with .1, .2, ... before the extension *)
Definition candidate (dir stem ext : path) (k : nat) : path :=
  join2 dir (stem ++ (match k with O => [] | _ => dot :: str_of k end) ++ ext).

(** ** split *)
(** runs of slashes made one *)
Fixpoint squeeze (p : path) : path :=
  match p with
  | [] => []
  | c :: r => match r with
              | [] => [c]
              | d :: _ => if is c sl && is d sl then squeeze r else c :: squeeze r
              end
  end.
Definition relative (p : path) : Prop := match p with c :: _ => c <> sl | [] => True end.
Definition absolute (p : path) : Prop := exists r, p = sl :: r.
Fixpoint no_double (p : path) : Prop :=
  match p with c :: r => ~ (c = sl /\ exists t, r = sl :: t) /\ no_double r | [] => True end.

(** ** find_files: the files under a directory, as lists of names *)
Fixpoint files_under (e : entry) : list (list path) :=
  match e with
  | EFile n => [[n]]
  | EDir n inside => map (cons n) (flat_map files_under inside)
  end.
Definition files_of (inside : list entry) : list (list path) := flat_map files_under inside.
Definition under (prefix : option path) (names : list path) : path :=
  match prefix with Some p => join (p :: names) | None => join names end.
(** the files whose name, or whole path, matches *)
Definition wanted (matches : path -> bool) (whole : bool) (prefix : option path) (inside : list entry) : list path :=
  map (under prefix) (filter (fun names => matches (if whole then under prefix names else last names [])) (files_of inside)).
Definition the_prefix (p : path) (prefix_with : option path) (prefix_with_path : bool) : option path :=
  if prefix_with_path then Some (match prefix_with with Some q => join [q; p] | None => p end) else prefix_with.
(** only the files right in the directory *)
Definition shallow (inside : list entry) : list (list path) := flat_map (fun e => match e with EFile n => [[n]] | EDir _ _ => [] end) inside.

(** ** write_out_file_if_different *)
Definition last_state {S} (before : S) (states : list S) : S := last states before.

(** ** AutoflushFile: what the file is after each operation. Zeros fill what truncating adds. *)
Definition resized {B} (zero : B) (n : nat) (c : list B) : list B := firstn n c ++ repeat zero (n - length c).
Fixpoint auto_expected {B} (zero : B) (c : list B) (open_ : bool) (ops : list (aop B)) : list (list B) :=
  match ops with
  | [] => []
  | AElse c' :: more => c' :: auto_expected zero c' open_ more
  | AClose :: more => c :: auto_expected zero c false more
  | AWrite d :: more => let c' := if open_ then c ++ d else c in c' :: auto_expected zero c' open_ more
  | ATruncate (Some n) :: more => let c' := if open_ then resized zero n c else c in c' :: auto_expected zero c' open_ more
  | _ :: more => c :: auto_expected zero c open_ more
  end.
(** what each operation answers: how much was written, the position moved to, the new size; nothing can be read (C61_reads_nothing_refuted) *)
Fixpoint auto_answers {B} (zero : B) (readable : bool) (c : list B) (open_ : bool) (ops : list (aop B)) : list (aout B) :=
  match ops with
  | [] => []
  | AElse c' :: more => ANone :: auto_answers zero readable c' open_ more
  | op :: more =>
    if open_ then
      match op with
      | AWrite d => ACount (length d) :: auto_answers zero readable (c ++ d) true more
      | ASeek k => ACount k :: auto_answers zero readable c true more
      | ATruncate (Some n) => ACount n :: auto_answers zero readable (resized zero n c) true more
      | ATruncate None => ACount (length c) :: auto_answers zero readable c true more
      | ARead => (if readable then AData [] else ARaised ValueError) :: auto_answers zero readable c true more
      | AClose => ANone :: auto_answers zero readable c false more
      | AElse c' => []
      end
    else ARaised ValueError :: auto_answers zero readable c false more
  end.
(** reading after moving to a position gives what is there from that position on; a fresh file is at its end, and so it is after writing *)
Fixpoint reads_expected {B} (c : list B) (at_ : nat) (ops : list (aop B)) : list (list B) :=
  match ops with
  | [] => []
  | AWrite d :: more => reads_expected (c ++ d) (length (c ++ d)) more
  | ASeek k :: more => reads_expected c k more
  | ARead :: more => skipn at_ c :: reads_expected c (length c) more
  | _ :: more => reads_expected c at_ more
  end.
