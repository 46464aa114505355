(** C88: the exposition format of Prometheus: how a reader decodes a text into samples. *)
From Coq Require Import String Ascii ZArith DecimalString.
From Verif Require Import Prelude Prom_Model.
Open Scope list_scope.
Open Scope nat_scope.
Set Implicit Arguments.

Record sample : Type := mk_sample { s_name : text; s_labels : list (text * text); s_value : text; s_millis : option Z }.

Definition between (c : ascii) (a b : ascii) : bool := (Nat.leb (nat_of_ascii a) (nat_of_ascii c) && Nat.leb (nat_of_ascii c) (nat_of_ascii b))%bool.
Definition is_letter (c : ascii) : bool := (between c "a" "z" || between c "A" "Z" || Ascii.eqb c "_")%bool.
Definition is_digit (c : ascii) : bool := between c "0" "9".
(** characters of metric names: letters, digits, underscore and colon; of label names: the same without the colon *)
Definition name_char (c : ascii) : bool := (is_letter c || is_digit c || Ascii.eqb c ":")%bool.
Definition key_char (c : ascii) : bool := (is_letter c || is_digit c)%bool.
(** characters of a number: anything up to a blank or the end of the line *)
Definition number_char (c : ascii) : bool := negb (Ascii.eqb c " " || Ascii.eqb c newline)%bool.

(** the longest prefix of such characters, and the rest *)
Fixpoint span (f : ascii -> bool) (t : text) : text * text :=
  match t with
  | [] => ([], [])
  | c :: r => if f c then let (a, b) := span f r in (c :: a, b) else ([], t)
  end.
(** a quoted label value after its first quote: backslashes escape backslashes, quotes and the newline; a line does not end within it *)
Fixpoint read_quoted (t : text) : option (text * text) :=
  match t with
  | [] => None
  | c :: r =>
      if Ascii.eqb c """" then Some ([], r)
      else if Ascii.eqb c newline then None
      else if Ascii.eqb c "\" then
        match r with
        | x :: r' =>
            match (if Ascii.eqb x "\" then Some "\"%char else if Ascii.eqb x """" then Some """"%char else if Ascii.eqb x "n" then Some newline else None) with
            | Some y => option_map (fun p => (y :: fst p, snd p)) (read_quoted r')
            | None => None
            end
        | [] => None
        end
      else option_map (fun p => (c :: fst p, snd p)) (read_quoted r)
  end.
(** labels after the opening brace *)
Fixpoint read_labels (fuel : nat) (t : text) : option (list (text * text) * text) :=
  match fuel with
  | O => None
  | S f =>
      match span key_char t with
      | (c :: k, "="%char :: """"%char :: r) =>
          if is_digit c then None else
          match read_quoted r with
          | Some (v, ","%char :: r') => option_map (fun p => ((c :: k, v) :: fst p, snd p)) (read_labels f r')
          | Some (v, "}"%char :: r') => Some ([(c :: k, v)], r')
          | _ => None
          end
      | _ => None
      end
  end.
Definition read_int (t : text) : option Z := option_map Z.of_int (NilEmpty.int_of_string (string_of_list_ascii t)).
Definition read_braces (t : text) : option (list (text * text) * text) :=
  match t with "{"%char :: r => read_labels (length r) r | _ => Some ([], t) end.
(** one line: name, labels in braces if any, value, and the timestamp if any *)
Definition read_sample (t : text) : option (sample * text) :=
  match span name_char t with
  | (c :: n, r) =>
      if is_digit c then None else
      match read_braces r with
      | Some (ls, " "%char :: r') =>
          match span number_char r' with
          | ([], _) => None
          | (v, " "%char :: r'') =>
              match span number_char r'' with
              | (ts, nl :: rest) => match read_int ts with Some z => if Ascii.eqb nl newline then Some (mk_sample (c :: n) ls v (Some z), rest) else None | None => None end
              | _ => None
              end
          | (v, nl :: rest) => if Ascii.eqb nl newline then Some (mk_sample (c :: n) ls v None, rest) else None
          | _ => None
          end
      | _ => None
      end
  | _ => None
  end.
(** all lines; empty ones are skipped. There cannot be more lines than characters. *)
Fixpoint read_lines (fuel : nat) (t : text) : option (list sample) :=
  match t with
  | [] => Some []
  | c :: r =>
      match fuel with
      | O => None
      | S f =>
          if Ascii.eqb c newline then read_lines f r
          else match read_sample t with
               | Some (s, rest) => option_map (cons s) (read_lines f rest)
               | None => None
               end
      end
  end.
Definition decode (t : text) : option (list sample) := read_lines (length t) t.

(** What the reader is to see of a datum: dots in names are underscores *)
Definition dot_to_underscore (c : ascii) : ascii := if Ascii.eqb c "." then "_"%char else c.
Definition seen_as (d : datum) : sample := mk_sample (map dot_to_underscore (name d)) (labels d) (value d) (millis d).
(** names the format allows, but for the dots *)
Definition good_name (n : text) : Prop :=
  match n with [] => False | c :: _ => is_digit c = false end /\ forall c, In c n -> name_char (dot_to_underscore c) = true.
Definition good_key (k : text) : Prop := match k with [] => False | c :: _ => is_digit c = false end /\ forall c, In c k -> key_char c = true.
Definition good_value (v : text) : Prop := v <> [] /\ forall c, In c v -> number_char c = true.
Definition well_named (d : datum) : Prop := good_name (name d) /\ (forall k v, In (k, v) (labels d) -> good_key k) /\ good_value (value d).
Definition one_line (d : datum) : Prop := forall k v, In (k, v) (labels d) -> ~ In newline v.
