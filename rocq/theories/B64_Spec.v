(** What base64 text is. *)
From Coq Require Import Ascii String.
From Verif Require Import Prelude.
Local Open Scope Z_scope.
Set Implicit Arguments.

Definition bytes (content : list Z) : Prop := Forall (fun b => 0 <= b < 256) content.
(** the last [w] bits of a number, the most significant first *)
Fixpoint bits (w : nat) (n : Z) : list bool := match w with O => [] | S w' => bits w' (n / 2) ++ [Z.odd n] end.
(** the six bits a character stands for: A to Z are 0 to 25, a to z 26 to 51, 0 to 9 52 to 61, + is 62 and / is 63 *)
Inductive stands_for : ascii -> Z -> Prop :=
| upper n : (n < 26)%nat -> stands_for (ascii_of_nat (65 + n)) (Z.of_nat n)
| lower n : (n < 26)%nat -> stands_for (ascii_of_nat (97 + n)) (26 + Z.of_nat n)
| number n : (n < 10)%nat -> stands_for (ascii_of_nat (48 + n)) (52 + Z.of_nat n)
| plus : stands_for "+" 62
| slash : stands_for "/" 63.
(** the text spells the content: its characters, but for the padding at the end, stand for the bits of the content and two zero bits for
    every =, at most two of them *)
Definition spells (text : string) (content : list Z) : Prop := exists characters numbers pads,
  text = string_of_list_ascii (characters ++ repeat "="%char pads) /\ Forall2 stands_for characters numbers /\ (pads <= 2)%nat /\
  flat_map (bits 6) numbers = flat_map (bits 8) content ++ repeat false (2 * pads).
