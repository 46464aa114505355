(** b64encode (satella/coding/transforms/base64.py:4-16). Bytes are the numbers from 0 to 255. base64.b64encode of the standard library is
    modelled after RFC 4648, section 4; decode('utf-8') of text that is ASCII only changes the type. *)
From Coq Require Import Ascii String.
From Verif Require Import Prelude.
Local Open Scope Z_scope.
Set Implicit Arguments.

Definition alphabet : list ascii := list_ascii_of_string "ABCDEFGHIJKLMNOPQRSTUVWXYZabcdefghijklmnopqrstuvwxyz0123456789+/".   (* 16; RFC 4648, table 1 *)
Definition pad : ascii := "="%char.
Definition digit (n : Z) : ascii := nth (Z.to_nat n) alphabet pad.
(** every three bytes become four characters; one or two bytes that are left over are filled up with zero bits and padded *)
Fixpoint encode (content : list Z) : list ascii :=                                            (* 16 *)
  match content with
  | a :: b :: c :: r => digit (a / 4) :: digit (a mod 4 * 16 + b / 16) :: digit (b mod 16 * 4 + c / 64) :: digit (c mod 64) :: encode r
  | [a; b] => [digit (a / 4); digit (a mod 4 * 16 + b / 16); digit (b mod 16 * 4); pad]
  | [a] => [digit (a / 4); digit (a mod 4 * 16); pad; pad]
  | [] => []
  end.
Definition b64encode (content : list Z) : string := string_of_list_ascii (encode content).      (* 16 *)
