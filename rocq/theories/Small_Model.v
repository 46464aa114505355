(** Models of satella/coding/structures/tuples.py: Vector, zip_dict.py: SetZip and hashable_objects.py: HashableWrapper. *)
From Coq Require Import QArith.Qcanon.
From Verif Require Import Prelude.
Local Open Scope nat_scope.
Set Implicit Arguments.

(** * Vector (tuples.py:4-45). The numbers are fractions, computed with exactly. *)
Definition vector := list Qc.
(** tuples.py:17-27; __iadd__ and __isub__ are the same functions *)
Definition vadd (a b : vector) : vector := map (fun p => fst p + snd p)%Qc (combine a b).
Definition vsub (a b : vector) : vector := map (fun p => fst p - snd p)%Qc (combine a b).
(** tuples.py:32-36 *)
Definition vmul (a : vector) (k : Qc) : vector := map (fun x => x * k)%Qc a.
(** tuples.py:38-42 *)
Definition vdiv (a : vector) (k : Qc) : res vector :=
  match a with
  | [] => Ok []
  | _ :: _ => if Qc_eq_dec k 0 then Err ZeroDivision else Ok (map (fun x => x / k)%Qc a)
  end.
(** n * a: there is no __rmul__, so that it is tuple's, which repeats the tuple *)
Definition vrmul (n : nat) (a : vector) : vector := concat (repeat a n).

(** * SetZip (zip_dict.py:1-32). Sets are lists without repetitions, in the order of iteration. *)
Section SetZip.
  Variable K : Type.
  Variable eqb : K -> K -> bool.
  Definition setzip := list (list K).
  Definition sz_iadd (z : setzip) (s : list K) : setzip := z ++ [s].                        (* zip_dict.py:17-19 *)
  Definition sz_contains (z : setzip) (x : K) : bool := existsb (memb eqb x) z.             (* zip_dict.py:24-25 *)
  Definition sz_len (z : setzip) : nat := fold_right (fun s n => length s + n) 0 z.         (* zip_dict.py:27-28 *)
  Definition sz_iter (z : setzip) : list K := concat z.                                     (* zip_dict.py:30-32 *)
End SetZip.

(** * HashableWrapper (hashable_objects.py:4-33)
    An object has an identity, a content, and if it can be hashed a hash, which is a function of the content. [oeq] is == of contents. *)
Section Hashable.
  Variable C : Type.
  Variable hash_of : C -> option Z.      (* None: TypeError *)
  Variable oeq : C -> C -> bool.
  Record obj : Type := MkObj { o_id : Z; o_content : C }.
  (** what a comparison may be with: an object or a wrapper *)
  Inductive other : Type := AnObject (o : obj) | AWrapper (o : obj).
  Definition hw_hash (w : obj) : Z := match hash_of (o_content w) with Some h => h | None => o_id w end.    (* hashable_objects.py:20-25 *)
  Definition hw_eq (w : obj) (x : other) : bool := match x with AnObject o | AWrapper o => (o_id w =? o_id o)%Z end.   (* hashable_objects.py:27-33 *)
  (** Proxy's (proxy.py:183-184): self.__obj != other; with a wrapper it is the wrapper's __ne__, asked the other way round *)
  Definition hw_ne (w : obj) (x : other) : bool := match x with AnObject o | AWrapper o => negb (oeq (o_content w) (o_content o)) end.
End Hashable.
