(** C66: an expression in x is the function it reads as; build_structure fills in the values. *)
From Coq Require Import String.
From Verif Require Import Prelude Predicates_Model Predicates_Spec Predicates_Proofs.

(** an expression written with the operators, in which x occurs, makes a predicate that gives for every argument the value the expression
    has with the argument in place of x, or the exception it raises; if making it raises, the expression raises for every argument *)
Theorem C66_expression_partial : forall (V : Type) op2 op1 attr call0 call1 contains truth of_bool own,
  (forall a b : V, op2 Lt a b = op2 Gt b a /\ op2 Le a b = op2 Ge b a /\ op2 Eq a b = op2 Eq b a /\ op2 Ne a b = op2 Ne b a) ->
  forall e, operators_only own e ->
  match build op2 op1 attr call0 call1 contains truth of_bool own e with
  | Ok (Plain c) => mentions e = false /\ forall v, meaning op2 op1 attr call0 call1 contains truth of_bool e v = Ok c
  | Ok (Pred p) => mentions e = true /\ forall v, p v = meaning op2 op1 attr call0 call1 contains truth of_bool e v
  | Ok (Bound _) => False
  | Err _ => forall v, exists ex, meaning op2 op1 attr call0 call1 contains truth of_bool e v = Err ex
  end.
Proof. exact build_right. Qed.
Print Assumptions C66_expression_partial.

(** build_structure returns the structure with every predicate replaced by its value, and only that, for structures of lists, tuples and
    dicts of one entry, without strings *)
Theorem C66_structure_sound_partial : forall (V : Type) hashable (v : V) s r, simple s -> rebuild hashable s v = Ok r -> replaced v s r.
Proof. exact rebuild_sound. Qed.
Print Assumptions C66_structure_sound_partial.
Theorem C66_structure_complete_partial : forall (V : Type) hashable (v : V) s r, simple s -> replaced v s r -> hashable_keys hashable r -> rebuild hashable s v = Ok r.
Proof. exact rebuild_complete. Qed.
Print Assumptions C66_structure_complete_partial.

(** * Not provable for everything that can be written *)
(** small Python: integers, booleans, strings, lists *)
Local Open Scope Z_scope.
Inductive val : Type := VI (z : Z) | VB (b : bool) | VS (s : string) | VL (l : list Z).
Definition eg_op2 (op : binop) (a b : val) : res val :=
  match op, a, b with
  | Add, VI x, VI y => Ok (VI (x + y)) | Sub, VI x, VI y => Ok (VI (x - y)) | Mul, VI x, VI y => Ok (VI (x * y))
  | FloorDiv, VI x, VI y => if y =? 0 then Err ZeroDivision else Ok (VI (x / y))
  | Lt, VI x, VI y => Ok (VB (x <? y)) | Gt, VI x, VI y => Ok (VB (y <? x)) | Le, VI x, VI y => Ok (VB (x <=? y)) | Ge, VI x, VI y => Ok (VB (y <=? x))
  | Eq, VI x, VI y => Ok (VB (x =? y)) | Ne, VI x, VI y => Ok (VB (negb (x =? y)))
  | Getitem, VL l, VI i => match nth_error l (Z.to_nat i) with Some x => Ok (VI x) | None => Err IndexError end
  | Mod, VS s, VI x => Ok (VS (s ++ "5")%string)
  | _, _, _ => Err TypeError
  end.
Definition eg_op1 (op : unop) (a : val) : res val :=
  match op, a with Neg, VI x => Ok (VI (- x)) | Length, VL l => Ok (VI (Z.of_nat (List.length l))) | _, _ => Err TypeError end.
Definition eg_attr (a : val) (n : string) : res val := match a with VI x => Ok (VI (x + 1000)) | _ => Err AttributeError end.   (* x.name is 1000 + x *)
Definition eg_call0 (a : val) : res val := match a with VI x => Ok (VI (x + 1)) | _ => Err TypeError end.                          (* f() is f + 1 *)
Definition eg_call1 (a b : val) : res val := match a, b with VI x, VI y => Ok (VI (x + y)) | _, _ => Err TypeError end.          (* f(y) is f + y *)
Definition eg_contains (c a : val) : res val :=
  match c, a with VL l, VI x => Ok (VB (existsb (Z.eqb x) l)) | VL l, _ => Ok (VB false) | _, _ => Err TypeError end.
Definition eg_truth (a : val) : bool := match a with VI x => negb (x =? 0) | VB b => b | VS s => negb (String.eqb s "") | VL l => negb (Nat.eqb (List.length l) 0) end.
(** a string formats anything: %; indexing is for the left operand alone *)
Definition eg_own (op : binop) (a : val) : option (res val) :=
  match op, a with Mod, VS s => Some (Ok (VS (s ++ "<x>")%string)) | Getitem, _ => Some (Err TypeError) | _, _ => None end.
Definition eg_build := build eg_op2 eg_op1 eg_attr eg_call0 eg_call1 eg_contains eg_truth VB eg_own.
Definition eg_meaning := meaning eg_op2 eg_op1 eg_attr eg_call0 eg_call1 eg_contains eg_truth VB.
Definition call (e : expr val) (v : val) : res val :=
  match eg_build e with Ok (Pred p) => p v | Ok (Plain c) => Ok c | Ok (Bound _) => Err TypeError | Err x => Err x end.

Definition C66_full_statement : Prop :=
  (forall e v, mentions e = true -> exists p, eg_build e = Ok (Pred p) /\ p v = eg_meaning e v) /\
  (forall hashable s (v : val) r, replaced v s r -> hashable_keys hashable r -> rebuild hashable s v = Ok r).

Local Notation x := (X val).
Local Notation num n := (Const (VI n)).
(** 1 < x < 5, as Python reads it, only checks the second inequality *)
Theorem C66_chained_comparison_refuted : call (And (Bin Lt (num 1) x) (Bin Lt x (num 5))) (VI 0) = Ok (VB true) /\
  eg_meaning (And (Bin Lt (num 1) x) (Bin Lt x (num 5))) (VI 0) = Ok (VB false).
Proof. vm_compute. auto. Qed.
Print Assumptions C66_chained_comparison_refuted.
(** "or" keeps the first only, "not" is False at once, "in x" is True at once, [1, 2][x] raises at once, 's' % x formats the predicate *)
Theorem C66_keywords_refuted :
  call (Or (Bin Eq x (num 1)) (Bin Eq x (num 2))) (VI 2) = Ok (VB false) /\ eg_meaning (Or (Bin Eq x (num 1)) (Bin Eq x (num 2))) (VI 2) = Ok (VB true) /\
  eg_build (Not (Bin Eq x (num 1))) = Ok (Plain (VB false)) /\ eg_meaning (Not (Bin Eq x (num 1))) (VI 2) = Ok (VB true) /\
  eg_build (In_ (num 3) x) = Ok (Plain (VB true)) /\ eg_meaning (In_ (num 3) x) (VL [1; 2]) = Ok (VB false) /\
  eg_build (Bin Getitem (Const (VL [7; 8])) x) = Err TypeError /\ eg_meaning (Bin Getitem (Const (VL [7; 8])) x) (VI 1) = Ok (VI 8) /\
  eg_build (Bin Mod (Const (VS "n")) x) = Ok (Plain (VS "n<x>")) /\ eg_meaning (Bin Mod (Const (VS "n")) x) (VI 5) = Ok (VS "n5").
Proof. vm_compute. repeat split. Qed.
Print Assumptions C66_keywords_refuted.
(** x.method(5) calls the predicate x.method with 5; x.length is not the attribute; x.inside(list) asks if the list is inside x *)
Theorem C66_methods_refuted :
  eg_build (Call1 (Attr x "add") (num 5)) = Ok (Plain (VI 1005)) /\ eg_meaning (Call1 (Attr x "add") (num 5)) (VI 1) = Ok (VI 1006) /\
  eg_build (Attr x "length") = Ok (Bound val) /\ eg_meaning (Attr x "length") (VI 1) = Ok (VI 1001) /\
  call (Inside x (VL [1; 2])) (VI 1) = Err TypeError /\ eg_meaning (Inside x (VL [1; 2])) (VI 1) = Ok (VB true).
Proof. vm_compute. repeat split. Qed.
Print Assumptions C66_methods_refuted.

Definition hash_any (s : struct val) : bool := true.
Local Notation n k := (SVal (VI k)).
Definition eg_pred := SPred (fun v => eg_op2 Add v (VI 1)).
(** of a dict only the first entry is built, an empty dict raises UnboundLocalError, any string in the structure exhausts the stack, and
    the empty string becomes '[]' *)
Theorem C66_structures_refuted :
  rebuild hash_any (SDict [(n 1, eg_pred); (n 2, eg_pred)]) (VI 5) = Ok (SDict [(n 1, n 6)]) /\
  rebuild hash_any (SDict []) (VI 5) = Err NameErrorExn /\
  rebuild hash_any (SDict [(SStr val "a", eg_pred)]) (VI 5) = Err RuntimeError /\
  rebuild hash_any (SSeq KList [eg_pred; SStr val "a"]) (VI 5) = Err RuntimeError /\
  rebuild hash_any (SSeq KList [eg_pred; SStr val ""]) (VI 5) = Ok (SSeq KList [n 6; SStr val "[]"]).
Proof. vm_compute. repeat split. Qed.
Print Assumptions C66_structures_refuted.
Theorem C66_full_statement_refuted : ~ C66_full_statement.
Proof. intros (H & _). destruct (H (Not x) (VI 1) eq_refl) as (p & E & _). discriminate. Qed.
Print Assumptions C66_full_statement_refuted.

(** * Cases that meet the hypotheses *)
Example C66_eg_hyp : forall a b, eg_op2 Lt a b = eg_op2 Gt b a /\ eg_op2 Le a b = eg_op2 Ge b a /\ eg_op2 Eq a b = eg_op2 Eq b a /\ eg_op2 Ne a b = eg_op2 Ne b a.
Proof. intros [p|p|p|p] [q|q|q|q]; simpl; repeat split; auto; rewrite Z.eqb_sym; auto. Qed.
(** 10 // (3 - x) < x * -x.a(): constants on the left of operators, several x *)
Definition eg_expr := Bin Lt (Bin FloorDiv (num 10) (Bin Sub (num 3) x)) (Bin Mul x (Un Neg (Call0 (Attr x "a")))).
Example C66_eg_expression : operators_only eg_own eg_expr /\ call eg_expr (VI 1) = Ok (VB false) /\ call eg_expr (VI 3) = Err ZeroDivision /\ call eg_expr (VI (-2000)) = Ok (VB false).
Proof. split; [|vm_compute; auto]. simpl. repeat split; auto; try discriminate; intros _ H; simpl in H; intuition discriminate. Qed.
Definition eg_struct := SSeq KTuple [eg_pred; n 7; SSeq KList [eg_pred; SDict [(SWrapped (SSeq KTuple [n 1]), eg_pred)]]].
Example C66_eg_structure : simple eg_struct /\ rebuild hash_any eg_struct (VI 5) = Ok (SSeq KTuple [n 6; n 7; SSeq KList [n 6; SDict [(SSeq KTuple [n 1], n 6)]]]).
Proof. split; [|reflexivity]. repeat (constructor; try discriminate). Qed.
