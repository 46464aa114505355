(** C78: a proxy is like what it wraps. *)
From Verif Require Import Prelude Proxy_Model.
Set Implicit Arguments.

Section Spec.
  Variable V : Type.
  Variable op2 : bop -> V -> V -> res V.
  Variable op1 : uop -> V -> res V.

  (** the object below all the proxies *)
  Fixpoint strip (x : val V) : V := match x with Plain a => a | Prox y _ => strip y end.
  Definition is_proxy (x : val V) : Prop := exists y w, x = Prox y w.
  (** wrap_operations is not set anywhere *)
  Fixpoint plain_results (x : val V) : Prop := match x with Plain _ => True | Prox y w => w = false /\ plain_results y end.

  (** the expression with ordinary objects in the place of proxies *)
  Fixpoint plainly (e : expr V) : res V :=
    match e with
    | Const x => Ok (strip x)
    | Bin o l r => res_bind (plainly l) (fun a => res_bind (plainly r) (fun b => op2 o a b))
    | Un u x => res_bind (plainly x) (op1 u)
    end.
  (** without % and round(x) *)
  Fixpoint usual (e : expr V) : Prop :=
    match e with
    | Const _ => True
    | Bin o l r => o <> Mod_ /\ usual l /\ usual r
    | Un u x => u <> Round /\ usual x
    end.
End Spec.

(** x < y is y > x and so on *)
Definition mirrored (V : Type) (cmp2 : cop -> V -> V -> res bool) : Prop := forall a b,
  cmp2 Eq_ b a = cmp2 Eq_ a b /\ cmp2 Ne_ b a = cmp2 Ne_ a b /\ cmp2 Gt_ b a = cmp2 Lt_ a b /\ cmp2 Ge_ b a = cmp2 Le_ a b.
