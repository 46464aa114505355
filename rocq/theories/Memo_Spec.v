(** What memoize and cache_memoize promise. *)
From Verif Require Import Prelude Memo_Model.
Set Implicit Arguments.

Section MemoSpec.
  Variables K W V : Type.
  Variable duration : option Z.
  (** the result comes from an evaluation made in this very call *)
  Definition own (es : list (evaluation K W V)) (t : nat) (call : K * W) (now : Z) (r : res V) : Prop :=
    exists e, In e es /\ who e = t /\ on e = fst call /\ with_kwargs e = snd call /\ stamp e = now /\ outcome e = r.
  (** or from one made by anybody on the same positional arguments, not older than the duration *)
  Definition kept (es : list (evaluation K W V)) (call : K * W) (now : Z) (r : res V) : Prop :=
    exists e v, In e es /\ on e = fst call /\ outcome e = r /\ r = Ok v /\
      match duration with None => True | Some d => (now - stamp e <= d)%Z end.
  Definition justified (es : list (evaluation K W V)) (t : nat) (call : K * W) (result : Z * res V) : Prop :=
    own es t call (fst result) (snd result) \/ kept es call (fst result) (snd result).
  Definition called (th : mthread K W V) : list (K * W) := match at_ th with Outside => [] | Inside a kw _ _ => [(a, kw)] end.

  (** an evaluation on arguments for which a value was obtained before: with memoize it does not happen, with cache_memoize it is
      in a call that began more than the duration after the one that obtained the value *)
  Definition well_spaced (es : list (evaluation K W V)) : Prop :=
    forall i j e f v, i < j -> nth_error es i = Some e -> nth_error es j = Some f -> on e = on f -> outcome e = Ok v ->
      match duration with None => False | Some d => (d < stamp f - stamp e)%Z end.

  (** a call that has begun is over before another begins *)
  Definition undisturbed (c : mstate K W V) (e : event V) : Prop :=
    forall t th, nth_error (mthreads c) t = Some th -> at_ th <> Outside -> exists clock out, e = Turn t clock out.
  Variable eqb : K -> K -> bool.
  Fixpoint one_by_one (c : mstate K W V) (es : list (event V)) : Prop :=
    match es with [] => True | e :: rest => undisturbed c e /\ one_by_one (mevent eqb duration c e) rest end.
End MemoSpec.
