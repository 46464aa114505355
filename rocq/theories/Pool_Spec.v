(** What CPManager promises. *)
From Verif Require Import Prelude Pool_Model.
Set Implicit Arguments.

(** connections on their way between a user and the pool: taken out or created and not yet returned to the caller; being given back or
    torn down *)
Definition moving (p : place) : list nat :=
  match p with
  | ACountLock c | ACount c | RCheck c | RPut c | RKillLock c | RKill c | RTear c | ITear c => [c]
  | _ => []
  end.
Definition torn (l : list act) : list nat := flat_map (fun a => match a with Tore c => [c] | _ => [] end) l.
Definition took (l : list act) : list nat := flat_map (fun a => match a with Took c => [c] | _ => [] end) l.

(** Each connection ever created is in exactly one place: idle, held by one thread, on its way, or torn down. *)
Definition accounted (c : pool) : Prop :=
  Permutation (seq 0 (next c))
    (idle c ++ flat_map held (pthreads c) ++ flat_map (fun th => moving (at_ th)) (pthreads c) ++ torn (trace c)).
(** how many times a connection was handed out *)
Definition taken (l : list act) (x : nat) : nat := count_occ Nat.eq_dec (took l) x.
Definition over (th : pthread) : Prop := todo th = [] /\ at_ th = Outside.
Definition no_invalidate (op : pop) : Prop := match op with Invalidate | Close => False | _ => True end.
