(** What clocks do. *)
From Verif Require Import Prelude Sleep_Model.
Set Implicit Arguments.
Open Scope Z_scope.

(** the clock does not go back, and time.sleep lasts as long as it was asked to unless it is interrupted *)
Fixpoint sane (y now : Z) (turns : list turn) : Prop :=
  match turns with
  | [] => True
  | t :: r => now <= test t <= arg t /\ 0 <= lasts t /\ (interrupted t = false -> y - arg t <= lasts t) /\
              sane y (arg t + lasts t) r
  end.
(** the end does not fall between the two readings of the clock *)
Definition not_between (y : Z) (t : turn) : Prop := test t < y -> arg t <= y.
Definition interruptions (turns : list turn) : nat := length (filter interrupted turns).

(** the signals waited for; and the same handlers *)
Definition listened (extra : list nat) (sig : nat) : Prop := sig = SIGTERM \/ In sig extra.
Definition same_handlers (s s' : signals) : Prop := forall sig, table s sig = table s' sig.
(** nothing that is waited for comes in this turn *)
Definition silent (extra : list nat) (p : poll) : Prop :=
  match p with Came sigs => forall sig, In sig sigs -> ~ listened extra sig | Interrupted => False end.
Definition loud (extra : list nat) (p : poll) : Prop :=
  match p with Came sigs => exists sig, In sig sigs /\ listened extra sig | Interrupted => False end.
