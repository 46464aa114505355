(** What wait_until_equal promises. *)
From Verif Require Import Prelude Await_Model.
Set Implicit Arguments.

(** the thread has nothing to do any more *)
Definition over (th : athread) : Prop := todo th = [] /\ at_ th = Outside.
(** it is in the middle of an operation that changes the number *)
Definition changing (th : athread) : Prop :=
  match at_ th with AtMonitor _ _ | Inside _ _ | AtLock | Notifying | Unlocking | Leaving => True | _ => False end.
(** it is in the middle of wait_until_equal(v) *)
Definition waiting_for (v : Z) (th : athread) : Prop :=
  match at_ th with
  | Checking w _ | Comparing w _ | ToLock w _ | ToSleep w _ | Asleep w _ | Awake w _ | ToUnlock w _ | Final w => w = v
  | _ => False
  end.
(** it waits for a notification *)
Definition asleep (th : athread) : Prop := match at_ th with Asleep _ _ => True | _ => False end.
(** the event by which a call of thread t ends with r *)
Definition ends_with (c : anumber) (e : aevent) (t : nat) (r : aresult) : Prop :=
  exists th th', nth_error (athreads c) t = Some th /\ nth_error (athreads (astep c e)) t = Some th' /\ results th' = results th ++ [r].
(** all changes are by operators that notify *)
Definition noisy_op (o : aop) : Prop := match o with Change _ noisy => noisy = true | WaitEq _ _ => True end.
(** nobody changes the value between a comparison and the wait that follows it *)
Definition between (th : athread) : Prop := match at_ th with ToLock _ _ | ToSleep _ _ => True | _ => False end.
Definition storing (th : athread) : Prop := match at_ th with Inside _ _ => True | _ => False end.
Fixpoint undisturbed (c : anumber) (es : list aevent) : Prop :=
  match es with
  | [] => True
  | e :: rest =>
    (forall t th, e = Turn t -> nth_error (athreads c) t = Some th -> storing th -> Forall (fun th' => ~ between th') (athreads c)) /\
    undisturbed (astep c e) rest
  end.
(** calls without a timeout *)
Definition untimed (o : aop) : Prop := match o with WaitEq _ timed => timed = false | Change _ _ => True end.
