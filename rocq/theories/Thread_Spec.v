(** What terminable threads promise. *)
From Verif Require Import Prelude Thread_Model.
Set Implicit Arguments.

(** the user's methods called, in order; how the calls ended, in order *)
Definition entries (l : list act) : list method := flat_map (fun a => match a with Enters m => [m] | _ => [] end) l.
Definition exits (l : list act) : list (method * outcome) := flat_map (fun a => match a with Leaves m o => [(m, o)] | _ => [] end) l.
Definition is_loop (m : method) : bool := match m with Loop => true | _ => false end.
Definition loops (l : list act) : nat := length (filter is_loop (entries l)).
Definition in_body (m : method) : Prop := m = Loop \/ m = Overrun.
(** a whole life: prepare, any number of loops (and on_overruns), cleanup *)
Definition whole_life (l : list method) : Prop := exists body, l = Prepare :: body ++ [Cleanup] /\ Forall in_body body.
Definition part_of_life (l : list method) : Prop := exists l', whole_life (l ++ l').
(** the calls do not overlap: each one ends before the next one begins *)
Fixpoint one_at_a_time (current : option method) (l : list act) : Prop :=
  match l with
  | [] => True
  | Enters m :: rest => current = None /\ one_at_a_time (Some m) rest
  | Leaves m _ :: rest => current = Some m /\ one_at_a_time None rest
  | _ :: rest => one_at_a_time current rest
  end.
Definition unforced (e : event) : Prop := match e with Terminate force => force = false | _ => True end.

(** how the thread ends if its last call before cleanup() ended so, and cleanup() so *)
Definition verdict (terminate_on : nat -> option bool) (m : method) (o : outcome) : outcome :=
  match o with
  | Returns => Returns
  | Raises SysExit => Returns
  | Raises (Ordinary n) => match m with
                           | Overrun => o
                           | _ => match terminate_on n with Some true => Returns | Some false => o | None => Raises NotATuple end
                           end
  | Raises _ => o
  end.
Definition final (terminate_on : nat -> option bool) (m : method) (o cleanup : outcome) : outcome :=
  match cleanup with Returns => verdict terminate_on m o | _ => cleanup end.

(** the next thing for the thread itself to do: in a method of the user, that it ends *)
Definition own (c : tstate) (o : outcome) : event := match at_ c with Inside _ | Cleaning _ => Ends o 0 | _ => Go end.
Fixpoint on_its_own (interval : option Z) (terminate_on : nat -> option bool) (c : tstate) (l : list outcome) : tstate :=
  match l with [] => c | o :: rest => on_its_own interval terminate_on (tstep interval terminate_on c (own c o)) rest end.

(** The interval thread: it sleeps, two seconds at a time at most, for what is left of the period after loop(), and calls on_overrun() if
    nothing is. [owed]: what is left. *)
Fixpoint timely (seconds : Z) (owed : option Z) (l : list act) : Prop :=
  match l with
  | [] => True
  | Measured d :: rest => timely seconds (Some (seconds - d)%Z) rest
  | Slept d :: rest => match owed with
                       | Some x => (0 < d <= 2000)%Z /\ (d <= x)%Z /\ timely seconds (Some (x - d)%Z) rest
                       | None => False
                       end
  | Enters Overrun :: rest => match owed with Some x => (x < 0)%Z /\ timely seconds None rest | None => False end
  | Enters Loop :: rest => (owed = None \/ owed = Some 0%Z) /\ timely seconds None rest
  | _ :: rest => timely seconds owed rest
  end.

(** ** waiting in pieces: how many, and which *)
Definition rounds (timeout wake : Z) : nat := Z.to_nat ((timeout + wake - 1) / wake).
Definition pieces (timeout wake : Z) : list Z :=
  match rounds timeout wake with O => [] | S n => repeat wake n ++ [(timeout - Z.of_nat n * wake)%Z] end.
(** at most n rounds: the result and how many waits there were *)
Fixpoint waited (n : nat) (dont_raise : bool) (looks : list (bool * wait_end)) : wait_result * nat :=
  match n, looks with
  | O, _ => (if dont_raise then WReturned else WWouldWaitMore, 0)
  | S _, [] => (StillWaiting, 0)
  | S _, (true, _) :: _ => (WSystemExit, 0)
  | S _, (false, Notified) :: _ => (WReturned, 1)
  | S _, (false, LockBusy) :: _ => (WResourceLocked, 1)
  | S n', (false, NotNotified) :: rest => (fst (waited n' dont_raise rest), S (snd (waited n' dont_raise rest)))
  end.
Fixpoint slept (n : nat) (looks : list bool) (last : bool) : sleep_result * nat :=
  match n, looks with
  | O, _ | S _, true :: _ => (if last then SSystemExit else SReturned, 0)
  | S _, [] => (StillSleeping, 0)
  | S n', false :: rest => (fst (slept n' rest last), S (snd (slept n' rest last)))
  end.
Definition total (l : list Z) : Z := fold_right Z.add 0%Z l.

(** ** call_in_separate_thread: the turns of the thread, the second of which calls the function; what the future should become *)
Definition turns (es : list fevent) : list fout := flat_map (fun e => match e with FTurn o => [o] | Cancel => [] end) es.
Definition resolved (o : fout) : fstate := match o with FReturns v => FResult v | FRaises e => FException e end.
(** derived from Exception *)
Definition catchable (o : fout) : Prop := match o with FRaises SysExit | FRaises (OtherBase _) => False | _ => True end.
