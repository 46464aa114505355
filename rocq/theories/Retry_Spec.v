(** What retry promises. *)
From Verif Require Import Prelude Retry_Model.
Set Implicit Arguments.

Section RetrySpec.
  Variable V : Type.
  Variable s : settings.
  Variable f : nat -> res V.
  (** the first k calls fail with listed exceptions *)
  Definition leading_failures (k : nat) : Prop := forall i, i < k -> exists e, f i = Err e /\ caught s e = true.
  Definition if_given {X} (callback : option X) (c : call) : list call := match callback with None => [] | Some _ => [c] end.
  (** what is called in the first k attempts *)
  Definition failures (k : nat) : list call :=
    flat_map (fun i => Fun :: match f i with Err e => if_given (call_between_retries s) (Between e) | Ok _ => [] end) (seq 0 k).
  Definition allowed (k : nat) : Prop := match times s with None => True | Some n => (Z.of_nat k < n)%Z end.

  Inductive expected : list call -> res (option V) -> Prop :=
  | E_success k v : allowed k -> leading_failures k -> f k = Ok v ->
      expected (failures k ++ Fun :: if_given (call_on_success s) (Success k)) (Ok (Some v))
  | E_other k e : allowed k -> leading_failures k -> f k = Err e -> caught s e = false ->
      expected (failures k ++ [Fun]) (Err e)
  | E_gave_up k e : times s = Some (Z.of_nat (S k)) -> leading_failures (S k) -> f k = Err e ->
      expected (failures (S k) ++ Failure e :: if_given (call_on_failure s) (OldFailure e)) (if swallow s then Ok None else Err e).

  (** callbacks that raise nothing *)
  Definition quiet {X} (callback : X -> res unit) : Prop := forall x, callback x = Ok tt.
  Definition quiet_if_given {X} (callback : option (X -> res unit)) : Prop := match callback with None => True | Some c => quiet c end.
  Definition quiet_callbacks : Prop :=
    quiet (on_failure s) /\ quiet_if_given (call_on_failure s) /\ quiet_if_given (call_on_success s) /\ quiet_if_given (call_between_retries s).
End RetrySpec.
Definition is_fun (c : call) : bool := match c with Fun => true | _ => false end.
Definition calls_of_function (l : list call) : nat := length (filter is_fun l).
