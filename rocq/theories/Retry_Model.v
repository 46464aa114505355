(** Model of retry (satella/coding/decorators/retry_dec.py). The function and the callbacks are parameters: the function's outcome depends
    on how many times it was called before. The calls made are recorded in order. *)
From Verif Require Import Prelude.
Set Implicit Arguments.

Inductive call : Type := Fun | Success (i : nat) | Between (e : exn) | Failure (e : exn) | OldFailure (e : exn).

Section Retry.
  Variable V : Type.
  (** retry_dec.py:9-15 *)
  Record settings : Type := mk_settings {
    times : option Z;
    caught : exn -> bool;                                  (** isinstance(e, exc_classes) *)
    on_failure : exn -> res unit;
    swallow : bool;
    call_on_failure : option (exn -> res unit);
    call_on_success : option (nat -> res unit);
    call_between_retries : option (exn -> res unit) }.
  Variable s : settings.
  Variable f : nat -> res V.

  (** how the for loop ends: with an outcome of [inner], or with no more attempts, [f] being the last exception if there was one *)
  Inductive loop_end : Type := Left (r : res V) | Exhausted (last : option exn).
  (** retry_dec.py:64-74, attempts i, i+1, ..., as many as [left] *)
  Fixpoint loop (left i : nat) (last : option exn) : list call * loop_end :=
    match left with
    | O => ([], Exhausted last)
    | S more =>
      let failed made e :=
        if caught s e then
          match call_between_retries s with
          | None => let (calls, r) := loop more (S i) (Some e) in (made ++ calls, r)
          | Some between =>
            match between e with
            | Ok _ => let (calls, r) := loop more (S i) (Some e) in (made ++ Between e :: calls, r)
            | Err e' => (made ++ [Between e], Left (Err e'))
            end
          end
        else (made, Left (Err e)) in
      match f i with
      | Ok v =>
        match call_on_success s with
        | None => ([Fun], Left (Ok v))
        | Some success => match success i with Ok _ => ([Fun; Success i], Left (Ok v)) | Err e => failed [Fun; Success i] e end
        end
      | Err e => failed [Fun] e
      end
    end.
  (** retry_dec.py:75-80. [f] unbound is an UnboundLocalError. None is returned when the exception is swallowed. *)
  Definition exhausted (last : option exn) : list call * res (option V) :=
    match last with
    | None => ([], Err NameErrorExn)
    | Some e =>
      match on_failure s e with
      | Err e' => ([Failure e], Err e')
      | Ok _ =>
        match call_on_failure s with
        | None => ([Failure e], if swallow s then Ok None else Err e)
        | Some old => match old e with
                      | Err e' => ([Failure e; OldFailure e], Err e')
                      | Ok _ => ([Failure e; OldFailure e], if swallow s then Ok None else Err e)
                      end
        end
      end
    end.
  (** retry_dec.py:59-80. The second component is None when the call is not over after [fuel] attempts, which can be only when times is
      None. *)
  Definition inner (fuel : nat) : list call * option (res (option V)) :=
    match times s with
    | Some n =>
      match loop (Z.to_nat n) 0 None with
      | (calls, Left r) => (calls, Some (res_map Some r))
      | (calls, Exhausted last) => let (more, r) := exhausted last in (calls ++ more, Some r)
      end
    | None =>
      match loop fuel 0 None with
      | (calls, Left r) => (calls, Some (res_map Some r))
      | (calls, Exhausted _) => (calls, None)
      end
    end.
End Retry.
Arguments Exhausted {V} last.
