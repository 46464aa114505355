(** What DeferredValue and Closeable promise. *)
From Verif Require Import Prelude Deferred_Model.
Set Implicit Arguments.

Section DeferredSpec.
  Variable V : Type.
  (** the values given to the calls of set_value that returned, and those returned by value *)
  Definition sets (l : list (dresult V)) : list V := flat_map (fun r => match r with WasSet v => [v] | _ => [] end) l.
  Definition gets (l : list (dresult V)) : list V := flat_map (fun r => match r with Value v => [v] | _ => [] end) l.
  Definition all_results (c : dstate V) : list (dresult V) := flat_map (@results V) (dthreads c).
  Definition over (th : dthread V) : Prop := todo th = [] /\ at_ th = Outside.
  (** what the property asks for *)
  Definition set_once (c : dstate V) : Prop :=
    length (sets (all_results c)) <= 1 /\ forall v w, In v (sets (all_results c) ++ gets (all_results c)) -> In w (sets (all_results c) ++ gets (all_results c)) -> v = w.
  (** schedules in which nobody else moves between the check and the write of set_value *)
  Fixpoint undisturbed (c : dstate V) (es : list (devent)) : Prop :=
    match es with
    | [] => True
    | e :: rest => (forall t th v, nth_error (dthreads c) t = Some th -> at_ th = Writing v -> e = Turn t) /\ undisturbed (dstep c e) rest
    end.
End DeferredSpec.
(** programs in which set_value is called once in all *)
Definition is_set {V} (o : dop V) : bool := match o with SetValue _ => true | _ => false end.
Definition one_setter {V} (programs : list (list (dop V))) : Prop := length (filter is_set (concat programs)) <= 1.

(** the values given to set_value *)
Definition given {V} (programs : list (list (dop V))) : list V := flat_map (fun o => match o with SetValue v => [v] | _ => [] end) (concat programs).

(** of Closeable: how many calls were told to clean up *)
Definition told (l : list cresult) : nat := length (filter (fun r => match r with Closed (Some true) => true | _ => false end) l).
Definition all_cresults (c : cstate) : list cresult := flat_map cresults (cthreads c).
Definition cover (th : cthread) : Prop := ctodo th = [] /\ cat_ th = COutside.
(** close() calls do not overlap: nobody else moves between the read and the write *)
Fixpoint cundisturbed (c : cstate) (turns : list nat) : Prop :=
  match turns with
  | [] => True
  | t :: rest => (forall u th r, nth_error (cthreads c) u = Some th -> cat_ th = CFinally r -> t = u) /\ cundisturbed (cturn c t) rest
  end.
(** one thread: what the calls answer, in order; [open]: initialised and not closed yet *)
Inductive life : Type := Uninitialised | Open | Over.
Fixpoint expected (l : life) (ops : list cop) : list cresult :=
  match ops with
  | [] => []
  | IsClosed :: rest => Was (match l with Open => false | _ => true end) :: expected l rest
  | CloseIt :: rest => Closed (match l with Uninitialised => None | Open => Some true | Over => Some false end) :: expected Over rest
  end.
Definition cresults_of (c : cstate) : list (list cresult) := map cresults (cthreads c).
