(** What is expected of an ExpiringEntryDict that several threads use. *)
From Verif Require Import Prelude MetrThr_Model ExpThr_Model.
Local Open Scope Z_scope.
Set Implicit Arguments.

Section ExpThrSpec.
  Context {K V : Type}.
  Variable eqb : K -> K -> bool.
  (** what the calls that ended, in this order, leave under the key if nothing gets old *)
  Definition held (l : list (call K V * res (answer V))) (k : K) : option V :=
    fold_left (fun o e => match e with
                          | (Set_ k' v, Ok _) => if eqb k' k then Some v else o
                          | (Del k', Ok _) => if eqb k' k then None else o
                          | _ => o
                          end) l None.
  (** somebody is just writing or deleting the key *)
  Definition being_changed (c : config (exp_state K V) (call K V) (code K V) (answer V)) (k : K) : Prop :=
    exists t a, (exists v, current c t = Some (Set_ k v, a)) \/ current c t = Some (Del k, a).
  (** how a call should end after those in [l]; a key may seem missing while it is [changing] *)
  Definition fits (l : list (call K V * res (answer V))) (changing : K -> Prop) (d : call K V) (r : res (answer V)) : Prop :=
    match d with
    | Get k => match held l k with Some v => r = Ok (Val v) \/ (r = Err KeyError /\ changing k) | None => r = Err KeyError end
    | Set_ _ _ | Cleanup | Tick _ => r = Ok Nothing
    | Del k => (r = Ok Nothing /\ held l k <> None) \/ (r = Err ValueError /\ held l k = None)
    | In_ k => r = Ok (Bool true) \/ (r = Ok (Bool false) /\ (held l k = None \/ changing k))
    | Len => exists keys, NoDup keys /\ (forall k, In k keys <-> held l k <> None) /\ r = Ok (Num (length keys))
    end.
  (** a thread that reads the key now gets the value *)
  Definition readable (s : exp_state K V) (k : K) (v : V) : Prop :=
    dget eqb (data s) k = Some v /\ exists ts, dget eqb (times s) k = Some ts /\ clock s <= ts.
  (** the time of the key is over *)
  Definition old (s : exp_state K V) (k : K) : Prop := exists ts, dget eqb (times s) k = Some ts /\ ts < clock s.
  (** calls that have nothing to do with the key *)
  Definition elsewhere (d : call K V) (k : K) : Prop :=
    match d with Get k' | Set_ k' _ | Del k' | In_ k' => k' <> k | Cleanup | Len => True | Tick _ => False end.
End ExpThrSpec.
