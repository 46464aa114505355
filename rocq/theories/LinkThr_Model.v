(** LinkfailMetric fed by several threads (satella/instrumentation/metrics/metric_types/linkfail.py:50-67). It takes no lock.
    The threads are those of MetrThr_Model: nothing interrupts a step, between two of them any other thread may run, and what Python calls
    [x += 1] is a step that reads and a step that writes. Numbers without a file are lines of linkfail.py. Not modelled: labels and embedded
    submetrics (51-52), the level check of handle() (base.py:137-142), and callbacks that raise. That looking up a defaultdict stores the
    default (42-44) is left out too: only the export (69-85) sees it. *)
From Verif Require Import Prelude MetrThr_Model.
Local Open Scope Z_scope.
Set Implicit Arguments.

(** what is kept of an address: consecutive_failures (43), consecutive_successes (44), working (42) *)
Record link : Type := { fails : Z; succs : Z; up : bool }.
Definition new_link : link := {| fails := 0; succs := 0; up := true |}.
(** what the threads share: the links, and the calls of callback_on_online (true) and callback_on_offline (false), oldest first *)
Record links : Type := { link_of : Z -> link; told : list (bool * Z) }.
Definition no_links : links := {| link_of := fun _ => new_link; told := [] |}.           (* 42-44 *)
Definition set_link (s : links) (a : Z) (l : link) : links :=
  {| link_of := fun x => if Z.eqb x a then l else link_of s x; told := told s |}.
Definition set_fails (s : links) (a n : Z) : links := set_link s a {| fails := n; succs := succs (link_of s a); up := up (link_of s a) |}.
Definition set_succs (s : links) (a n : Z) : links := set_link s a {| fails := fails (link_of s a); succs := n; up := up (link_of s a) |}.
Definition set_up (s : links) (a : Z) (b : bool) : links := set_link s a {| fails := fails (link_of s a); succs := succs (link_of s a); up := b |}.
Definition tell (s : links) (b : bool) (a : Z) : links := {| link_of := link_of s; told := told s ++ [(b, a)] |}.

(** handle(success, address): the steps of a success, the steps of a failure *)
Inductive code : Type :=
| SZero (a : Z) | SRead (a : Z) | SWrite (a n : Z) | SWorking (a : Z) | STest (a : Z) | SSet (a : Z) | STell (a : Z)
| FRead (a : Z) | FWrite (a n : Z) | FZero (a : Z) | FWorking (a : Z) | FTest (a : Z) | FSet (a : Z) | FTell (a : Z).
Definition first (d : bool * Z) : code := if fst d then SZero (snd d) else FRead (snd d).     (* 53, 60 *)
Section Exec.
  Variables to_offline to_online : Z.                                                      (* 47-48 *)
  Definition exec (x : code) (s : links) : links * next code unit :=
    match x with
    | SZero a => (set_fails s a 0, Next (SRead a))                                         (* 54 *)
    | SRead a => (s, Next (SWrite a (succs (link_of s a))))                                (* 55 *)
    | SWrite a n => (set_succs s a (n + 1), Next (SWorking a))
    | SWorking a => (s, if up (link_of s a) then Returned tt else Next (STest a))          (* 56 *)
    | STest a => (s, if succs (link_of s a) =? to_online then Next (SSet a) else Returned tt)      (* 57 *)
    | SSet a => (set_up s a true, Next (STell a))                                          (* 58 *)
    | STell a => (tell s true a, Returned tt)                                              (* 59 *)
    | FRead a => (s, Next (FWrite a (fails (link_of s a))))                                (* 61 *)
    | FWrite a n => (set_fails s a (n + 1), Next (FZero a))
    | FZero a => (set_succs s a 0, Next (FWorking a))                                      (* 62 *)
    | FWorking a => (s, if up (link_of s a) then Next (FTest a) else Returned tt)          (* 64 *)
    | FTest a => (s, if fails (link_of s a) =? to_offline then Next (FSet a) else Returned tt)     (* 65 *)
    | FSet a => (set_up s a false, Next (FTell a))                                         (* 66 *)
    | FTell a => (tell s false a, Returned tt)                                             (* 67 *)
    end.
  Definition link_run : config links (bool * Z) code unit -> list nat -> config links (bool * Z) code unit := run first exec.
End Exec.
(** threads feed a new metric: handle(success, address) for each pair *)
Definition link_start (programs : nat -> list (bool * Z)) : config links (bool * Z) code unit := start code unit no_links programs.
