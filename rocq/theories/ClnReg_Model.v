(** ExpiringEntryDictThread (satella/coding/structures/dictionaries/expiring.py:20-58), the thread that cleans up all the ExpiringEntryDicts
    made with external_cleanup and the SelfCleaningDefaultDicts, together with threads that make, use and drop such dictionaries.
    The threads are those of MetrThr_Model. Dictionaries are numbered; of their contents nothing is modelled, except that [breaks] says whose
    cleanup() raises KeyError (C129_lost_refuted shows how that comes about). The monitors (threading.Lock, concurrent/monitor.py:36-47) are
    those of the registry and of the dictionaries. Numbers without a file are lines of expiring.py. Not modelled: that the background thread
    runs only after it was started (its program may as well be last to have a turn), and several instances of the singleton (C68). *)
From Verif Require Import Prelude MetrThr_Model.
Set Implicit Arguments.

(** the monitor of the registry (29), the monitor of a dictionary (91, 165) *)
Inductive lock : Type := Registry | Dictionary (d : nat).
Definition lock_eqb (x y : lock) : bool :=
  match x, y with Registry, Registry => true | Dictionary d, Dictionary e => Nat.eqb d e | _, _ => false end.

(** what is shared: entries (30), which dictionaries nobody refers to any more, the monitors that are held, started (31), how often the
    thread was launched, and the dictionaries that were cleaned up, in order *)
Record registry : Type := { entries : list nat; gone : list nat; locks : list lock; started : bool; launched : nat; swept : list nat }.
Definition no_dictionaries : registry := {| entries := []; gone := []; locks := []; started := false; launched := 0; swept := [] |}.
Definition set_locks (s : registry) l : registry := {| entries := entries s; gone := gone s; locks := l; started := started s; launched := launched s; swept := swept s |}.
Definition set_entries (s : registry) l : registry := {| entries := l; gone := gone s; locks := locks s; started := started s; launched := launched s; swept := swept s |}.
Definition has (s : registry) (x : lock) : bool := memb lock_eqb x (locks s).
Definition free (s : registry) (x : lock) : registry := set_locks s (remove_first lock_eqb x (locks s)).

(** what a program does with dictionaries: make an empty one; d[k] = v, del d[k] or any other method that takes the monitor once; len(d), iter(d) or cleanup(); a with block on the monitor
    of d, as the documentation asks for around loops (70-72, 146-147); forget the last reference *)
Inductive act : Type := Make (d : nat) | Use (d : nat) | Len (d : nat) | With (d : nat) (body : list act) | Drop (d : nat).
Inductive call : Type := User (a : act) | Background (rounds : nat).   (* Background: so many rounds of run() *)

Inductive instr : Type := Take (x : lock) | Free (x : lock) | Append (d : nat) | Check | Launch | Clean (d : nat) | Forget (d : nat).
Fixpoint code_of (a : act) : list instr :=
  match a with
  | Make d => [Take Registry; Append d; Check; Launch; Free Registry]                     (* 33-38, 55-58, 98, 173 *)
  | Use d => [Take (Dictionary d); Free (Dictionary d)]                                   (* 108, 121, 209, 223 *)
  | Len d => [Take (Dictionary d); Clean d; Free (Dictionary d)]                          (* 85-87, 100-101, 131-136, 158-160, 199-207 *)
  | With d body => Take (Dictionary d) :: flat_map code_of body ++ [Free (Dictionary d)]  (* concurrent/monitor.py:36-42 *)
  | Drop d => [Forget d]
  end.
Inductive code : Type :=
| Run (l : list instr)
| Sleep (n : nat)                                              (* 43, [n] rounds are left after this one *)
| Entry (n i : nat) (new : list nat)                           (* 48-49 *)
| Enter (n i : nat) (new : list nat) (d : nat)                 (* 51, waits for the monitor of d *)
| Tidy (n i : nat) (new : list nat) (d : nat).                 (* 51, cleans *)
Definition first (c : call) : code := match c with User a => Run (code_of a) | Background 0 => Run [] | Background (S n) => Sleep n end.
Section Exec.
  Variable breaks : nat -> bool.
  (** the monitors of the with statements that the thread is inside of, when it has still to do [l], innermost first *)
  Fixpoint inside (l : list instr) : list lock :=
    match l with
    | [] => []
    | Take x :: r => remove_first lock_eqb x (inside r)
    | Free x :: r => x :: inside r
    | _ :: r => inside r
    end.
  (** an exception passes: they are let go (monitor.py:40-42) *)
  Definition unwind (s : registry) (l : list instr) : registry := fold_left free (inside l) s.
  Definition clean (s : registry) (d : nat) : registry :=
    {| entries := entries s; gone := gone s; locks := locks s; started := started s; launched := launched s; swept := swept s ++ [d] |}.
  Definition instr_exec (i : instr) (r : list instr) (s : registry) : registry * next code unit :=
    match i with
    | Take x => if has s x then (s, Next (Run (i :: r))) else (set_locks s (x :: locks s), Next (Run r))
    | Free x => (free s x, Next (Run r))
    | Append d => (set_entries s (entries s ++ [d]), Next (Run r))                                                (* 57 *)
    | Check => (s, Next (Run (if started s then tl r else r)))                                                    (* 34-35 *)
    | Launch => ({| entries := entries s; gone := gone s; locks := locks s; started := true; launched := S (launched s); swept := swept s |}, Next (Run r))   (* 37-38 *)
    | Clean d => if breaks d then (unwind s r, Raised KeyError) else (clean s d, Next (Run r))                    (* 134-136, 206-207 *)
    | Forget d => ({| entries := entries s; gone := d :: gone s; locks := locks s; started := started s; launched := launched s; swept := swept s |}, Next (Run r))
    end.
  Definition exec (a : code) (s : registry) : registry * next code unit :=
    match a with
    | Run [] => (s, Returned tt)
    | Run (i :: r) => instr_exec i r s
    | Sleep n => if has s Registry then (s, Next (Sleep n)) else (set_locks s (Registry :: locks s), Next (Entry n 0 []))   (* 45-47 *)
    | Entry n i new =>
      match nth_error (entries s) i with
      | Some d => (s, Next (if memb Nat.eqb d (gone s) then Entry n (S i) new else Enter n i new d))              (* 48-50 *)
      | None =>                                                                                                   (* 53 *)
        (free (set_entries s new) Registry, match n with 0 => Returned tt | S n' => Next (Sleep n') end)
      end
    | Enter n i new d => if has s (Dictionary d) then (s, Next (Enter n i new d)) else (set_locks s (Dictionary d :: locks s), Next (Tidy n i new d))
    | Tidy n i new d =>                                                                                           (* 51-52 *)
      if breaks d then (free (free s (Dictionary d)) Registry, Raised KeyError)
      else (free (clean s d) (Dictionary d), Next (Entry n (S i) (new ++ [d])))
    end.
  Definition reg_start (programs : nat -> list call) : config registry call code unit := start code unit no_dictionaries programs.
  Definition reg_run : config registry call code unit -> list nat -> config registry call code unit := run first exec.
End Exec.
