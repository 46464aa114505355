(** Model of MemoryPressureManager (satella/instrumentation/memory/memthread.py) and its conditions (conditions.py).

    One reading of the memory serves a whole check (the code asks psutil again for every condition). Percentages are exact rationals, not
    floats. Callbacks are numbers, given out in the order of registration; they may raise, but do not register, cancel or advance
    themselves. The throttle of register_on_remaining_in_severity is CallNoOftenThan (C30) and counts as the callback here. *)
From Coq Require Import QArith.
From Verif Require Import Prelude.
Set Implicit Arguments.
Local Open Scope nat_scope.

(** conditions.py:19-137; the callable of a CustomCondition is a number *)
Inductive condition : Type :=
| ZerothSeverity | CustomCondition (f : nat)
| GlobalAbsoluteValue (v : Z) | GlobalRelativeValue (v : Z) | LocalAbsoluteValue (v : Z) | LocalRelativeValue (v : Z)
| AnyOf (l : list condition) | AllOf (l : list condition) | NotOf (c : condition).
(** psutil.virtual_memory().available and .total, Process.memory_info().rss, maximum_available, what the custom callables return *)
Record memory : Type := mk_memory { available : Z; total : Z; rss : Z; maximum : option Z; custom : nat -> res bool }.

Definition Qlt_bool (a b : Q) : bool := negb (Qle_bool b a).
Definition divide (a b : Z) : res Q := if (b =? 0)%Z then Err ZeroDivision else Ok (inject_Z a / inject_Z b)%Q.

(** conditions.py:50-53: functools.reduce over all the conditions: none is skipped *)
Definition reduce (op : bool -> bool -> bool) (A : Type) (f : A -> res bool) : bool -> list A -> res bool :=
  fix go acc l := match l with [] => Ok acc | c :: t => match f c with Err e => Err e | Ok b => go (op acc b) t end end.
Fixpoint can_fire (m : memory) (c : condition) : res bool :=
  match c with
  | ZerothSeverity => Ok true                                            (* conditions.py:37-38 *)
  | CustomCondition f => custom m f                                      (* conditions.py:136-137 *)
  | GlobalAbsoluteValue v => Ok (available m <? v)%Z                     (* conditions.py:87-88 *)
  | GlobalRelativeValue v =>                                             (* conditions.py:97-99 *)
    match divide (available m) (total m) with Err e => Err e | Ok q => Ok (Qlt_bool q (inject_Z v / 100)%Q) end
  | LocalAbsoluteValue v =>                                              (* conditions.py:109-110 *)
    match maximum m with None => Err TypeError | Some x => Ok (x - rss m <? v)%Z end
  | LocalRelativeValue v =>                                              (* conditions.py:120-121 *)
    match maximum m with
    | None => Err TypeError
    | Some x => match divide (rss m) x with Err e => Err e | Ok q => Ok (Qlt_bool q (1 - inject_Z v / 100)%Q) end
    end
  | AnyOf l => reduce orb (can_fire m) false l                           (* conditions.py:56-61 *)
  | AllOf l => reduce andb (can_fire m) true l                           (* conditions.py:64-69 *)
  | NotOf c => match can_fire m c with Err e => Err e | Ok b => Ok (negb b) end   (* conditions.py:79-80 *)
  end.

Definition fset {A : Type} (f : nat -> A) (k : nat) (v : A) : nat -> A := fun j => if j =? k then v else f j.

(** memthread.py:58-77: the callbacks of each severity level; [running]: the thread has not died *)
Record manager : Type := mk_manager {
  level : nat; entered : nat -> list nat; left_ : nat -> list nat; remains : nat -> list nat; normal : list nat;
  objects : nat -> list nat; cancelled : list nat; stopped : bool; running : bool; fresh : nat }.
Definition new_manager : manager := mk_manager 0 (fun _ => []) (fun _ => []) (fun _ => []) [] (fun _ => []) [] false true 0.
Definition set_level m x := mk_manager x (entered m) (left_ m) (remains m) (normal m) (objects m) (cancelled m) (stopped m) (running m) (fresh m).
Definition set_entered m x := mk_manager (level m) x (left_ m) (remains m) (normal m) (objects m) (cancelled m) (stopped m) (running m) (fresh m).
Definition set_left m x := mk_manager (level m) (entered m) x (remains m) (normal m) (objects m) (cancelled m) (stopped m) (running m) (fresh m).
Definition set_remains m x := mk_manager (level m) (entered m) (left_ m) x (normal m) (objects m) (cancelled m) (stopped m) (running m) (fresh m).
Definition set_normal m x := mk_manager (level m) (entered m) (left_ m) (remains m) x (objects m) (cancelled m) (stopped m) (running m) (fresh m).
Definition set_objects m x := mk_manager (level m) (entered m) (left_ m) (remains m) (normal m) x (cancelled m) (stopped m) (running m) (fresh m).
Definition set_cancelled m x := mk_manager (level m) (entered m) (left_ m) (remains m) (normal m) (objects m) x (stopped m) (running m) (fresh m).
Definition set_stopped m x := mk_manager (level m) (entered m) (left_ m) (remains m) (normal m) (objects m) (cancelled m) x (running m) (fresh m).
Definition set_running m x := mk_manager (level m) (entered m) (left_ m) (remains m) (normal m) (objects m) (cancelled m) (stopped m) x (fresh m).
Definition set_fresh m x := mk_manager (level m) (entered m) (left_ m) (remains m) (normal m) (objects m) (cancelled m) (stopped m) (running m) x.

(** what a check finds: the memory, which callbacks and collectors raise, which objects to clean up have been garbage collected *)
Record world : Type := mk_world { mem : memory; raises : nat -> bool; collector_raises : nat -> bool; gone : nat -> bool }.
(** what is called, in order *)
Inductive notice : Type :=
| Entered (k c : nat) | Left (k c : nat) | Remaining (k c : nat) | Normal (c : nat) | Cleaned (k o : nat).

(** CallableGroup.__call__ with gather and swallow_exceptions false (callablegroup.py:156-191): what stays registered, what was called *)
Fixpoint call_loop (dead raise : nat -> bool) (todo kept called : list nat) : list nat * list nat * option exn :=
  match todo with
  | [] => (kept, called, None)
  | c :: t => if dead c then call_loop dead raise t (kept ++ [c]) called
              else if raise c then (kept, called ++ [c], Some (UserExn c))
              else call_loop dead raise t (kept ++ [c]) (called ++ [c])
  end.
Definition without (dead : nat -> bool) (g : list nat) : list nat := filter (fun c => negb (dead c)) g.
Definition call_group (dead raise : nat -> bool) (g : list nat) : list nat * list nat * option exn :=
  call_loop dead raise (if existsb (fun c => negb (dead c)) g then without dead g else g) [] [].
(** memthread.py:102-108 *)
Fixpoint clean_loop (w : world) (todo kept cleaned : list nat) : list nat * list nat * option exn :=
  match todo with
  | [] => (kept, cleaned, None)
  | o :: t => if gone w o then clean_loop w t kept cleaned
              else if collector_raises w o then (kept, cleaned ++ [o], Some (UserExn o))
              else clean_loop w t (kept ++ [o]) (cleaned ++ [o])
  end.
Definition is_cancelled (m : manager) (c : nat) : bool := memb Nat.eqb c (cancelled m).

(** memthread.py:98-110; [n]: the highest level *)
Definition enter (n : nat) (w : world) (m : manager) : manager * list notice * option exn :=
  let k := S (level m) in
  let m1 := set_level m k in
  if n <? k then (m1, [], Some IndexError)
  else match call_group (is_cancelled m1) (raises w) (entered m1 k) with
       | (kept, called, Some e) => (set_entered m1 (fset (entered m1) k kept), map (Entered k) called, Some e)
       | (kept, called, None) =>
         let m2 := set_entered m1 (fset (entered m1) k kept) in
         match clean_loop w (objects m2 k) [] [] with
         | (_, cleaned, Some e) => (m2, map (Entered k) called ++ map (Cleaned k) cleaned, Some e)
         | (stay, cleaned, None) =>
           (set_objects m2 (fset (objects m2) k stay), map (Entered k) called ++ map (Cleaned k) cleaned, None)
         end
       end.
(** memthread.py:111-118 *)
Definition leave (n : nat) (w : world) (m : manager) : manager * list notice * option exn :=
  let k := level m in
  if n <? k then (m, [], Some IndexError)
  else match call_group (is_cancelled m) (raises w) (left_ m k) with
       | (kept, called, Some e) => (set_left m (fset (left_ m) k kept), map (Left k) called, Some e)
       | (kept, called, None) =>
         let m2 := set_level (set_left m (fset (left_ m) k kept)) (k - 1) in
         if k - 1 =? 0
         then match call_group (is_cancelled m2) (raises w) (normal m2) with
              | (kept', called', e) => (set_normal m2 kept', map (Left k) called ++ map Normal called', e)
              end
         else (m2, map (Left k) called, None)
       end.
(** memthread.py:93-118; Diverges: not enough fuel *)
Fixpoint advance (fuel n : nat) (w : world) (target : nat) (m : manager) : manager * list notice * option exn :=
  if level m =? target then (m, [], None)
  else match fuel with
       | 0 => (m, [], Some Diverges)
       | S f => match (if level m <? target then enter n w m else leave n w m) with
                | (m', l, Some e) => (m', l, Some e)
                | (m', l, None) => match advance f n w target m' with (m'', l', e) => (m'', l ++ l', e) end
                end
       end.
Definition advance_to (n : nat) (w : world) (target : nat) (m : manager) : manager * list notice * option exn :=
  advance ((target - level m) + (level m - target)) n w target m.

(** memthread.py:149-156: [conds] are the conditions of levels 1, 2, ... *)
Fixpoint highest (m : memory) (l : list (nat * condition)) : res nat :=
  match l with
  | [] => Err ImpossibleExn
  | (k, c) :: t => match can_fire m c with Err e => Err e | Ok true => Ok k | Ok false => highest m t end
  end.
Definition calculate (conds : list condition) (m : memory) : res nat :=
  let levels := ZerothSeverity :: conds in highest m (rev (combine (seq 0 (length levels)) levels)).

(** memthread.py:132-141 *)
Definition sweep (m : manager) : manager :=
  let w := without (is_cancelled m) in
  set_remains (set_left (set_entered (set_normal m (w (normal m))) (fun k => w (entered m k))) (fun k => w (left_ m k))) (fun k => w (remains m k)).
(** memthread.py:128-147 *)
Definition loop (conds : list condition) (w : world) (m : manager) : manager * list notice * option exn :=
  if stopped m then (m, [], None)
  else let m1 := sweep m in
       match calculate conds (mem w) with
       | Err e => (m1, [], Some e)
       | Ok target =>
         if level m1 =? target
         then match call_group (is_cancelled m1) (raises w) (remains m1 target) with
              | (kept, called, e) => (set_remains m1 (fset (remains m1) target kept), map (Remaining target) called, e)
              end
         else advance_to (length conds) w target m1
       end.

Inductive kind : Type := OnEntered | OnLeft | OnRemaining.
Inductive op : Type :=
| Check (w : world)                       (* one round of the thread; nothing if it is dead *)
| Advance (target : nat) (w : world)      (* advance_to_severity_level called by the user *)
| Register (d : kind) (k : nat) | RegisterNormal | CleanupOnEntered (k o : nat) | Cancel (c : nat) | Stop | Resume.
Inductive out : Type := Did (l : list notice) (e : option exn) | Registered (c : nat) | Refused (e : exn) | Fine.

Definition step (conds : list condition) (m : manager) (o : op) : manager * out :=
  match o with
  | Check w =>
    if running m
    then match loop conds w m with
         | (m', l, Some e) => (set_running m' false, Did l (Some e))     (* thread.py:491-513: the exception ends the thread *)
         | (m', l, None) => (m', Did l None)
         end
    else (m, Did [] None)
  | Advance target w => match advance_to (length conds) w target m with (m', l, e) => (m', Did l e) end
  | Register d k =>                                                      (* memthread.py:172-235 *)
    let c := fresh m in
    let m1 := set_fresh m (S c) in
    if length conds <? k then (m1, Refused IndexError)
    else (match d with
          | OnEntered => set_entered m1 (fset (entered m1) k (entered m1 k ++ [c]))
          | OnLeft => set_left m1 (fset (left_ m1) k (left_ m1 k ++ [c]))
          | OnRemaining => set_remains m1 (fset (remains m1) k (remains m1 k ++ [c]))
          end, Registered c)
  | RegisterNormal => let c := fresh m in (set_normal (set_fresh m (S c)) (normal m ++ [c]), Registered c)   (* memthread.py:158-170 *)
  | CleanupOnEntered k o =>                                              (* memthread.py:79-91 *)
    if length conds <? k then (m, Refused IndexError) else (set_objects m (fset (objects m) k (objects m k ++ [o])), Fine)
  | Cancel c => (set_cancelled m (c :: cancelled m), Fine)               (* callablegroup.py:48-52 *)
  | Stop => (set_stopped m true, Fine)                                   (* memthread.py:120-122 *)
  | Resume => (set_stopped m false, Fine)                                (* memthread.py:124-126 *)
  end.
Fixpoint run (conds : list condition) (m : manager) (ops : list op) : manager * list out :=
  match ops with
  | [] => (m, [])
  | o :: t => let (m', x) := step conds m o in let (m'', l) := run conds m' t in (m'', x :: l)
  end.
