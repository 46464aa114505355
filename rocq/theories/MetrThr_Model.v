(** Metrics fed by several threads: CounterMetric, SummaryMetric, ClicksPerTimeUnitMetric and the children that labels make
    (satella/instrumentation/metrics/metric_types/counter.py, summary.py, cps.py, base.py). None of them takes a lock.

    A call consists of steps. Nothing interrupts a step; between two of them any other thread may run. What Python calls
    [self.value += delta] is a step that reads the attribute and a step that writes it. Methods of deque, list and dict are one step.
    The level check of handle() (base.py:137-142) and timestamps are left out: they change nothing that other threads see. Numbers are
    integers. *)
From Verif Require Import Prelude.
Local Open Scope Z_scope.
Set Implicit Arguments.

Inductive next (Code R : Type) : Type := Next (c : Code) | Returned (r : R) | Raised (e : exn).
Arguments Next {Code R} _.
Arguments Returned {Code R} _.
Arguments Raised {Code R} _.

Definition put {A : Type} (f : nat -> A) (t : nat) (x : A) : nat -> A := fun u => if Nat.eqb u t then x else f u.

(** ** threads *)
Section Machine.
  Variables S Call Code R : Type.
  Variable first : Call -> Code.                               (* where the call begins *)
  Variable exec : Code -> S -> S * next Code R.                (* one step *)
  (** what the threads share, what each is still to call, the call each is inside of, and how the calls ended, in order *)
  Record config : Type := { shared : S; todo : nat -> list Call; current : nat -> option (Call * Code); log : list (Call * res R) }.
  Definition start (s : S) (programs : nat -> list Call) : config := {| shared := s; todo := programs; current := fun _ => None; log := [] |}.
  (** thread [t] has its turn *)
  Definition turn (c : config) (t : nat) : config :=
    match current c t with
    | None =>
      match todo c t with
      | [] => c
      | k :: r => {| shared := shared c; todo := put (todo c) t r; current := put (current c) t (Some (k, first k)); log := log c |}
      end
    | Some (k, a) =>
      match exec a (shared c) with
      | (s, Next a') => {| shared := s; todo := todo c; current := put (current c) t (Some (k, a')); log := log c |}
      | (s, Returned r) => {| shared := s; todo := todo c; current := put (current c) t None; log := log c ++ [(k, Ok r)] |}
      | (s, Raised e) => {| shared := s; todo := todo c; current := put (current c) t None; log := log c ++ [(k, Err e)] |}
      end
    end.
  Definition run (c : config) (schedule : list nat) : config := fold_left turn schedule c.
End Machine.

(** ** CounterMetric without labels (counter.py:52-60; of these 59-60 are reached) *)
Record counter : Type := { value : Z; calls : Z }.
Definition new_counter : counter := {| value := 0; calls := 0 |}.          (* counter.py:30-31 *)
Inductive ccode : Type := CReadValue (d : Z) | CWriteValue (d v : Z) | CReadCalls | CWriteCalls (n : Z).
Definition cexec (a : ccode) (s : counter) : counter * next ccode unit :=
  match a with
  | CReadValue d => (s, Next (CWriteValue d (value s)))                                             (* 59 *)
  | CWriteValue d v => ({| value := v + d; calls := calls s |}, Next CReadCalls)
  | CReadCalls => (s, Next (CWriteCalls (calls s)))                                                 (* 60 *)
  | CWriteCalls n => ({| value := value s; calls := n + 1 |}, Returned tt)
  end.
(** handle(delta) for each delta *)
Definition count_run : config counter Z ccode unit -> list nat -> config counter Z ccode unit := run CReadValue cexec.

(** ** SummaryMetric without labels, count_calls=True (summary.py:47-58) *)
Record summary : Type := { tot_calls : Z; tot_time : Z; queue : list Z }.    (* the deque, leftmost first *)
Definition new_summary : summary := {| tot_calls := 0; tot_time := 0; queue := [] |}.   (* summary.py:40-45 *)
Inductive scode : Type :=
| SReadCalls (v : Z) | SWriteCalls (v n : Z) | SReadTime (v : Z) | SWriteTime (v n : Z) | SLength (v : Z) | SPop (v : Z) | SAppend (v : Z).
Section Summary.
  Variable last_calls : nat.
  Definition sexec (a : scode) (s : summary) : summary * next scode unit :=
    match a with
    | SReadCalls v => (s, Next (SWriteCalls v (tot_calls s)))                                       (* 49 *)
    | SWriteCalls v n => ({| tot_calls := n + 1; tot_time := tot_time s; queue := queue s |}, Next (SReadTime v))
    | SReadTime v => (s, Next (SWriteTime v (tot_time s)))                                          (* 50 *)
    | SWriteTime v n => ({| tot_calls := tot_calls s; tot_time := n + v; queue := queue s |}, Next (SLength v))
    | SLength v => (s, Next (if Nat.eqb (length (queue s)) last_calls then SPop v else SAppend v))  (* 55 *)
    | SPop v =>                                                                                     (* 56 *)
      match queue s with
      | [] => (s, Raised IndexError)
      | _ => ({| tot_calls := tot_calls s; tot_time := tot_time s; queue := removelast (queue s) |}, Next (SAppend v))
      end
    | SAppend v => ({| tot_calls := tot_calls s; tot_time := tot_time s; queue := v :: queue s |}, Returned tt)   (* 58 *)
    end.
  Definition sum_run : config summary Z scode unit -> list nat -> config summary Z scode unit := run SReadCalls sexec.
End Summary.

(** ** ClicksPerTimeUnitMetric without labels (cps.py:34-44, 61, 63-78). The clock is read twice in a call of handle(). Exporting
    iterates over the deque; an iterator of a deque that was changed raises RuntimeError. *)
Record cps : Type := { clicks : list Z; version : nat }.                     (* oldest first; how often the deque was changed *)
Definition new_cps : cps := {| clicks := []; version := 0 |}.                (* cps.py:29 *)
Inductive pcall : Type :=
| Click (mono again : Z)                  (* handle(): the first and the second reading of the clock *)
| Export (mono : Z).                      (* to_metric_data() *)
Inductive pcode : Type :=
| PAppend (mono again : Z) | PPeek (mono : Z) | PPop (mono : Z)
| PIter (mono : Z) | PNext (cutoffs : list Z) (v i : nat) (counts : list nat).
Section Cps.
  Variables (cutoff_period : Z) (vectors : list Z).            (* cps.py:31-32 *)
  Definition pfirst (k : pcall) : pcode := match k with Click m a => PAppend m a | Export m => PIter m end.
  (** cps.py:69-71 the count of every period the click is in *)
  Fixpoint tally (cutoffs : list Z) (v : Z) (counts : list nat) : list nat :=
    match cutoffs, counts with
    | c :: cs, n :: ns => (if c <=? v then S n else n) :: tally cs v ns
    | _, _ => counts
    end.
  Definition pexec (a : pcode) (s : cps) : cps * next pcode (list nat) :=
    match a with
    | PAppend m a => ({| clicks := clicks s ++ [a]; version := S (version s) |}, Next (PPeek m))    (* 39 *)
    | PPeek m =>                                                                                    (* 41 *)
      match clicks s with
      | [] => (s, Returned [])                                                                      (* 43-44 *)
      | x :: _ => if x <=? m - cutoff_period then (s, Next (PPop m)) else (s, Returned [])
      end
    | PPop m =>                                                                                     (* 42 *)
      match clicks s with
      | [] => (s, Returned [])                                                                      (* 43-44 *)
      | _ :: r => ({| clicks := r; version := S (version s) |}, Next (PPeek m))
      end
    | PIter m => (s, Next (PNext (map (fun v => m - v) vectors) (version s) 0 (map (fun _ => 0%nat) vectors)))   (* 64-66, 68 *)
    | PNext cs v i counts =>                                                                        (* 68-71 *)
      if negb (Nat.eqb (version s) v) then (s, Raised RuntimeError)
      else match nth_error (clicks s) i with
           | None => (s, Returned counts)
           | Some x => (s, Next (PNext cs v (S i) (tally cs x counts)))
           end
    end.
  (** the result of handle() is nothing, [] here; that of to_metric_data() the counts of the periods *)
  Definition cps_run : config cps pcall pcode (list nat) -> list nat -> config cps pcall pcode (list nat) := run pfirst pexec.
End Cps.

(** ** EmbeddedSubmetrics._handle with labels, for a CounterMetric (counter.py:53-57 and base.py:199-217). Label sets are numbered.
    The counters of the children are found by number: [made] holds all of them. The parent's own sum (counter.py:54-56) is left out. *)
Record family : Type := { made : list counter; mapping : dict nat nat; children : list (nat * nat) }.    (* children: labels, number *)
Definition new_family : family := {| made := []; mapping := []; children := [] |}.
Inductive fcode : Type :=
| FFind (k : nat) (d : Z) | FMap (k : nat) (d : Z) (i : nat) | FChild (k : nat) (d : Z) (i : nat) | FGet (k : nat) (d : Z)
| FIn (i : nat) (a : ccode).
Definition fexec (a : fcode) (s : family) : family * next fcode unit :=
  match a with
  | FFind k d =>                                                                                    (* 209, 213; clone: 236-243 *)
    if dmem Nat.eqb (mapping s) k then (s, Next (FGet k d))
    else ({| made := made s ++ [new_counter]; mapping := mapping s; children := children s |}, Next (FMap k d (length (made s))))
  | FMap k d i => ({| made := made s; mapping := dset Nat.eqb (mapping s) k i; children := children s |}, Next (FChild k d i))   (* 214 *)
  | FChild k d i => ({| made := made s; mapping := mapping s; children := children s ++ [(k, i)] |}, Next (FGet k d))            (* 215 *)
  | FGet k d =>                                                                                     (* 211, 217 *)
    match dget Nat.eqb (mapping s) k with
    | Some i => (s, Next (FIn i (CReadValue d)))
    | None => (s, Raised KeyError)
    end
  | FIn i a =>                                                                                      (* counter.py:59-60 of the child *)
    let (c, n) := cexec a (nth i (made s) new_counter) in
    ({| made := upd (made s) i c; mapping := mapping s; children := children s |},
     match n with Next a' => Next (FIn i a') | Returned r => Returned r | Raised e => Raised e end)
  end.
(** handle(delta, labels) for each (labels, delta) *)
Definition ffirst (k : nat * Z) : fcode := FFind (fst k) (snd k).
Definition family_run : config family (nat * Z) fcode unit -> list nat -> config family (nat * Z) fcode unit := run ffirst fexec.
(** to_metric_data (base.py:219-227, data.py:148-155): the data of the children, those of a later child in place of those of an earlier
    one with the same labels *)
Definition exported (s : family) (k : nat) : option Z :=
  fold_left (fun found e => if Nat.eqb (fst e) k then Some (value (nth (snd e) (made s) new_counter)) else found) (children s) None.
