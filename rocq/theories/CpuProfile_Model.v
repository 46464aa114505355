(** Model of satella/instrumentation/cpu_time/collector.py: the profile of the CPU, the usage of the process and the occupancy factor.
    Seconds of CPU time and clocks are whole numbers (of any unit), quotients are fractions. *)
From Coq Require Import QArith.
From Verif Require Import Prelude PySeq_Model.
Set Implicit Arguments.
Local Open Scope nat_scope.

(** * percentiles *)
Section Percentiles.
  Variables (P V : Type).
  Variable peqb : P -> P -> bool.
  Variable pct : list Z -> P -> V.        (* satella.coding.transforms.percentile *)
  Variable zero : V.

  Record profile : Type := MkProfile { p_requested : list P; p_values : list V; p_regenerated : bool; p_data : list Z }.
  (** collector.py:42-47, without a sample yet *)
  Definition profile_new (requested : list P) : profile := MkProfile requested [] false [].
  (** request_percentile (collector.py:85-88) *)
  Definition request (s : profile) (p : P) : profile :=
    if memb peqb p (p_requested s) then s else MkProfile (p_requested s ++ [p]) (p_values s) false (p_data s).
  (** percentile (collector.py:90-96) *)
  Definition ask (s : profile) (p : P) : res V :=
    match p_data s with
    | [] => Ok zero
    | _ :: _ =>
        match find_index (fun q => peqb q p) (p_requested s) with
        | Some i => if p_regenerated s then match nth_error (p_values s) i with Some v => Ok v | None => Err IndexError end else Ok (pct (p_data s) p)
        | None => Ok (pct (p_data s) p)
        end
    end.
  (** _recalculate (collector.py:101-114), after the samples were taken *)
  Definition recalculate (s : profile) (samples : list Z) : profile :=
    let data := py_sorted Z.ltb samples in MkProfile (p_requested s) (map (pct data) (p_requested s)) true data.

  Inductive pop : Type := PRequest (p : P) | PAsk (p : P) | PRecalculate (samples : list Z).
  Definition pstep (s : profile) (o : pop) : profile * option (res V) :=
    match o with
    | PRequest p => (request s p, None)
    | PAsk p => (s, Some (ask s p))
    | PRecalculate l => (recalculate s l, None)
    end.
  Fixpoint prun (s : profile) (ops : list pop) : list (option (res V)) :=
    match ops with [] => [] | o :: t => let '(s', a) := pstep s o in a :: prun s' t end.

  (** The thread that recalculates, cut into steps: percentiles are computed one by one for as long as there are ones in the list, then three
      attributes are set. Requests and questions come between any two steps. *)
  Inductive builder : Type := Idle | Computing (data : list Z) (done : list V) | SettingFlag (data : list Z) | SettingData (data : list Z).
  Inductive pevent : Type := Begin (samples : list Z) | Go | Call (o : pop).
  Definition bstep (s : profile) (b : builder) : profile * builder :=
    match b with
    | Idle => (s, Idle)
    | Computing d l =>                                                                    (* collector.py:110-112 *)
        match nth_error (p_requested s) (length l) with
        | Some p => (s, Computing d (l ++ [pct d p]))
        | None => (MkProfile (p_requested s) l (p_regenerated s) (p_data s), SettingFlag d)
        end
    | SettingFlag d => (MkProfile (p_requested s) (p_values s) true (p_data s), SettingData d)     (* collector.py:113 *)
    | SettingData d => (MkProfile (p_requested s) (p_values s) (p_regenerated s) d, Idle)          (* collector.py:114 *)
    end.
  Fixpoint pexec (s : profile) (b : builder) (l : list pevent) : list (option (res V)) :=
    match l with
    | [] => []
    | Begin samples :: t => pexec s (match b with Idle => Computing (py_sorted Z.ltb samples) [] | _ => b end) t
    | Go :: t => let '(s', b') := bstep s b in pexec s' b' t
    | Call (PRecalculate _) :: t => pexec s b t          (* by the thread only *)
    | Call o :: t => let '(s', a) := pstep s o in a :: pexec s' b t
    end.
End Percentiles.
Arguments PRecalculate {P} samples.

(** * the usage of the process *)
Definition save := (Z * list Z)%type.      (* the time, the fields of cpu_times() *)
(** the while of save_load (collector.py:60-62); [newest] is the time of the last one *)
Fixpoint evict (window newest : Z) (l : list save) : list save :=
  match l with
  | e :: t => if ((3 <? length l)%nat && (fst e <? newest - window)%Z)%bool then evict window newest t else l
  | [] => []
  end.
(** save_load (collector.py:59-64) *)
Definition save_load (window : Z) (l : list save) (e : save) : list save := evict window (fst (last l (0%Z, []))) l ++ [e].
(** get_own_cpu_usage (collector.py:66-83): the answer and what is left *)
Definition own_usage (l : list save) : option (list Q) * list save :=
  match rev l with
  | (tc, c) :: (tp, p) :: older =>
      if (tc - tp =? 0)%Z then (None, rev ((tc, c) :: older))
      else (Some (map (fun f => inject_Z (snd f - fst f) / inject_Z (tc - tp))%Q (combine p c)), l)
  | _ => (None, l)
  end.
Inductive uop : Type := Save (e : save) | Get.
Fixpoint urun (window : Z) (l : list save) (ops : list uop) : list save * list (option (option (list Q))) :=
  match ops with
  | [] => (l, [])
  | Save e :: t => let '(l', a) := urun window (save_load window l e) t in (l', None :: a)
  | Get :: t => let '(r, l1) := own_usage l in let '(l', a) := urun window l1 t in (l', Some r :: a)
  end.

(** * the occupancy factor *)
(** cpu_times(): the fields there are on a platform *)
Inductive field : Type := User | Nice | System | Irq | Softirq | Steal | Guest | GuestNice | Interrupt | Dpc.
Definition times := field -> option Z.
(** a sum of attributes; None for AttributeError *)
Definition attributes (c : times) (l : list field) : option Z :=
  fold_left (fun acc f => match acc, c f with Some a, Some v => Some (a + v)%Z | _, _ => None end) l (Some 0%Z).
(** collector.py:193-205 *)
Definition used (c : times) : option Z :=
  match attributes c [User; Nice; System; Irq; Softirq; Steal; Guest; GuestNice] with
  | Some u => Some u
  | None => match attributes c [User; Nice; System; Irq; Softirq] with
            | Some u => Some u
            | None => match attributes c [User; Nice; System] with
                      | Some u => Some u
                      | None => attributes c [User; System; Interrupt; Dpc]
                      end
            end
  end.
(** _calculate_occupancy_factor (collector.py:206-219) for a time used and a clock; the globals are the time used before and when that was *)
Definition occupancy (cpus : Z) (prev : option (Z * Z)) (u t : Z) : option Q * option (Z * Z) :=
  match prev with
  | None => (None, Some (u, t))
  | Some (pu, pt) => if (t - pt =? 0)%Z then (None, prev) else (Some ((inject_Z (u - pu) / inject_Z cpus) / inject_Z (t - pt))%Q, Some (u, t))
  end.
Fixpoint occupancies (cpus : Z) (prev : option (Z * Z)) (l : list (Z * Z)) : list (option Q) :=
  match l with
  | [] => []
  | (u, t) :: rest => let '(a, prev') := occupancy cpus prev u t in a :: occupancies cpus prev' rest
  end.
