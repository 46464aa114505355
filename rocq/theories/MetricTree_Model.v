(** Model of the tree of metrics: getMetric (satella/instrumentation/metrics/__init__.py) and class Metric
    (satella/instrumentation/metrics/metric_types/base.py): names, levels, handle(), reset(), which leaves an export visits.

    Names are lists of ASCII characters. What a leaf class does with the data it gets is the subject of Metrics_Model: here a
    leaf only remembers them. Timestamps, the internal flag and metrics constructed other than by getMetric are not modelled. *)
From Coq Require Import Ascii String.
From Verif Require Import Prelude Files_Model.
Import ListNotations.
Open Scope list_scope.
Set Implicit Arguments.

Definition name := list ascii.
Definition name_eqb (a b : name) : bool := if list_eq_dec ascii_dec a b then true else false.

(** metric_types/base.py:9-16 MetricLevel *)
Inductive lvl : Type := DISABLED | RUNTIME | DEBUG | INHERIT.
Definition lval (l : lvl) : nat := match l with DISABLED => 1 | RUNTIME => 2 | DEBUG => 3 | INHERIT => 4 end.
Definition is_inherit (l : lvl) : bool := match l with INHERIT => true | _ => false end.

(** METRIC_NAMES_TO_CLASSES (metric_types/registry.py:3-13) after the package is imported. KBase is Metric, KEmpty EmptyMetric
    (metric_types/empty.py:7-22), KLeaf the subclasses of LeafMetric. *)
Inductive kind : Type := KBase | KEmpty | KLeaf.
Definition leaf_classes : list string :=
  ["counter"; "cps"; "int"; "float"; "linkfail"; "callable"; "summary"; "quantile"; "histogram"; "uptime"]%string.
Definition kind_of (c : string) : option kind :=
  if String.eqb c "base" then Some KBase else if String.eqb c "empty" then Some KEmpty
  else if existsb (String.eqb c) leaf_classes then Some KLeaf else None.

(** the attributes of a Metric (metric_types/base.py:66-87); o_data is what a leaf's _handle got *)
Record obj : Type := { o_name : name; o_parent : option nat; o_level : lvl; o_class : string; o_children : list nat; o_data : list Z }.
(** the objects ever made, and the module's dictionary metrics *)
Record st : Type := { heap : nat -> obj; size : nat; reg : name -> option nat }.
Definition no_obj : obj := {| o_name := []; o_parent := None; o_level := RUNTIME; o_class := ""%string; o_children := []; o_data := [] |}.
Definition start : st := {| heap := fun _ => no_obj; size := 0; reg := fun _ => None |}.
Definition put (s : st) (i : nat) (o : obj) : st :=
  {| heap := fun j => if Nat.eqb j i then o else heap s j; size := size s; reg := reg s |}.
Definition set_reg (s : st) (r : name -> option nat) : st := {| heap := heap s; size := size s; reg := r |}.

(** metric_types/base.py:96-101 level; a parent is always an older object, so the fuel suffices *)
Fixpoint climb (fuel : nat) (s : st) (i : nat) : res lvl :=
  match fuel with
  | O => Err Diverges
  | S n => if is_inherit (o_level (heap s i)) then match o_parent (heap s i) with None => Err AttributeError | Some p => climb n s p end
           else Ok (o_level (heap s i))
  end.
Definition level (s : st) (i : nat) : res lvl := climb (S i) s i.

(** metric_types/base.py:103-109 the setter *)
Definition set_level (s : st) (i : nat) (l : lvl) : st * res unit :=
  let o := heap s i in
  if is_inherit l && name_eqb (o_name o) [] then (s, Err AssertionError)
  else (put s i {| o_name := o_name o; o_parent := o_parent o; o_level := l; o_class := o_class o; o_children := o_children o; o_data := o_data o |}, Ok tt).

(** a new object, and metrics[key] = it (metrics/__init__.py:52) *)
Definition make (s : st) (key : name) (o : obj) : st :=
  {| heap := fun j => if Nat.eqb j (size s) then o else heap s j; size := S (size s);
     reg := fun k => if name_eqb k key then Some (size s) else reg s k |}.
(** metric_types/base.py:111-112, and 169-170 of LeafMetric *)
Definition append_child (s : st) (i c : nat) : st * res unit :=
  let o := heap s i in
  match kind_of (o_class o) with
  | Some KLeaf => (s, Err TypeError)
  | _ => (put s i {| o_name := o_name o; o_parent := o_parent o; o_level := o_level o; o_class := o_class o; o_children := o_children o ++ [c]; o_data := o_data o |}, Ok tt)
  end.

(** metric_types/base.py:66-87 Metric.__init__: the level of a new metric. The assertion there cannot fail: self.level is never
    INHERIT. *)
Definition new_obj (nm : name) (parent : option nat) (l : option lvl) (c : string) : obj :=
  {| o_name := nm; o_parent := parent;
     o_level := match l with Some l => l | None => if name_eqb nm [] then RUNTIME else INHERIT end;
     o_class := c; o_children := []; o_data := [] |}.
(** metrics/__init__.py:34-58 _process_metric. [tent] is '.'.join(name[:name_index]), [part] is name_part, [root] is root_metric.
    [bad] is the exception the constructor of the leaf class raises for the keyword arguments, if it does (ancestors get the
    same keyword arguments and ignore them). *)
Definition process (s : st) (full tent part : name) (root : option nat) (t : string) (l : option lvl) (bad : option exn) : st * res nat :=
  match reg s tent with
  | Some m => (s, Ok m)
  | None =>
      if name_eqb tent [] then (make s [] (new_obj [] None (Some RUNTIME) "base"%string), Ok (size s))
      else
        let built := if name_eqb full tent
                     then match kind_of t with
                          | None => Err KeyError
                          | Some _ => match bad with Some e => Err e | None => Ok (new_obj part root l t) end
                          end
                     else Ok (new_obj part root (Some (match l with None => INHERIT | Some l => l end)) "base"%string) in
        match built with
        | Err e => (s, Err e)
        | Ok o => let m := size s in
                  let s := make s tent o in
                  match root with
                  | None => (s, Err AttributeError)
                  | Some r => match append_child s r m with (s, Ok _) => (s, Ok m) | (s, Err e) => (s, Err e) end
                  end
        end
  end.
(** metrics/__init__.py:94-96 the loop; [done] are the parts already processed *)
Fixpoint process_all (s : st) (full : name) (done rest : list name) (root : nat) (t : string) (l : option lvl) (bad : option exn) : st * res nat :=
  match rest with
  | [] => (s, Ok root)
  | part :: rest =>
      match process s full (join_on dot (done ++ [part])) part (Some root) t l bad with
      | (s, Ok m) => process_all s full (done ++ [part]) rest m t l bad
      | (s, Err e) => (s, Err e)
      end
  end.
(** metrics/__init__.py:31: letters (the name is upper-cased first), digits, ':', '_' and '.' *)
Definition allowed (c : ascii) : bool :=
  let n := nat_of_ascii c in
  ((65 <=? n) && (n <=? 90) || (97 <=? n) && (n <=? 122) || (48 <=? n) && (n <=? 57) || (n =? 58) || (n =? 95) || (n =? 46))%nat.
(** metrics/__init__.py:62-101 getMetric *)
Definition get_metric (s : st) (full : name) (t : string) (l : option lvl) (bad : option exn) : st * res nat :=
  if negb (forallb allowed full) then (s, Err ValueError)
  else
    match (match reg s full with Some m => negb (String.eqb (o_class (heap s m)) t) | None => false end) with
    | true => (s, Err AlreadyExists)
    | false =>
        match process s full [] [] None t l bad with
        | (s, Err e) => (s, Err e)
        | (s, Ok r) =>
            match process_all s full [] (split_on dot full) r t l bad with
            | (s, Err e) => (s, Err e)
            | (s, Ok m) => match l with
                           | None => (s, Ok m)
                           | Some l => match set_level s m l with (s, Ok _) => (s, Ok m) | (s, Err e) => (s, Err e) end
                           end
            end
        end
    end.

(** metric_types/base.py:40-46 get_fully_qualified_name *)
Fixpoint climb_names (fuel : nat) (s : st) (i : nat) : list name :=
  match fuel with
  | O => []
  | S n => match o_parent (heap s i) with None => [] | Some p => climb_names n s p ++ [o_name (heap s i)] end
  end.
Definition full_name (s : st) (i : nat) : name := join_on dot (climb_names (S i) s i).
(** str.startswith *)
Fixpoint starts_with (k p : name) : bool :=
  match p, k with [], _ => true | c :: p, d :: k => is d c && starts_with k p | _ :: _, [] => false end.
Definition no_children (s : st) (i : nat) : st :=
  let o := heap s i in
  put s i {| o_name := o_name o; o_parent := o_parent o; o_level := o_level o; o_class := o_class o; o_children := []; o_data := o_data o |}.
(** metric_types/base.py:48-64 reset. (The assignment to metrics.level makes an attribute nothing reads.) *)
Definition reset (s : st) (i : nat) : st * res unit :=
  if name_eqb (o_name (heap s i)) [] then (no_children (set_reg s (fun _ => None)) i, Ok tt)
  else
    let f := full_name s i in
    let s := set_reg s (fun k => if starts_with k (f ++ [dot]) then None else reg s k) in
    match reg s f with
    | None => (s, Err KeyError)
    | Some _ => (no_children (set_reg s (fun k => if name_eqb k f then None else reg s k)) i, Ok tt)
    end.

(** metric_types/base.py:137-142 handle, 114-115 can_process_this_level, 129-135 _handle of a container, empty.py:18-19.
    Whether _handle was called. *)
Definition handle (s : st) (i : nat) (l : lvl) (v : Z) : st * res bool :=
  match level s i with
  | Err e => (s, Err e)
  | Ok own =>
      if (lval l <=? lval own)%nat
      then let o := heap s i in
           match kind_of (o_class o) with
           | Some KLeaf => (put s i {| o_name := o_name o; o_parent := o_parent o; o_level := o_level o; o_class := o_class o; o_children := o_children o; o_data := o_data o ++ [v] |}, Ok true)
           | Some KEmpty => (s, Ok true)
           | _ => (s, Err TypeError)
           end
      else (s, Ok false)
  end.

(** data.py:7-11 join_metric_data_name *)
Definition prefix_name (p n : name) : name := if name_eqb p [] then n else p ++ dot :: n.
(** child.level <= self.level (the level of a metric is always defined, which C43_level proves) *)
Definition not_above (s : st) (c i : nat) : bool :=
  match level s c, level s i with Ok a, Ok b => (lval a <=? lval b)%nat | _, _ => false end.
(** metric_types/base.py:117-127 to_metric_data of a container, empty.py:21-22 of an EmptyMetric. A leaf contributes its own
    data under its own name: here the name and the object. The collections are united with +=, here as lists: data of the same
    name and labels are not merged. A child is a newer object, so the fuel suffices. *)
Fixpoint collect (fuel : nat) (s : st) (i : nat) : list (name * nat) :=
  match fuel with
  | O => []
  | S n => match kind_of (o_class (heap s i)) with
           | Some KLeaf => [(o_name (heap s i), i)]
           | Some KEmpty => []
           | _ => map (fun e => (prefix_name (o_name (heap s i)) (fst e), snd e))
                    (flat_map (fun c => if not_above s c i then collect n s c else []) (o_children (heap s i)))
           end
  end.
Definition export (s : st) (i : nat) : list (name * nat) := collect (size s - i) s i.

(** calls a user makes. Metrics are referred to by the number of the object. *)
Inductive op : Type :=
| Get (full : name) (t : string) (l : option lvl) (bad : option exn)
| SetLevel (i : nat) (l : lvl)
| Handle (i : nat) (l : lvl) (v : Z)
| Reset (i : nat).
Inductive out : Type := OMetric (i : nat) | ODone | OHandled (b : bool) | ORaised (e : exn) | ONoSuchObject.
Definition out_of {A} (f : A -> out) (r : res A) : out := match r with Ok a => f a | Err e => ORaised e end.
Definition step (s : st) (o : op) : st * out :=
  match o with
  | Get n t l bad => let (s', r) := get_metric s n t l bad in (s', out_of OMetric r)
  | SetLevel i l => if (i <? size s)%nat then let (s', r) := set_level s i l in (s', out_of (fun _ => ODone) r) else (s, ONoSuchObject)
  | Handle i l v => if (i <? size s)%nat then let (s', r) := handle s i l v in (s', out_of OHandled r) else (s, ONoSuchObject)
  | Reset i => if (i <? size s)%nat then let (s', r) := reset s i in (s', out_of (fun _ => ODone) r) else (s, ONoSuchObject)
  end.
Definition run (ops : list op) : st := fold_left (fun s o => fst (step s o)) ops start.
