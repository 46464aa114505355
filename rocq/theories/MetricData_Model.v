(** Model of MetricData and MetricDataCollection (satella/instrumentation/metrics/data.py).

    A collection holds a Python set of MetricData objects. The objects can be changed after they were put in the set
    (prefix_with, postfix_with, add_labels), and they are shared between collections; so objects live in a heap, and a set
    remembers for every element the hash it had when it was added. The hash is an arbitrary function of what __eq__ compares.
    The order of a set is the order of a list: what is stated holds for all lists. *)
From Coq Require Import String.
From Verif Require Import Prelude.
Import ListNotations.
Open Scope list_scope.
Open Scope Z_scope.
Set Implicit Arguments.

(** data.py:27-28: dict(self.labels).update(labels) *)
Definition label_merge {K W : Type} (keqb : K -> K -> bool) (current labels : dict K W) : dict K W :=
  fold_left (fun d kv => dset keqb d (fst kv) (snd kv)) labels current.
(** data.py:7-11 join_metric_data_name *)
Definition join_name (prefix name : string) : string := if String.eqb prefix "" then name else append prefix (append "." name).

Section Data.
Variables (Lab V : Type).
Variable leqb : Lab -> Lab -> bool.
(** dict(a).update(b); label_merge if labels are dictionaries *)
Variable lmerge : Lab -> Lab -> Lab.
Variable veqb : V -> V -> bool.
(** hash(self.labels) ^ hash(self.name), data.py:40-41 *)
Variable hash : string * Lab -> Z.

(** data.py:17-24 MetricData.__init__ *)
Record datum : Type := { d_name : string; d_value : V; d_labels : Lab; d_time : option Z; d_internal : bool }.
(** what __eq__ compares, data.py:31-32 *)
Definition dkey (d : datum) : string * Lab := (d_name d, d_labels d).
Definition dkey_eqb (a b : string * Lab) : bool := leqb (snd a) (snd b) && String.eqb (fst a) (fst b).

Definition heap : Type := nat -> datum.
Definition hset (hp : heap) (i : nat) (d : datum) : heap := fun j => if Nat.eqb j i then d else hp j.
(** a set: the stored hash and the object *)
Definition pset : Type := list (Z * nat).
(** x in s: the stored hash has to be the hash of x, and the objects equal *)
Definition matches (hp : heap) (i : nat) (e : Z * nat) : bool :=
  Z.eqb (fst e) (hash (dkey (hp i))) && dkey_eqb (dkey (hp (snd e))) (dkey (hp i)).
Definition pin (hp : heap) (i : nat) (s : pset) : bool := existsb (matches hp i) s.
(** s.add(x) *)
Definition padd (hp : heap) (s : pset) (i : nat) : pset := if pin hp i s then s else s ++ [(hash (dkey (hp i)), i)].
(** s.remove(x) of a present element *)
Fixpoint premove (hp : heap) (s : pset) (i : nat) : pset :=
  match s with [] => [] | e :: r => if matches hp i e then r else e :: premove hp r i end.
(** set(iterable) *)
Definition pset_of (hp : heap) (l : list nat) : pset := fold_left (padd hp) l [].

(** data.py:141-146 __add_metric_data, data.py:166-170 __iadd_metric_data: the resulting set. The first one then builds a set
    of a set (data.py:94), which copies the stored hashes. *)
Definition add_datum (hp : heap) (s : pset) (i : nat) : pset :=
  padd hp (if pin hp i s then premove hp s i else s) i.
(** data.py:148-155 __add_metric_data_collection, data.py:157-164 __iadd_metric_data_collection: the resulting set *)
Definition add_coll (hp : heap) (a b : pset) : pset := fold_left (fun r c => padd hp r (snd c)) a b.

(** changing every element in turn: data.py:130-133 prefix_with, data.py:135-139 postfix_with, data.py:179-183 set_timestamp,
    data.py:188-192 set_value *)
Definition change_all (f : datum -> datum) (hp : heap) (s : pset) : heap := fold_left (fun hp e => hset hp (snd e) (f (hp (snd e)))) s hp.
(** data.py:34-35 *)
Definition prefixed (p : string) (d : datum) : datum :=
  {| d_name := join_name p (d_name d); d_value := d_value d; d_labels := d_labels d; d_time := d_time d; d_internal := d_internal d |}.
(** data.py:37-38 *)
Definition postfixed (p : string) (d : datum) : datum :=
  {| d_name := join_name (d_name d) p; d_value := d_value d; d_labels := d_labels d; d_time := d_time d; d_internal := d_internal d |}.
(** data.py:67-68 *)
Definition with_time (t : option Z) (d : datum) : datum :=
  {| d_name := d_name d; d_value := d_value d; d_labels := d_labels d; d_time := t; d_internal := d_internal d |}.
(** data.py:190-191 *)
Definition with_value (v : V) (d : datum) : datum :=
  {| d_name := d_name d; d_value := v; d_labels := d_labels d; d_time := d_time d; d_internal := d_internal d |}.
(** data.py:26-29 *)
Definition with_labels (l : Lab) (d : datum) : datum :=
  {| d_name := d_name d; d_value := d_value d; d_labels := lmerge (d_labels d) l; d_time := d_time d; d_internal := d_internal d |}.
(** data.py:77-82 add_labels: the heap and the new set *)
Definition add_labels (l : Lab) (hp : heap) (s : pset) : heap * pset :=
  fold_left (fun st e => let hp' := hset (fst st) (snd e) (with_labels l (fst st (snd e))) in (hp', padd hp' (snd st) (snd e))) s (hp, []).
(** data.py:194-198 remove_internals: a set comprehension *)
Definition remove_internals (hp : heap) (s : pset) : pset := pset_of hp (filter (fun i => negb (d_internal (hp i))) (map snd s)).
(** data.py:103-117 strict_eq *)
Fixpoint find_equal (hp : heap) (i : nat) (s : pset) : option nat :=
  match s with [] => None | e :: r => if dkey_eqb (dkey (hp i)) (dkey (hp (snd e))) then Some (snd e) else find_equal hp i r end.
Fixpoint strict_loop (hp : heap) (a b : pset) (found : nat) : option nat :=
  match a with
  | [] => Some found
  | e :: r => match find_equal hp (snd e) b with
              | None => None
              | Some j => if veqb (d_value (hp (snd e))) (d_value (hp j)) then strict_loop hp r b (S found) else None
              end
  end.
Definition strict_eq (hp : heap) (a b : pset) : bool :=
  match strict_loop hp a b 0 with None => false | Some n => Nat.eqb n (length b) end.
End Data.

(** ** JSON. Here the fields of a datum are JSON values, as from_json accepts whatever it finds. *)
Inductive jval : Type := JNull | JBool (b : bool) | JNum (n : Z) | JStr (s : string).
Definition jdict : Type := dict string jval.
Record jdatum : Type := { j_name : jval; j_value : jval; j_labels : jdict; j_time : jval; j_internal : jval }.
Definition truthy (v : jval) : bool := match v with JNull => false | JBool b => b | JNum n => negb (n =? 0) | JStr s => negb (String.eqb s ""%string) end.
Notation sset := (dset String.eqb).
(** data.py:43-53 to_json with the default prefix '' *)
Definition to_json (d : jdatum) : jdict :=
  let k := fold_left (fun k e => sset k (fst e) (snd e)) (j_labels d) [("_name"%string, j_name d); ("_"%string, j_value d)] in
  let k := match j_time d with JNull => k | t => sset k "_timestamp"%string t end in
  if truthy (j_internal d) then sset k "_internal"%string (JBool true) else k.
(** dict.pop *)
Definition jpop (k : jdict) (name : string) : option jval * jdict := (dget String.eqb k name, ddel String.eqb k name).
Definition or_else (o : option jval) (v : jval) : jval := match o with Some x => x | None => v end.
(** data.py:59-65 from_json *)
Definition from_json (x : jdict) : res jdatum :=
  let (name, x) := jpop x "_name"%string in
  match name with
  | None => Err KeyError
  | Some name =>
    let (value, x) := jpop x "_"%string in
    match value with
    | None => Err KeyError
    | Some value =>
      let (timestamp, x) := jpop x "_timestamp"%string in
      let (internal, x) := jpop x "_internal"%string in
      Ok {| j_name := name; j_value := value; j_labels := x; j_time := or_else timestamp JNull; j_internal := or_else internal (JBool false) |}
    end
  end.
