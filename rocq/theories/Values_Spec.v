(** What jsonify, stringify and assert_equal promise. *)
From Coq Require Import String.
From Verif Require Import Prelude Values_Model.
Set Implicit Arguments.

(** ** jsonify *)
(** what json.dumps takes: None, booleans, numbers, strings, lists of these and dictionaries from simple keys, no two of them equal *)
Definition json_key (v : pyv) : Prop := match v with PNone | PBool _ | PInt _ | PStr _ => True | _ => False end.
Definition distinct_keys (items : list (pyv * pyv)) : Prop := ForallOrdPairs (fun a b => py_eq a b = false) (map fst items).
Inductive json_value : pyv -> Prop :=
| json_atom : forall v, json_key v -> json_value v
| json_list : forall l, Forall json_value l -> json_value (PList l)
| json_dict : forall items, Forall (fun kv => json_key (fst kv)) items -> Forall (fun kv => json_value (snd kv)) items -> distinct_keys items ->
    json_value (PDict items).
(** j stands for v: enums for their values, JSONAbles for their to_json(), everything that can be iterated over for the list of its
    elements in the same order, mappings for dictionaries with every entry's key among the keys and no entry out of nowhere,
    and other objects for their str(), or repr() if str() raised TypeError *)
Inductive stands_for : pyv -> pyv -> Prop :=
| st_atom : forall v, json_key v -> stands_for v v
| st_enum : forall c n v, stands_for (PEnum c n v) v
| st_json : forall i j j', stands_for j j' -> stands_for (PJson i j) j'
| st_bytes : forall l, stands_for (PBytes l) (PList (map PInt l))
| st_list : forall v l l', In v [PList l; PTuple l; PSet true l; PSet false l; PIter l] -> Forall2 stands_for l l' -> stands_for v (PList l')
| st_dict : forall items items',
    (forall k' v', In (k', v') items' -> exists k v k0, In (k, v) items /\ stands_for k k0 /\ (k' = k0 \/ py_eq k' k0 = true) /\ stands_for v v') ->
    (forall k v, In (k, v) items -> exists k' v' k0, In (k', v') items' /\ stands_for k k0 /\ (k' = k0 \/ py_eq k' k0 = true)) ->
    stands_for (PDict items) (PDict items')
| st_str : forall i s r, stands_for (PObj i (Ok s) r) (PStr s)
| st_repr : forall i s, stands_for (PObj i (Err TypeError) (Ok s)) (PStr s).
(** values all of whose parts jsonify can deal with: enums have values that json.dumps takes, mappings have keys that become simple
    ones, and objects can be printed *)
Inductive printable : pyv -> Prop :=
| pr_atom : forall v, json_key v -> printable v
| pr_bytes : forall l, printable (PBytes l)
| pr_enum : forall c n v, json_value v -> printable (PEnum c n v)
| pr_list : forall v l, In v [PList l; PTuple l; PSet true l; PSet false l; PIter l] -> Forall printable l -> printable v
| pr_dict : forall items, Forall (fun kv => simple_key (fst kv)) items -> Forall (fun kv => printable (snd kv)) items -> printable (PDict items)
| pr_json : forall i j, printable j -> printable (PJson i j)
| pr_obj : forall i s r, (exists x, s = Ok x) \/ (s = Err TypeError /\ exists x, r = Ok x) -> printable (PObj i s r)
with simple_key : pyv -> Prop :=
| sk_atom : forall v, json_key v -> simple_key v
| sk_enum : forall c n v, json_key v -> simple_key (PEnum c n v)
| sk_json : forall i j, simple_key j -> simple_key (PJson i j)
| sk_obj : forall i s r, (exists x, s = Ok x) \/ (s = Err TypeError /\ exists x, r = Ok x) -> simple_key (PObj i s r).

(** ** stringify *)
(** only strings, in lists and dictionaries; None too if [none] *)
Inductive only_strings (none : bool) : pyv -> Prop :=
| os_str : forall s, only_strings none (PStr s)
| os_none : none = true -> only_strings none PNone
| os_list : forall l, Forall (only_strings none) l -> only_strings none (PList l)
| os_dict : forall items, Forall (fun kv => only_strings none (fst kv) /\ hashable (fst kv) = true /\ only_strings none (snd kv)) items -> distinct_keys items ->
    only_strings none (PDict items).
(** j is what stringify makes of v with the stringifier sf: strings as they are, members of enums by their names, None as None or as what
    sf makes of it, containers element by element, anything else as sf says *)
Section Spelled.
  Variable sf : pyv -> res string.
  Variable str_none : bool.
  Inductive spelled : pyv -> pyv -> Prop :=
  | sp_str : forall s, spelled (PStr s) (PStr s)
  | sp_enum : forall c n v, spelled (PEnum c n v) (PStr n)
  | sp_none : str_none = false -> spelled PNone PNone
  | sp_str_none : forall s, str_none = true -> sf PNone = Ok s -> spelled PNone (PStr s)
  | sp_list : forall v l l', In v [PList l; PTuple l] -> Forall2 spelled l l' -> spelled v (PList l')
  | sp_bytes : forall l l', Forall2 (fun z s => sf (PInt z) = Ok s) l l' -> spelled (PBytes l) (PList (map PStr l'))
  | sp_dict : forall items items',
      (forall k' v', In (k', v') items' -> exists k v k0, In (k, v) items /\ spelled k k0 /\ (k' = k0 \/ py_eq k' k0 = true) /\ spelled v v') ->
      (forall k v, In (k, v) items -> exists k' v' k0, In (k', v') items' /\ spelled k k0 /\ (k' = k0 \/ py_eq k' k0 = true)) ->
      spelled (PDict items) (PDict items')
  | sp_other : forall v s, match v with PBool _ | PInt _ | PSet _ _ | PIter _ | PJson _ _ | PObj _ _ _ => True | _ => False end -> sf v = Ok s ->
      spelled v (PStr s).
End Spelled.

(** ** assert_equal *)
(** a and b are made of containers of the same types wherever they are compared: lists against lists, tuples against tuples,
    dictionaries against dictionaries, sets against sets, and no iterators *)
Inductive alike : pyv -> pyv -> Prop :=
| al_atom : forall a b, match a with PNone | PBool _ | PInt _ | PStr _ | PBytes _ | PEnum _ _ _ | PJson _ _ | PObj _ _ _ => True | _ => False end -> alike a b
| al_list : forall l m, (length l = length m -> Forall2 alike l m) -> alike (PList l) (PList m)
| al_tuple : forall l m, (length l = length m -> Forall2 alike l m) -> alike (PTuple l) (PTuple m)
| al_set : forall f g l m, alike (PSet f l) (PSet g m)
| al_dict : forall l m, (forall k v k' w, In (k, v) l -> In (k', w) m -> py_eq k k' = true -> alike v w) -> alike (PDict l) (PDict m).
(** keys without sets in them, and values whose dictionaries have only such keys, no two of them equal *)
Fixpoint plain (v : pyv) : bool :=
  match v with PList _ | PSet _ _ | PDict _ | PIter _ => false | PTuple l => forallb plain l | _ => true end.
Inductive well_keyed : pyv -> Prop :=
| wk_atom : forall v, match v with PList _ | PTuple _ | PDict _ => False | _ => True end -> well_keyed v
| wk_list : forall l, Forall well_keyed l -> well_keyed (PList l)
| wk_tuple : forall l, Forall well_keyed l -> well_keyed (PTuple l)
| wk_dict : forall items, Forall (fun kv => plain (fst kv) = true) items -> distinct_keys items -> Forall (fun kv => well_keyed (snd kv)) items -> well_keyed (PDict items).
