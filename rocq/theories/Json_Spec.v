(** What json_encode and JSONAbleDataObject promise. *)
From Coq Require Import String.
From Verif Require Import Prelude Json_Model.
Set Implicit Arguments.
Open Scope string_scope.

(** a key of a dictionary is written as s: members of enums and objects with to_json() by their values, objects
    without attributes by a text naming the class *)
Inductive key_shows : ev -> string -> Prop :=
| ks_none : key_shows ENone "null"
| ks_true : key_shows (EBool true) "true"
| ks_false : key_shows (EBool false) "false"
| ks_int : forall z, key_shows (EInt z) (number_text z)
| ks_str : forall s, key_shows (EStr s) s
| ks_enum : forall v s, key_shows v s -> key_shows (EEnum v) s
| ks_json : forall j s, key_shows j s -> key_shows (EJson j) s
| ks_unset : forall cls slots s, In (s, None) slots -> key_shows (ESlots cls slots) ("<an instance of " ++ cls ++ ">")
| ks_other : forall cls, key_shows (EOther cls) ("<an instance of " ++ cls ++ ">").
(** j is a rendering of v: lists and tuples in order, dictionaries with all their keys and no entry out of nowhere, enums by their
    values, objects by to_json(), by their attributes, or by a text naming the class *)
Inductive shows : ev -> json -> Prop :=
| sh_none : shows ENone JNull
| sh_bool : forall b, shows (EBool b) (JBool b)
| sh_int : forall z, shows (EInt z) (JInt z)
| sh_str : forall s, shows (EStr s) (JStr s)
| sh_list : forall v l r, v = EList l \/ v = ETuple l -> Forall2 shows l r -> shows v (JList r)
| sh_dict : forall items entries,
    (forall s j, In (s, j) entries -> exists k v, In (k, v) items /\ key_shows k s /\ shows v j) ->
    (forall k v, In (k, v) items -> exists s j, In (s, j) entries /\ key_shows k s) -> shows (EDict items) (JObj entries)
| sh_enum : forall v j, shows v j -> shows (EEnum v) j
| sh_json : forall v j, shows v j -> shows (EJson v) j
| sh_obj : forall attrs entries,
    (forall s j, In (s, j) entries -> exists v, In (s, v) attrs /\ shows v j) ->
    (forall s v, In (s, v) attrs -> exists j, In (s, j) entries) -> shows (EObj attrs) (JObj entries)
| sh_slots : forall cls slots entries,
    (forall s, ~ In (s, None) slots) ->
    (forall s j, In (s, j) entries -> exists v, In (s, Some v) slots /\ shows v j) ->
    (forall s v, In (s, Some v) slots -> exists j, In (s, j) entries) -> shows (ESlots cls slots) (JObj entries)
| sh_unset : forall cls slots s, In (s, None) slots -> shows (ESlots cls slots) (JStr ("<an instance of " ++ cls ++ ">"))
| sh_other : forall cls, shows (EOther cls) (JStr ("<an instance of " ++ cls ++ ">")).

(** what is encoded without an exception: all dictionaries have keys which are None, booleans, numbers or strings. Inside the attributes of
    objects enums and objects with to_json() may be keys too. *)
Definition native (k : ev) : Prop := match k with ENone | EBool _ | EInt _ | EStr _ => True | _ => False end.
Definition keyable (k : ev) : Prop := match k with EEnum v => native v | EJson v => native v | EOther _ => True | _ => native k end.
Inductive encodable : ev -> Prop :=
| en_atom : forall v, native v -> encodable v
| en_list : forall v l, v = EList l \/ v = ETuple l -> Forall encodable l -> encodable v
| en_dict : forall items, Forall (fun kv => native (fst kv)) items -> Forall (fun kv => encodable (snd kv)) items -> encodable (EDict items)
| en_enum : forall v, encodable v -> encodable (EEnum v)
| en_json : forall v, encodable v -> encodable (EJson v)
| en_obj : forall attrs, Forall (fun kv => inside (snd kv)) attrs -> encodable (EObj attrs)
| en_slots : forall cls slots, Forall (fun kv => forall v, snd kv = Some v -> inside v) slots -> encodable (ESlots cls slots)
| en_other : forall cls, encodable (EOther cls)
with inside : ev -> Prop :=
| in_atom : forall v, native v -> inside v
| in_list : forall v l, v = EList l \/ v = ETuple l -> Forall inside l -> inside v
| in_dict : forall items, Forall (fun kv => keyable (fst kv)) items -> Forall (fun kv => inside (snd kv)) items -> inside (EDict items)
| in_enum : forall v, encodable v -> inside (EEnum v)
| in_json : forall v, encodable v -> inside (EJson v)
| in_obj : forall attrs, Forall (fun kv => inside (snd kv)) attrs -> inside (EObj attrs)
| in_slots : forall cls slots, Forall (fun kv => forall v, snd kv = Some v -> inside v) slots -> inside (ESlots cls slots)
| in_other : forall cls, inside (EOther cls).
(** the value a JSON text is read as *)
Fixpoint value_of (j : json) : ev :=
  match j with
  | JNull => ENone | JBool b => EBool b | JInt z => EInt z | JStr s => EStr s
  | JList l => EList (map value_of l)
  | JObj entries => EDict (map (fun e => (EStr (fst e), value_of (snd e))) entries)
  end.

(** ** JSONAbleDataObject *)
Section DataObjectSpec.
  Variable V : Type.
  (** every declared field has a value *)
  Definition complete (c : dclass V) (o : instance V) : Prop := forall name, In name (annotations c) -> exists v, getattr c o name = Ok v.
  Definition available (c : dclass V) (kwargs : dict string V) (name : string) : Prop := dget seqb kwargs name <> None \/ dget seqb (class_attrs c) name <> None.
End DataObjectSpec.
