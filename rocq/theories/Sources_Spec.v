(** What configuration sources give, in terms of written-down configurations. *)
From Verif Require Import Prelude Sources_Model.
Set Implicit Arguments.
Local Open Scope Z_scope.

(** Joining two configurations: dictionaries key by key, lists one after the other,
    anything else is overridden by the second one. *)
Fixpoint join (t1 t2 : tree) : tree :=
  match t1, t2 with
  | TDict d1, TDict d2 =>
    TDict (map (fun p : Z * tree => let (k, x) := p in (k, match dget Z.eqb d2 k with Some y => join x y | None => x end)) d1
           ++ filter (fun p => negb (dmem Z.eqb d1 (fst p))) d2)
  | TList l1, TList l2 => TList (l1 ++ l2)
  | _, _ => t2
  end.

(** the value under a path of keys *)
Fixpoint at_path (t : tree) (path : list Z) : option tree :=
  match path with
  | [] => Some t
  | k :: rest => match t with
                 | TDict d => match dget Z.eqb d k with Some x => at_path x rest | None => None end
                 | _ => None
                 end
  end.
(** following the path one comes to a dictionary without the next key *)
Fixpoint says_nothing_of (t : tree) (path : list Z) : Prop :=
  match path with
  | [] => False
  | k :: rest => match t with
                 | TDict d => match dget Z.eqb d k with Some x => says_nothing_of x rest | None => True end
                 | _ => False
                 end
  end.

(** every dictionary in it has each key once *)
Fixpoint tree_wf (t : tree) : Prop :=
  match t with
  | TLeaf _ => True
  | TDict d => dwf d /\ (fix all (d : list (Z * tree)) := match d with [] => True | (_, x) :: r => tree_wf x /\ all r end) d
  | TList l => (fix all (l : list tree) := match l with [] => True | x :: r => tree_wf x /\ all r end) l
  end.

Definition is_tree_dict (t : tree) : bool := match t with TDict _ => true | _ => false end.
Definition config_fails (r : res tree) : bool := match r with Err ConfigurationError => true | _ => false end.

(** AlternativeSource: the first source that does not fail with ConfigurationError decides *)
Definition first_of (rs : list (res tree)) : res tree :=
  match find (fun r => negb (config_fails r)) rs with
  | Some (Ok t) => if is_tree_dict t then Ok t else Err AssertionError
  | Some (Err e) => Err e
  | None => Err ConfigurationError
  end.

(** MergingSource: the outcome of a source that stops it, if it does *)
Definition stops (on_fail : Z) (r : res tree) : option exn :=
  match r with
  | Ok t => if is_tree_dict t then None else Some AssertionError
  | Err ConfigurationError => if on_fail =? 1 then None else Some ConfigurationError
  | Err e => Some e
  end.
Fixpoint first_stop (on_fail : Z) (rs : list (res tree)) : option exn :=
  match rs with [] => None | r :: t => match stops on_fail r with Some e => Some e | None => first_stop on_fail t end end.
Definition provided (rs : list (res tree)) : list tree := flat_map (fun r => match r with Ok t => [t] | Err _ => [] end) rs.
Definition merged (on_fail : Z) (must : bool) (rs : list (res tree)) : res tree :=
  match first_stop on_fail rs with
  | Some e => Err e
  | None => match provided rs, rs with
            | [], _ :: _ => if must then Err ConfigurationError else Ok (TDict [])
            | ts, _ => Ok (fold_left join ts (TDict []))
            end
  end.

Fixpoint outcome (s : source tree) : res tree :=
  match s with
  | SLoad r => r
  | SStatic t => Ok t
  | SAlternative l => first_of (map outcome l)
  | SOptional s' => first_of [outcome s'; Ok (TDict [])]
  | SMerging l on_fail must => merged on_fail must (map outcome l)
  | SBuildObjectFrom k s' => match outcome s' with Ok t => Ok (TDict [(k, t)]) | Err e => Err e end
  end.

(** ** Objects in memory
    [rep m v t f]: the value [v] is the configuration [t], made of the objects [f]. *)
Inductive rep (m : mem) : val -> tree -> list nat -> Prop :=
| rep_leaf z : rep m (VLeaf z) (TLeaf z) []
| rep_dict a d td f : nth_error m a = Some (CDict d) -> rep_items m d td f -> rep m (VRef a) (TDict td) (a :: f)
| rep_list a l tl f : nth_error m a = Some (CList l) -> rep_elems m l tl f -> rep m (VRef a) (TList tl) (a :: f)
with rep_items (m : mem) : dict Z val -> list (Z * tree) -> list nat -> Prop :=
| ri_nil : rep_items m [] [] []
| ri_cons k v t d td f g : rep m v t f -> rep_items m d td g -> rep_items m ((k, v) :: d) ((k, t) :: td) (f ++ g)
with rep_elems (m : mem) : list val -> list tree -> list nat -> Prop :=
| re_nil : rep_elems m [] [] []
| re_cons v t l tl f g : rep m v t f -> rep_elems m l tl g -> rep_elems m (v :: l) (t :: tl) (f ++ g).

(** a source with the configurations its StaticSources hold, and the objects these are made of *)
Inductive src_rep (m : mem) : source val -> source tree -> list nat -> Prop :=
| sr_load r : (forall t, r = Ok t -> tree_wf t) -> src_rep m (SLoad r) (SLoad r) []
| sr_static v t f : rep m v t f -> tree_wf t -> src_rep m (SStatic v) (SStatic t) f
| sr_alt l tl f : srcs_rep m l tl f -> src_rep m (SAlternative l) (SAlternative tl) f
| sr_opt s ts f : src_rep m s ts f -> src_rep m (SOptional s) (SOptional ts) f
| sr_merge l tl f on_fail flag : srcs_rep m l tl f -> src_rep m (SMerging l on_fail flag) (SMerging tl on_fail flag) f
| sr_build k s ts f : src_rep m s ts f -> src_rep m (SBuildObjectFrom k s) (SBuildObjectFrom k ts) f
with srcs_rep (m : mem) : list (source val) -> list (source tree) -> list nat -> Prop :=
| ss_nil : srcs_rep m [] [] []
| ss_cons s ts l tl f g : src_rep m s ts f -> srcs_rep m l tl g -> srcs_rep m (s :: l) (ts :: tl) (f ++ g).

(** the answer of provide() is what was expected *)
Definition answers (m : mem) (r : res val) (expected : res tree) : Prop :=
  match expected with
  | Ok t => exists v f, r = Ok v /\ rep m v t f
  | Err e => r = Err e
  end.

(** no StaticSource in it *)
Fixpoint no_statics {C} (s : source C) : bool :=
  match s with
  | SLoad _ => true
  | SStatic _ => false
  | SAlternative l | SMerging l _ _ => forallb no_statics l
  | SOptional s' | SBuildObjectFrom _ s' => no_statics s'
  end.
