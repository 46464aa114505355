(** Metaclasses: satella/coding/metaclasses.py. Texts are lists of numbers, the empty text also standing for a __doc__ of None;
    classes and objects are known by numbers. *)
From Coq Require Import List Arith.
From Verif Require Import Prelude Walk_Model.
Import ListNotations.

Definition text := list nat.
Definition falsy (t : text) : bool := match t with [] => true | _ => false end.

(** *** Docstrings *)

(** What Python knows of the classes that exist: direct bases, the method resolution order (the class first, object last), what each class's
    own body defines, each class's own __doc__ (type.__doc__ does not look at the bases), and which objects are callable. *)
Record world := { bases_of : nat -> list nat; mro : nat -> list nat; own : nat -> nat -> option nat; cdoc : nat -> text; callable : nat -> bool; object_cls : nat }.

(** getattr(cls, key) through the method resolution order; None when hasattr is false (metaclasses.py 45-46, 80). *)
Definition attr (w : world) (c key : nat) : option nat :=
  fold_right (fun k rest => match own w k key with Some o => Some o | None => rest end) None (mro w c).

(** The docstrings of objects; assigning __doc__ changes the object, whoever else has it. *)
Definition docs := nat -> text.
Definition set_doc (d : docs) (o : nat) (t : text) : docs := fun x => if x =? o then t else d x.

(** A class being made: its __doc__ if it has one in its body, and its members in order (the dictionary less '__doc__', whose value is a string). *)
Record body := { body_doc : option text; members : list (nat * nat) }.

(** The loop of CopyDocsFrom, metaclasses.py 43-49. *)
Fixpoint copy_loop (w : world) (target : nat) (d : docs) (ms : list (nat * nat)) : docs :=
  match ms with
  | [] => d
  | (key, value) :: t =>
    if falsy (d value) && callable w value then
      match attr w target key with
      | Some o => if falsy (d o) then copy_loop w target d t else set_doc d value (d o) (* break, line 49 *)
      | None => copy_loop w target d t
      end
    else copy_loop w target d t
  end.

(** CopyDocsFrom, metaclasses.py 22-53: the class's __doc__ and the docstrings of objects afterwards. *)
Definition CopyDocsFrom (w : world) (target : nat) (b : body) (d : docs) : option text * docs :=
  ((match body_doc b with
    | Some t => Some t
    | None => if falsy (cdoc w target) then None else Some (cdoc w target)
    end), copy_loop w target d (members b)).

(** _extract_bases, metaclasses.py 15-19: a tuple of bases is taken as it is, object is left out of the bases of a class. *)
Inductive node := Bases (l : list nat) | Cls (c : nat).
Definition extract_bases (w : world) (n : node) : kids node :=
  match n with
  | Bases l => KList (map Cls l)
  | Cls c => KList (map Cls (filter (fun b => negb (b =? object_cls w)) (bases_of w c)))
  end.

(** The bases in the order of the walk, metaclasses.py 72, 79; the walk is lazy, but the getter has no effects. *)
Definition walked (w : world) (fuel : nat) (bases : list nat) : list nat :=
  flat_map (fun n => match n with Cls c => [c] | Bases _ => [] end) (fst (walk fuel (extract_bases w) false false (Bases bases))).

(** The search of metaclasses.py 79-83 for one member. *)
Fixpoint find_doc (w : world) (d : docs) (key : nat) (cs : list nat) : option text :=
  match cs with
  | [] => None
  | c :: t => match attr w c key with
              | Some o => if falsy (d o) then find_doc w d key t else Some (d o)
              | None => find_doc w d key t
              end
  end.
(** The loop over members, metaclasses.py 77-83. *)
Fixpoint parent_loop (w : world) (cs : list nat) (d : docs) (ms : list (nat * nat)) : docs :=
  match ms with
  | [] => d
  | (key, value) :: t =>
    if falsy (d value) && callable w value then
      match find_doc w d key cs with
      | Some s => parent_loop w cs (set_doc d value s) t
      | None => parent_loop w cs d t
      end
    else parent_loop w cs d t
  end.
(** The search for the class's own docstring, metaclasses.py 71-75. *)
Fixpoint find_cdoc (w : world) (cs : list nat) : option text :=
  match cs with [] => None | c :: t => if falsy (cdoc w c) then find_cdoc w t else Some (cdoc w c) end.
(** DocsFromParent, metaclasses.py 56-84 *)
Definition DocsFromParent (w : world) (fuel : nat) (bases : list nat) (b : body) (d : docs) : option text * docs :=
  let cs := walked w fuel bases in
  ((match body_doc b with Some t => Some t | None => find_cdoc w cs end), parent_loop w cs d (members b)).

(** *** Metaclass conflicts *)

(** skip_redundant, metaclasses.py 87-95 *)
Fixpoint skip_redundant (iterable skip_set : list nat) : list nat :=
  match iterable with
  | [] => []
  | item :: t => if memb Nat.eqb item skip_set then skip_redundant t skip_set else item :: skip_redundant t (item :: skip_set)
  end.

(** remove_redundant, metaclasses.py 98-102; [type_cls] is type, [mro] is inspect.getmro. *)
Definition remove_redundant (mro : nat -> list nat) (type_cls : nat) (metaclasses : list nat) : list nat :=
  skip_redundant metaclasses (type_cls :: flat_map (fun m => tl (mro m)) metaclasses).

Definition tuple_eqb (a b : list nat) : bool := if list_eq_dec Nat.eq_dec a b then true else false.

(** get_noconflict_metaclass, metaclasses.py 108-132, with metaclass_maker_f (135-140) inlined in its recursive call. [make meta bases] is the
    call meta(name, bases, dict), which creates a class or fails; [typ] is type(). The memo is memoized_metaclasses_map. *)
Fixpoint get_noconflict (fuel : nat) (mro : nat -> list nat) (type_cls : nat) (typ : nat -> nat) (make : nat -> list nat -> res nat)
    (memo : list (list nat * nat)) (bases lefts rights : list nat) : res nat * list (list nat * nat) :=
  match fuel with
  | 0 => (Err Diverges, memo)
  | S f =>
    let metas := lefts ++ map typ bases ++ rights in
    let needed := remove_redundant mro type_cls metas in
    match dget tuple_eqb memo needed with
    | Some m => (Ok m, memo)
    | None =>
      match needed with
      | [] => (Ok type_cls, dset tuple_eqb memo needed type_cls)
      | [m] => (Ok m, dset tuple_eqb memo needed m)
      | _ =>
        if tuple_eqb needed bases then (Err TypeError, memo)
        else
          match get_noconflict f mro type_cls typ make memo needed [] [] with
          | (Err e, memo') => (Err e, memo')
          | (Ok mm, memo') => match make mm needed with
                              | Err e => (Err e, memo')
                              | Ok m => (Ok m, dset tuple_eqb memo' needed m)
                              end
          end
      end
    end
  end.

(** A program that makes classes one after another with metaclass_maker (143-151) or metaclass_maker_f (135-140): bases and extra metaclasses. *)
Fixpoint maker_run (fuel : nat) (mro : nat -> list nat) (type_cls : nat) (typ : nat -> nat) (make : nat -> list nat -> res nat)
    (memo : list (list nat * nat)) (calls : list (list nat * list nat * list nat)) : list (res nat) * list (list nat * nat) :=
  match calls with
  | [] => ([], memo)
  | (bases, lefts, rights) :: t =>
    let '(r, memo') := get_noconflict fuel mro type_cls typ make memo bases lefts rights in
    let '(rs, memo'') := maker_run fuel mro type_cls typ make memo' t in (r :: rs, memo'')
  end.

(** *** Wrapping members *)

(** A member of a class being made: what it is, and whether it has a _dont_wrap attribute (229-232). *)
Inductive kind := KCallable | KProperty | KOther.
Record member (V : Type) := { mval : V; mkind : kind; marked : bool }.
Arguments mval {V}. Arguments mkind {V}. Arguments marked {V}.

(** wrap_with, metaclasses.py 216-224: the loop over the members; an exception of a wrapper or a selector leaves no class. *)
Fixpoint wrap_loop {K V} (callables properties : V -> res V) (sel_c sel_p : V -> res bool) (dct : list (K * member V)) : res (list (K * V)) :=
  match dct with
  | [] => Ok []
  | (key, m) :: t =>
    let v := mval m in
    res_bind (if marked m then Ok v
              else match mkind m with
                   | KCallable => res_bind (sel_c v) (fun s => if s then callables v else Ok v)
                   | KProperty => res_bind (sel_p v) (fun s => if s then properties v else Ok v)
                   | KOther => Ok v
                   end)
             (fun v' => res_bind (wrap_loop callables properties sel_c sel_p t) (fun t' => Ok ((key, v') :: t')))
  end.

(** A property: its getter, setter and deleter, each of which may be missing (None). *)
Record prop (F : Type) := { fget : option F; fset : option F; fdel : option F }.
Arguments fget {F}. Arguments fset {F}. Arguments fdel {F}. Arguments Build_prop {F}.
(** wrap_property, metaclasses.py 159-182: each wrapper is called, with None if there is nothing to wrap. *)
Definition wrap_property {F} (getter setter deleter : option F -> option F) (p : prop F) : prop F :=
  Build_prop (getter (fget p)) (setter (fset p)) (deleter (fdel p)).
