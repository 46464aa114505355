(** Small dictionaries: satella/coding/structures/dictionaries/counting.py, dictionaries/default.py, and SelfCleaningDefaultDict and ExpiringEntryDictThread of
    dictionaries/expiring.py. *)
From Coq Require Import List Bool Arith ZArith.
From Verif Require Import Prelude.
Import ListNotations.
Open Scope nat_scope.

(** ** CountingDict, counting.py *)
Section Counting.
  Context {K : Type}.
  Variable eqb : K -> K -> bool.

  (** count, counting.py 21-31 *)
  Definition cd_count (d : dict K Z) (elem : K) (pieces : Z) : dict K Z :=
    if negb (dmem eqb d elem) then dset eqb d elem pieces
    else dset eqb d elem (match dget eqb d elem with Some v => v | None => 0 end + pieces)%Z.

  (** __init__, counting.py 13-16; pieces is 1 by default. *)
  Definition cd_new (set_to_count : list K) : dict K Z := fold_left (fun d e => cd_count d e 1) set_to_count [].

  (** __getitem__, counting.py 18-19 *)
  Definition cd_getitem (d : dict K Z) (item : K) : res Z := match dget eqb d item with Some v => Ok v | None => Err KeyError end.

  (** What changes the dictionary: count (21-31) and clear (33-34). *)
  Inductive cd_op := CCount (e : K) (pieces : Z) | CClear.
  Definition cd_step (d : dict K Z) (o : cd_op) : dict K Z := match o with CCount e n => cd_count d e n | CClear => [] end.
  Definition cd_run (d : dict K Z) (ops : list cd_op) : dict K Z := fold_left cd_step ops d.
End Counting.
Arguments CCount {K}. Arguments CClear {K}. Arguments cd_op : clear implicits.

(** ** DefaultDict, default.py *)
Section Default.
  Context {K V : Type}.
  Variable eqb : K -> K -> bool.
  (** What default_factory() gives or raises; None if there is no default_factory. *)
  Variable factory : option (res V).

  (** __getitem__, default.py 9-12 (the method of collections.defaultdict finds the item); calling None raises TypeError. *)
  Definition df_getitem (d : dict K V) (item : K) : res V :=
    if negb (dmem eqb d item) then match factory with Some r => r | None => Err TypeError end
    else match dget eqb d item with Some v => Ok v | None => Err KeyError end.

  Inductive df_op := FGet (k : K) | FSet (k : K) (v : V) | FDel (k : K).
  Definition df_step (d : dict K V) (o : df_op) : dict K V :=
    match o with FGet _ => d | FSet k v => dset eqb d k v | FDel k => ddel eqb d k end.
  Definition df_run (d : dict K V) (ops : list df_op) : dict K V := fold_left df_step ops d.
End Default.
Arguments FGet {K V}. Arguments FSet {K V}. Arguments FDel {K V}. Arguments df_op : clear implicits.

(** ** SelfCleaningDefaultDict, expiring.py 61-136 *)
Section SelfCleaning.
  Context {K C : Type}.
  Variables (eqb : K -> K -> bool) (ceq : C -> C -> bool).
  (** The content of what default_factory makes; background_maintenance. *)
  Variables (c0 : C) (background : bool).

  (** Values are objects: a place in sd_store that holds the object's content (they are compared by it). *)
  Record scd := { sd_data : dict K nat; sd_store : list C }.
  Definition content (s : scd) (r : nat) : C := nth r (sd_store s) c0.
  Definition is_default (s : scd) (r : nat) : bool := ceq (content s r) c0.
  Definition with_data (s : scd) (d : dict K nat) : scd := {| sd_data := d; sd_store := sd_store s |}.

  (** __init__, expiring.py 89-98: data is dict( *args, **kwargs) *)
  Fixpoint sd_fill (l : list (K * C)) (s : scd) : scd :=
    match l with
    | [] => s
    | (k, c) :: t => sd_fill t {| sd_data := dset eqb (sd_data s) k (length (sd_store s)); sd_store := sd_store s ++ [c] |}
    end.
  Definition sd_new (l : list (K * C)) : scd := sd_fill l {| sd_data := []; sd_store := [] |}.

  (** cleanup, expiring.py 131-136 *)
  Definition sd_cleanup (s : scd) : scd :=
    with_data s (fold_left (fun d key => match dget eqb d key with
                                         | Some r => if is_default s r then ddel eqb d key else d
                                         | None => d
                                         end) (dkeys (sd_data s)) (sd_data s)).

  (** __getitem__, expiring.py 108-119 *)
  Definition sd_getitem (s : scd) (item : K) : scd * nat :=
    match dget eqb (sd_data s) item with
    | Some v => (if is_default s v then with_data s (ddel eqb (sd_data s) item) else s, v)
    | None =>
      let obj := length (sd_store s) in
      ({| sd_data := if negb background then dset eqb (sd_data s) item obj else sd_data s; sd_store := sd_store s ++ [c0] |}, obj)
    end.

  (** __setitem__, expiring.py 121-129; the value set is a new object with the content c. *)
  Definition sd_setitem (s : scd) (key : K) (c : C) : scd :=
    let s1 := {| sd_data := sd_data s; sd_store := sd_store s ++ [c] |} in
    let r := length (sd_store s) in
    let value_equal := is_default s1 r in
    let d1 := if dmem eqb (sd_data s) key then if value_equal then ddel eqb (sd_data s) key else sd_data s else sd_data s in
    with_data s1 (if negb value_equal then dset eqb d1 key r else d1).

  (** __delitem__, expiring.py 104-106, is not synchronized: the check and the removal. *)
  Definition del_check (s : scd) (key : K) : bool := dmem eqb (sd_data s) key.
  Definition del_do (s : scd) (key : K) : res scd := if dmem eqb (sd_data s) key then Ok (with_data s (ddel eqb (sd_data s) key)) else Err KeyError.
  Definition sd_delitem (s : scd) (key : K) : scd := if del_check s key then match del_do s key with Ok s' => s' | Err _ => s end else s.

  (** Calls, each done as a whole. Mutate: somebody changes the content of an object; Cleanup: of the background thread. in, get, setdefault, pop and clear are those of
      collections.abc.MutableMapping; iter(d) calls cleanup (expiring.py 100-102) and then collections.abc.Iterable.__iter__, that gives nothing. *)
  Inductive sd_op := SGet (k : K) | SSet (k : K) (c : C) | SDel (k : K) | SLen | SIter | SIn (k : K) | SGetOr (k : K) (d : C) | SSetDefault (k : K) (d : C) | SPop (k : K) | SClear
    | SCleanup | SMutate (r : nat) (c : C).
  Inductive sd_out := SONone | SOVal (r : nat) (c : C) | SONat (n : nat) | SOKeys (l : list K) | SOBool (b : bool).

  Definition sd_step (s : scd) (o : sd_op) : scd * sd_out :=
    match o with
    | SGet k => let '(s', r) := sd_getitem s k in (s', SOVal r (content s' r))
    | SSet k c => (sd_setitem s k c, SONone)
    | SDel k => (sd_delitem s k, SONone)
    | SLen => let s' := sd_cleanup s in (s', SONat (length (sd_data s')))
    | SIter => (sd_cleanup s, SOKeys [])
    | SIn k => let '(s', _) := sd_getitem s k in (s', SOBool true)
    | SGetOr k _ => let '(s', r) := sd_getitem s k in (s', SOVal r (content s' r))
    | SSetDefault k _ => let '(s', r) := sd_getitem s k in (s', SOVal r (content s' r))
    | SPop k => let '(s', r) := sd_getitem s k in (sd_delitem s' k, SOVal r (content s' r))
    | SClear => (sd_cleanup s, SONone)
    | SCleanup => (sd_cleanup s, SONone)
    | SMutate r c => ({| sd_data := sd_data s; sd_store := upd (sd_store s) r c |}, SONone)
    end.
  Definition sd_run (s : scd) (ops : list sd_op) : scd := fold_left (fun s o => fst (sd_step s o)) ops s.
End SelfCleaning.
Arguments scd : clear implicits. Arguments sd_op : clear implicits. Arguments sd_out : clear implicits.

(** ** ExpiringEntryDictThread, expiring.py 20-58 *)

(** entries; how many times the thread was started; whether it was ended by an exception; what has been collected; cleanups done so far, in order. *)
Record eedt := { entries : list nat; starts : nat; died : bool; collected : list nat; cleaned : list nat }.
Definition eedt_new : eedt := {| entries := []; starts := 0; died := false; collected := []; cleaned := [] |}.

(** The loop of cleanup, expiring.py 48-52: dictionaries are numbered; [raises] tells whose cleanup() raises now. Gives the cleanups done, and the new entries unless one raised. *)
Fixpoint eedt_loop (dead : list nat) (raises : nat -> bool) (l : list nat) : list nat * option (list nat) :=
  match l with
  | [] => ([], Some [])
  | d :: t => if memb Nat.eqb d dead then eedt_loop dead raises t
              else if raises d then ([d], None)
              else let '(c, n) := eedt_loop dead raises t in (d :: c, option_map (cons d) n)
  end.

(** AddDict: add_dict (55-58) with start (33-38), Collect: the dictionary is garbage-collected, Tick: run's loop (40-43) comes to cleanup() (45-53). *)
Inductive eedt_event := AddDict (d : nat) | Collect (d : nat) | Tick (raises : nat -> bool).
Definition eedt_step (s : eedt) (e : eedt_event) : eedt :=
  match e with
  | AddDict d => {| entries := entries s ++ [d]; starts := if 0 <? starts s then starts s else S (starts s); died := died s; collected := collected s; cleaned := cleaned s |}
  | Collect d => {| entries := entries s; starts := starts s; died := died s; collected := d :: collected s; cleaned := cleaned s |}
  | Tick raises =>
    if died s || (starts s =? 0) then s
    else let '(c, n) := eedt_loop (collected s) raises (entries s) in
         {| entries := match n with Some l => l | None => entries s end; starts := starts s; died := match n with Some _ => false | None => true end;
            collected := collected s; cleaned := cleaned s ++ c |}
  end.
Definition eedt_run (es : list eedt_event) : eedt := fold_left eedt_step es eedt_new.
