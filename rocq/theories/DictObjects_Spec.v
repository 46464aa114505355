(** Specifications of TwoWayDictionary, DirtyDict and DictionaryView. *)
From Verif Require Import Prelude DictObjects_Model.
Set Implicit Arguments.

(** ** TwoWayDictionary: a set of pairs in which no key and no value repeats *)
(** dict(pairs): later pairs win *)
Definition plain_dict {K V : Type} (eqK : K -> K -> bool) (data : list (K * V)) : dict K V :=
  fold_left (fun acc e => dset eqK acc (fst e) (snd e)) data [].

Section TwoWaySpec.
  Context {K V : Type}.

  Definition bijective (m : list (K * V)) : Prop := NoDup (map fst m) /\ NoDup (map snd m).
  Definition has_key (m : list (K * V)) (k : K) : Prop := exists v, In (k, v) m.
  Definition has_val (m : list (K * V)) (v : V) : Prop := exists k, In (k, v) m.
  (** m' is m with k and v paired, their former partners released *)
  Definition paired (m : list (K * V)) (k : K) (v : V) (m' : list (K * V)) : Prop :=
    forall k' v', In (k', v') m' <-> (k' = k /\ v' = v) \/ (In (k', v') m /\ k' <> k /\ v' <> v).
  Definition unpaired (m : list (K * V)) (k : K) (v : V) (m' : list (K * V)) : Prop :=
    In (k, v) m /\ forall k' v', In (k', v') m' <-> In (k', v') m /\ ~ (k' = k /\ v' = v).
  Definition same_pairs (m m' : list (K * V)) : Prop := forall e, In e m' <-> In e m.

  Inductive tw_spec (m : list (K * V)) : tw_op K V -> tw_out K V -> list (K * V) -> Prop :=
  | tw_get k v m' : In (k, v) m -> same_pairs m m' -> tw_spec m (TWGet k) (TWVal v) m'
  | tw_get_absent k m' : ~ has_key m k -> same_pairs m m' -> tw_spec m (TWGet k) (TWRaise KeyError) m'
  | tw_set k v m' : (forall k', In (k', v) m -> k' = k) -> paired m k v m' -> tw_spec m (TWSet k v) TWNone m'
  | tw_set_taken k v k' m' : In (k', v) m -> k' <> k -> same_pairs m m' ->
      tw_spec m (TWSet k v) (TWRaise ValueError) m'
  | tw_del k v m' : unpaired m k v m' -> tw_spec m (TWDel k) TWNone m'
  | tw_del_absent k m' : ~ has_key m k -> same_pairs m m' -> tw_spec m (TWDel k) (TWRaise KeyError) m'
  | tw_pop k v m' : unpaired m k v m' -> tw_spec m (TWPop k) (TWVal v) m'
  | tw_pop_absent k m' : ~ has_key m k -> same_pairs m m' -> tw_spec m (TWPop k) (TWRaise KeyError) m'
  | tw_popitem k v m' : unpaired m k v m' -> tw_spec m TWPopItem (TWItem k v) m'
  | tw_popitem_empty m' : m = [] -> m' = [] -> tw_spec m TWPopItem (TWRaise KeyError) m'
  | tw_keys l m' : Permutation l (map fst m) -> same_pairs m m' -> tw_spec m TWKeys (TWKeysOut l) m'
  | tw_len m' : same_pairs m m' -> tw_spec m TWLen (TWNat (length m)) m'
  | tw_contains k m' : has_key m k -> same_pairs m m' -> tw_spec m (TWContains k) (TWBool true) m'
  | tw_contains_not k m' : ~ has_key m k -> same_pairs m m' -> tw_spec m (TWContains k) (TWBool false) m'
  | tw_rget k v m' : In (k, v) m -> same_pairs m m' -> tw_spec m (RGet v) (TWKey k) m'
  | tw_rget_absent v m' : ~ has_val m v -> same_pairs m m' -> tw_spec m (RGet v) (TWRaise KeyError) m'
  | tw_rset k v m' : (forall v', In (k, v') m -> v' = v) -> paired m k v m' -> tw_spec m (RSet v k) TWNone m'
  | tw_rset_taken k v v' m' : In (k, v') m -> v' <> v -> same_pairs m m' ->
      tw_spec m (RSet v k) (TWRaise ValueError) m'
  | tw_rdel k v m' : unpaired m k v m' -> tw_spec m (RDel v) TWNone m'
  | tw_rdel_absent v m' : ~ has_val m v -> same_pairs m m' -> tw_spec m (RDel v) (TWRaise KeyError) m'
  | tw_rkeys l m' : Permutation l (map snd m) -> same_pairs m m' -> tw_spec m RKeys (TWValsOut l) m'
  | tw_rlen m' : same_pairs m m' -> tw_spec m RLen (TWNat (length m)) m'
  | tw_done m' : same_pairs m m' -> tw_spec m TWDone TWNone m'.

  Inductive tw_session : list (K * V) -> list (tw_op K V) -> list (tw_out K V) -> Prop :=
  | tws_nil m : tw_session m [] []
  | tws_cons m o out m' ops outs :
      tw_spec m o out m' -> bijective m' -> tw_session m' ops outs -> tw_session m (o :: ops) (out :: outs).

  (** The same with the two deviations of the class written in: pairing a key and
      a value that are paired already raises ValueError, and done() raises. *)
  Definition tw_spec_dev (m : list (K * V)) (o : tw_op K V) (out : tw_out K V) (m' : list (K * V)) : Prop :=
    match o with
    | TWSet k v | RSet v k =>
      (In (k, v) m -> out = TWRaise ValueError /\ same_pairs m m') /\ (~ In (k, v) m -> tw_spec m o out m')
    | TWDone => out = TWRaise AttributeError /\ same_pairs m m'
    | _ => tw_spec m o out m'
    end.
  Inductive tw_session_dev : list (K * V) -> list (tw_op K V) -> list (tw_out K V) -> Prop :=
  | twd_nil m : tw_session_dev m [] []
  | twd_cons m o out m' ops outs :
      tw_spec_dev m o out m' -> bijective m' -> tw_session_dev m' ops outs ->
      tw_session_dev m (o :: ops) (out :: outs).
End TwoWaySpec.

(** ** DirtyDict: a plain dictionary with a flag *)
Section DirtySpec.
  Context {K V : Type}.
  Variable eqK : K -> K -> bool.

  (** what the call does to a plain dictionary, and its answer *)
  Definition plain_step (d : dict K V) (flag : bool) (o : dd_op K V) : dict K V * dd_out K V :=
    match o with
    | DDGet k => (d, match dget eqK d k with Some v => DDVal v | None => DDRaise KeyError end)
    | DDSet k v => (dset eqK d k v, DDNone)
    | DDDel k => if dmem eqK d k then (ddel eqK d k, DDNone) else (d, DDRaise KeyError)
    | DDContains k => (d, DDB (dmem eqK d k))
    | DDLen => (d, DDNat (length d))
    | DDKeys => (d, DDKs (dkeys d))
    | DDBool => (d, DDB (negb (Nat.eqb (length d) 0)))
    | DDClearDirty | DDCopy => (d, DDNone)
    | DDSwap => ([], DDDict d)
    | DDCopyClear => (d, DDDict d)
    | DDSetDefault k v => match dget eqK d k with Some v0 => (d, DDVal v0) | None => (dset eqK d k v, DDVal v) end
    | DDPop k => match dget eqK d k with Some v => (ddel eqK d k, DDVal v) | None => (d, DDRaise KeyError) end
    | DDUpdate l => (fold_left (fun d e => dset eqK d (fst e) (snd e)) l d, DDNone)
    | DDIsDirty => (d, DDB flag)
    end.
  Definition clears (o : dd_op K V) : bool :=
    match o with DDClearDirty | DDSwap | DDCopyClear => true | _ => false end.

  (** the flag goes down with the clearing calls, goes up with a call that
      changes the content, and otherwise stays; a multi-assignment (update) that
      writes one key several times may go through other content, so for it only
      "up if the content changed" is required *)
  Definition flag_ok (d : dict K V) (flag : bool) (o : dd_op K V) (d' : dict K V) (flag' : bool) : Prop :=
    if clears o then flag' = false
    else (flag = true -> flag' = true) /\
         (d' <> d -> flag' = true) /\
         (d' = d -> match o with DDUpdate l => NoDup (map fst l) | _ => True end -> flag' = flag).

  Inductive dd_session : dict K V -> bool -> list (dd_op K V) -> list (dd_out K V) -> Prop :=
  | dds_nil d flag : dd_session d flag [] []
  | dds_cons d flag o out d' flag' ops outs :
      plain_step d flag o = (d', out) -> flag_ok d flag o d' flag' -> dd_session d' flag' ops outs ->
      dd_session d flag (o :: ops) (out :: outs).
End DirtySpec.

(** ** DictionaryView *)
Section ViewSpec.
  Context {K V : Type}.

  (** the i-th dictionary is the first one holding k, with value v *)
  Definition first_holder (ds : list (dict K V)) (k : K) (i : nat) (v : V) : Prop :=
    (exists d, nth_error ds i = Some d /\ In (k, v) d) /\
    forall j d v', j < i -> nth_error ds j = Some d -> ~ In (k, v') d.
  Definition nowhere (ds : list (dict K V)) (k : K) : Prop := forall d v, In d ds -> ~ In (k, v) d.

  (** ds' differs from ds only in dictionary i, and there only at key k, which
      becomes [val] *)
  Definition changed_at (ds : list (dict K V)) (i : nat) (k : K) (val : option V) (ds' : list (dict K V)) : Prop :=
    length ds' = length ds /\
    (forall j, j <> i -> nth_error ds' j = nth_error ds j) /\
    exists d d', nth_error ds i = Some d /\ nth_error ds' i = Some d' /\
      forall k' v', In (k', v') d' <-> (k' <> k /\ In (k', v') d) \/ (k' = k /\ val = Some v').

  Definition all_keys (ds : list (dict K V)) (l : list K) : Prop :=
    NoDup l /\ forall k, In k l <-> ~ nowhere ds k.

  Inductive dv_spec (propagate assign : bool) (ds : list (dict K V)) :
    dv_op K V -> dv_out K V -> list (dict K V) -> Prop :=
  | dvs_get k v i : first_holder ds k i v -> dv_spec propagate assign ds (DVGet k) (DVVal v) ds
  | dvs_get_absent k : nowhere ds k -> dv_spec propagate assign ds (DVGet k) (DVRaise KeyError) ds
  | dvs_contains k : ~ nowhere ds k -> dv_spec propagate assign ds (DVContains k) (DVB true) ds
  | dvs_contains_not k : nowhere ds k -> dv_spec propagate assign ds (DVContains k) (DVB false) ds
  | dvs_set_same k v i v0 ds' : assign = true -> first_holder ds k i v0 -> changed_at ds i k (Some v) ds' ->
      dv_spec propagate assign ds (DVSet k v) DVNone ds'
  | dvs_set_master k v ds' : assign = false \/ nowhere ds k -> changed_at ds 0 k (Some v) ds' ->
      dv_spec propagate assign ds (DVSet k v) DVNone ds'
  | dvs_del k i v ds' : propagate = true \/ i = 0 -> first_holder ds k i v -> changed_at ds i k None ds' ->
      dv_spec propagate assign ds (DVDel k) DVNone ds'
  | dvs_del_absent k : nowhere (if propagate then ds else firstn 1 ds) k ->
      dv_spec propagate assign ds (DVDel k) (DVRaise KeyError) ds
  | dvs_iter l : all_keys ds l -> dv_spec propagate assign ds DVIter (DVKs l) ds
  | dvs_len l : all_keys ds l -> dv_spec propagate assign ds DVLen (DVNat (length l)) ds
  | dvs_copy : dv_spec propagate assign ds DVCopy DVNone ds.

  Inductive dv_session (propagate assign : bool) :
    list (dict K V) -> list (dv_op K V) -> list (dv_out K V * list (dict K V)) -> Prop :=
  | dvss_nil ds : dv_session propagate assign ds [] []
  | dvss_cons ds o out ds' ops outs :
      dv_spec propagate assign ds o out ds' -> dv_session propagate assign ds' ops outs ->
      dv_session propagate assign ds (o :: ops) ((out, ds') :: outs).

  Definition not_copy (o : dv_op K V) : bool := match o with DVCopy => false | _ => true end.
End ViewSpec.
