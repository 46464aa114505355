(** Tracebacks that are kept: satella/instrumentation/trace_back/classes.py and trace_back.py. Texts and bytes are lists of numbers. *)
From Coq Require Import List Bool Arith ZArith.
From Verif Require Import Prelude.
Import ListNotations.
Open Scope nat_scope.

Definition text := list nat.
(** The three dots, and the reasons why pickling or compressing failed (their wording does not matter). *)
Definition dots : text := [46; 46; 46].

(** GenerationPolicy, classes.py 30-82; a policy may also be of an overriding class, hence its methods are functions. *)
Record policy := { should_pickle : Z -> bool; should_compress : text -> bool; compression_level : text -> nat; process_repr : text -> text }.
Definition default_policy (enable_pickling : bool) (compress_at : nat) (repr_length_limit : option nat) (level : nat) : policy :=
  {| should_pickle := fun _ => enable_pickling;                                                         (* 41-48 *)
     should_compress := fun p => compress_at <? length p;                                               (* 50-57 *)
     compression_level := fun _ => level;                                                               (* 59-67 *)
     process_repr := fun r => match repr_length_limit with                                              (* 69-82 *)
                              | None => r
                              | Some n => if n <? length r then firstn n r ++ dots else r
                              end |}.

(** None, "pickle", "pickle/gzip", "failed" and "failed/gzip", classes.py 94-101 *)
Inductive pickle_kind := PickleNone | Pickled | PickledGzip | PFailed | PFailedGzip.
(** StoredVariableValue: slots at classes.py 110 *)
Record stored := { s_repr : text; s_type : text; s_pickle : option text; s_kind : pickle_kind }.

Definition pickle_kind_eqb (a b : pickle_kind) : bool :=
  match a, b with PickleNone, PickleNone | Pickled, Pickled | PickledGzip, PickledGzip | PFailed, PFailed | PFailedGzip, PFailedGzip => true | _, _ => false end.
Definition text_eqb (a b : text) : bool := if list_eq_dec Nat.eq_dec a b then true else false.

Section World.
  (** Values are numbers. repr, pickle and zlib do what they do; a reason is what is kept of an exception. *)
  Variables (repr_of type_of : Z -> res text) (dumps : Z -> res text) (loads : text -> res Z) (compress : nat -> text -> res text) (decompress : text -> res text).
  Variable reason : exn -> text.
  (** isinstance(e, zlib.error), isinstance(e, pickle.UnpicklingError) *)
  Variables (is_zlib_error is_unpickling_error : exn -> bool).

  (** StoredVariableValue.__init__, classes.py 139-168 *)
  Definition store (p : policy) (value : Z) : res stored :=
    res_bind (repr_of value) (fun r =>
    res_bind (type_of value) (fun t =>
    let r' := process_repr p r in
    if should_pickle p value
    then match dumps value with
         | Err e => Ok {| s_repr := r'; s_type := t; s_pickle := Some (reason e); s_kind := PFailed |}
         | Ok b =>
           if should_compress p b
           then match compress (compression_level p b) b with
                | Ok c => Ok {| s_repr := r'; s_type := t; s_pickle := Some c; s_kind := PickledGzip |}
                | Err e => if is_zlib_error e then Ok {| s_repr := r'; s_type := t; s_pickle := Some (reason e); s_kind := PFailedGzip |} else Err e
                end
           else Ok {| s_repr := r'; s_type := t; s_pickle := Some b; s_kind := Pickled |}
         end
    else Ok {| s_repr := r'; s_type := t; s_pickle := None; s_kind := PickleNone |})).

  (** StoredVariableValue.load_value, classes.py 170-196. pickle.loads(None) and zlib.decompress(None) raise TypeError. *)
  Definition load_value (s : stored) : res Z :=
    match (match s_kind s with
           | PickleNone => Err ValueError
           | PFailed => Err ValueError
           | PickledGzip => match s_pickle s with Some b => decompress b | None => Err TypeError end
           | Pickled => match s_pickle s with Some b => Ok b | None => Err TypeError end
           | PFailedGzip => Err ValueError
           end) with
    | Err e => Err e
    | Ok b => match loads b with
              | Ok v => Ok v
              | Err e => if is_unpickling_error e then Err ValueError else Err e
              end
    end.
  (** StoredVariableValue.__eq__, classes.py 198-199 *)
  Definition stored_eq (a b : stored) : bool := text_eqb (s_repr a) (s_repr b) && text_eqb (s_type a) (s_type b).

  (** What to_json gives: 'pickle' is there only if the pickle is not empty; it is base64-encoded, base64.b64decode being its inverse. *)
  Record stored_json := { j_repr : text; j_type : text; j_kind : pickle_kind; j_pickle : option text }.
  (** StoredVariableValue.to_json, classes.py 123-131 *)
  Definition stored_to_json (s : stored) : stored_json :=
    {| j_repr := s_repr s; j_type := s_type s; j_kind := s_kind s; j_pickle := match s_pickle s with Some (x :: r) => Some (x :: r) | _ => None end |}.
  (** StoredVariableValue.from_json, classes.py 112-121: line 120 is reached in any case. *)
  Definition stored_from_json (j : stored_json) : stored :=
    {| s_repr := j_repr j; s_type := j_type j; s_kind := j_kind j;
       s_pickle := let read := j_pickle j in None |}.

  (** ** Stack frames *)
  (** A frame of the interpreter: the code's name and file, the line, the variables, and the frame that called it. *)
  Inductive frame := Frame (name filename : text) (lineno : Z) (locals globals : list (text * Z)) (back : option frame).
  Record stack_frame := { f_name : text; f_filename : text; f_lineno : Z; f_locals : list (text * stored); f_globals : list (text * stored) }.

  Fixpoint store_all (p : policy) (l : list (text * Z)) : res (list (text * stored)) :=
    match l with [] => Ok [] | (k, v) :: t => res_bind (store p v) (fun s => res_bind (store_all p t) (fun r => Ok ((k, s) :: r))) end.
  (** StackFrame.__init__, classes.py 220-231 *)
  Definition stack_frame_of (p : policy) (f : frame) : res stack_frame :=
    match f with Frame name filename lineno locals globals _ =>
      res_bind (store_all p locals) (fun l => res_bind (store_all p globals) (fun g =>
        Ok {| f_name := name; f_filename := filename; f_lineno := lineno; f_locals := l; f_globals := g |}))
    end.
  (** Dictionaries are equal if they have the same keys with equal values. *)
  Definition vars_eq (a b : list (text * stored)) : bool :=
    (length a =? length b) && forallb (fun kv => match dget text_eqb b (fst kv) with Some v => stored_eq (snd kv) v | None => false end) a.
  (** StackFrame.__eq__, classes.py 233-236 *)
  Definition frame_eq (a b : stack_frame) : bool :=
    text_eqb (f_name a) (f_name b) && text_eqb (f_filename a) (f_filename b) && Z.eqb (f_lineno a) (f_lineno b) && vars_eq (f_locals a) (f_locals b) && vars_eq (f_globals a) (f_globals b).
  Record frame_json := { fj_name : text; fj_filename : text; fj_line_no : Z; fj_locals : list (text * stored_json); fj_globals : list (text * stored_json) }.
  (** StackFrame.to_json, classes.py 248-255; from_json, 238-246 *)
  Definition frame_to_json (f : stack_frame) : frame_json :=
    {| fj_name := f_name f; fj_filename := f_filename f; fj_line_no := f_lineno f;
       fj_locals := map (fun kv => (fst kv, stored_to_json (snd kv))) (f_locals f); fj_globals := map (fun kv => (fst kv, stored_to_json (snd kv))) (f_globals f) |}.
  Definition frame_from_json (j : frame_json) : stack_frame :=
    {| f_name := fj_name j; f_filename := fj_filename j; f_lineno := fj_line_no j;
       f_locals := map (fun kv => (fst kv, stored_from_json (snd kv))) (fj_locals j); f_globals := map (fun kv => (fst kv, stored_from_json (snd kv))) (fj_globals j) |}.

  (** ** Tracebacks *)
  Record trace := { t_frames : list stack_frame; t_formatted : text }.
  (** sys.exc_info()[2]: the frames of a traceback, from where the exception was caught to where it was raised *)
  (** frame_from_traceback, trace_back.py 18-27 *)
  Fixpoint frame_from_traceback (tb : frame) (next : list frame) : frame := match next with [] => tb | f :: r => frame_from_traceback f r end.
  (** The loop of Traceback.__init__, trace_back.py 74-76 *)
  Fixpoint frames_of (p : policy) (f : frame) : res (list stack_frame) :=
    res_bind (stack_frame_of p f) (fun s =>
      match f with
      | Frame _ _ _ _ _ None => Ok [s]
      | Frame _ _ _ _ _ (Some back) => res_bind (frames_of p back) (fun r => Ok (s :: r))
      end).
  (** Traceback.__init__, trace_back.py 56-78: starting_frame, or the traceback in progress, or the current frame (that of __init__). *)
  Definition make_trace (p : policy) (starting_frame : option frame) (exc_info : option (frame * list frame)) (current : frame) (formatted : text) : res trace :=
    let f := match starting_frame with
             | None => match exc_info with Some (tb, next) => frame_from_traceback tb next | None => current end
             | Some f => f
             end in
    res_bind (frames_of p f) (fun l => Ok {| t_frames := l; t_formatted := formatted |}).
  Fixpoint frames_eq (a b : list stack_frame) : bool := match a, b with [], [] => true | x :: a', y :: b' => frame_eq x y && frames_eq a' b' | _, _ => false end.
  (** Traceback.__eq__, trace_back.py 80-81 *)
  Definition trace_eq (a b : trace) : bool := frames_eq (t_frames a) (t_frames b).
  (** Traceback.to_json, from_json, trace_back.py 110-121 *)
  Record trace_json := { tj_frames : list frame_json; tj_formatted : text }.
  Definition trace_to_json (t : trace) : trace_json := {| tj_frames := map frame_to_json (t_frames t); tj_formatted := t_formatted t |}.
  Definition trace_from_json (j : trace_json) : trace := {| t_frames := map frame_from_json (tj_frames j); t_formatted := tj_formatted j |}.
End World.
