From Verif Require Import Prelude Dump_Model.
Set Implicit Arguments.

Definition the_exception (u : uncaught) : exn := match u with InThread e | InMain e => e end.
Definition calm (t : trouble) : Prop :=
  (forall p, open_ t p = None) /\ (forall s b, write_ t s b = None) /\ (forall s, flush_ t s = None \/ flush_ t s = Some AttributeError).
(** a target for reports, and one for pickles *)
Definition fit_report (a : as_stream) : Prop := match mode_of a with MFile _ => human_readable a = true | _ => True end.
Definition fit_pickle (a : as_stream) : Prop := match mode_of a with MFile _ => human_readable a = false | MStream _ => True | _ => False end.
Definition fit (h : handler) : Prop := Forall fit_report (hr h) /\ Forall fit_pickle (tb h).
(** how many times a stream is among the targets *)
Definition times_stream (s : nat) (l : list as_stream) : nat :=
  length (filter (fun a => match mode_of a with MStream x => Nat.eqb x s | _ => false end) l).
Definition has_file (p : path) (l : list as_stream) : bool :=
  existsb (fun a => match mode_of a with MFile q => path_eqb q p | _ => false end) l.
Definition levels (lg : nat) (l : list as_stream) : list nat :=
  flat_map (fun a => match mode_of a with MLogger x v => if Nat.eqb x lg then [v] else [] | _ => [] end) l.
(** what there should be after the exceptions [es] *)
Definition stream_after (h : handler) (s : nat) (es : list exn) : list content :=
  flat_map (fun e => repeat (Report (Some e)) (times_stream s (hr h)) ++ repeat (Pickled (Some e)) (times_stream s (tb h))) es.
Definition log_after (h : handler) (lg : nat) (es : list exn) : list (nat * option exn) :=
  flat_map (fun e => map (fun v => (v, Some e)) (levels lg (hr h))) es.
Definition file_after (h : handler) (p : path) (before : option (list content)) (es : list exn) : option (list content) :=
  match rev es with
  | [] => before
  | e :: _ => if has_file p (tb h) then Some [Pickled (Some e)] else if has_file p (hr h) then Some [Report (Some e)] else before
  end.
(** What a given thing is to be as a target; [text]: reports, not pickles. *)
Definition is_target (text : bool) (g : given) (a : as_stream) : Prop :=
  match g with
  | GReady b => a = b
  | GOther => False
  | _ => human_readable a = text /\
    match g with
    | GFile n => mode_of a = MFile (Name n)
    | GDir d => exists made_up, mode_of a = MFile (Within d made_up)
    | GStream s => mode_of a = MStream s
    | GLogger l => mode_of a = MLogger l 40
    | GLevel l v => mode_of a = MLogger l v
    | _ => mode_of a = MDevnull
    end
  end.
(** What goes wrong at one target: a file that does not open or has the wrong kind; a stream that cannot be flushed, or else not written to
    (having no flush() is no error); pickles to no place or to a logger. *)
Definition wrong (t : trouble) (text : bool) (a : as_stream) : list exn :=
  match mode_of a with
  | MFile p => match open_ t p with Some e => [e] | None => if Bool.eqb (human_readable a) text then [] else [TypeError] end
  | MStream s => match flush_ t s, write_ t s text with
                 | None, None | Some AttributeError, None => []
                 | None, Some e | Some AttributeError, Some e => [e]
                 | Some e, _ => [e]
                 end
  | MDevnull => if text then [] else [TypeError]
  | MLogger _ _ => if text then [] else [AttributeError]
  end.
