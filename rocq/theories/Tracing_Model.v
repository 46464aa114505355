(** Tracing with OpenTracing (satella/opentracing/trace.py and exceptions.py). *)
From Coq Require Import String.
From Verif Require Import Prelude.
Set Implicit Arguments.
Local Open Scope string_scope.
Open Scope list_scope.

Section Function.
  Variables A V R : Type.                               (* arguments, values of tags, results *)
  Notation dict := (list (string * V)).
  (** a factory of a tag: called with the arguments, and with the tuple of them *)
  Record factory := { spread : A -> res V; single : A -> res V }.
  (** what the tracer and the function do, in order *)
  Inductive event := Start (tags : option dict) | Run (args : A) | Finish.

  (** satella/opentracing/trace.py:54-62, the loop over tags_factory *)
  Fixpoint build (fs : list (string * factory)) (args : A) (my_tags : dict) : res dict :=
    match fs with
    | [] => Ok my_tags
    | (key, f) :: t =>
      match spread f args with
      | Ok v => build t args (dset String.eqb my_tags key v)
      | Err TypeError => match single f args with Ok v => build t args (dset String.eqb my_tags key v) | Err e => Err e end
      | Err e => Err e
      end
    end.
  (** satella/opentracing/trace.py:46-64: one call of the decorated function. [tags] is the decorator's variable,
      shared by all calls; start_active_span ends the span on leaving, whatever happens. *)
  Definition call (factories : option (list (string * factory))) (fun_ : A -> res R) (tags : option dict) (args : A)
    : option dict * list event * res R :=
    match factories with
    | None => (tags, [Start tags; Run args; Finish], fun_ args)
    | Some fs =>
      let t0 := match tags with None => [] | Some d => d end in      (* 50-52: tags = {}; a copy is made *)
      match build fs args t0 with
      | Err e => (Some t0, [], Err e)
      | Ok my_tags => (Some t0, [Start (Some my_tags); Run args; Finish], fun_ args)
      end
    end.
  Fixpoint calls (factories : option (list (string * factory))) (fun_ : A -> res R) (tags : option dict) (l : list A)
    : list (list event * res R) :=
    match l with
    | [] => []
    | a :: t => let '(tags', ev, r) := call factories fun_ tags a in (ev, r) :: calls factories fun_ tags' t
    end.
End Function.

(** ** Futures *)
(** how a future ends *)
Inductive ending := Result | Exception (e : exn) | Cancelled.
(** a span: its attached exceptions, and whether it is finished *)
Record span := { attached : list exn; finished : bool }.
(** opentracing's Span._on_error: does nothing without an exception *)
Definition on_error (s : span) (exc : option exn) : span :=
  match exc with None => s | Some e => {| attached := attached s ++ [e]; finished := finished s |} end.
(** satella/opentracing/trace.py:85-91, close_future. [handled] is sys.exc_info(): the exception that the thread calling
    it is handling. fut.exception() of a cancelled future raises. *)
Definition close_future (handled : option exn) (how : ending) (s : span) : res span :=
  match how with
  | Cancelled => Err CancelledExn
  | Exception _ => let s' := on_error s handled in Ok {| attached := attached s'; finished := true |}
  | Result => Ok {| attached := attached s; finished := true |}
  end.
(** the span afterwards: an exception of a callback is only logged *)
Definition after (handled : option exn) (how : ending) (s : span) : span :=
  match close_future handled how s with Ok s' => s' | Err _ => s end.

(** ** trace_exception, satella/opentracing/exceptions.py:22-58 *)
(** an exception, with its traceback if there is one: as text *)
Record raised := { kind : exn; stack : option string }.
Inductive logged := Nothing | Logged (kind : exn) (stack : string).
(** [given] is exc_type to exc_tb; [limit] max_tb_length, [global] max_traceback_length *)
Definition trace_exception (has_span : bool) (given handled : option raised) (limit : option nat) (global : nat) : res logged :=
  if negb has_span then Ok Nothing else
  let max_ := match limit with Some (S n) => S n | _ => global end in     (* 40: "or" *)
  match (match given with Some x => Some x | None => handled end) with
  | None => Ok Nothing
  | Some x => match stack x with
              | None => Err AttributeError                                (* 47: exc_tb.tb_frame *)
              | Some tb => Ok (Logged (kind x) (if Nat.ltb max_ (String.length tb) then substring 0 max_ tb else tb))
              end
  end.
