(** Python generators over a finite source.

    A generator that draws from an iterator is modelled by everything it does
    until it ends: the elements it yields, each with what is left in the source
    at that moment, how it ends, and what is left in the source then. A source is
    mostly a list, of the elements it has still to give. *)
From Verif Require Import Prelude.
Set Implicit Arguments.

Record gen (S B : Type) : Type := {
  yields : list (B * S);      (* yielded element, source left when it is yielded *)
  ends : option exn;               (* None: StopIteration as usual; Some: an exception *)
  source_left : S
}.
Arguments Build_gen {S B}.

(** the generator has run to its end / has raised *)
Definition gstop {S B} (rest : S) : gen S B := {| yields := []; ends := None; source_left := rest |}.
Definition graise {S B} (e : exn) (rest : S) : gen S B := {| yields := []; ends := Some e; source_left := rest |}.
(** [yield b], then go on as [g] *)
Definition gyield {S B} (b : B) (rest : S) (g : gen S B) : gen S B :=
  {| yields := (b, rest) :: yields g; ends := ends g; source_left := source_left g |}.
(** [list(g)] *)
Definition gen_list {S B} (g : gen S B) : res (list B) :=
  match ends g with None => Ok (map fst (yields g)) | Some e => Err e end.
(** PEP 479: StopIteration that leaves a generator's body is turned into
    RuntimeError *)
Definition StopIterationInGenerator : exn := RuntimeError.
Arguments gen : clear implicits.
