(** Model of satella/instrumentation/metrics/exporters/prometheus.py: metric_data_collection_to_prometheus and the HTTP handler.

    Texts are lists of characters. The values of labels and of metrics are given as the texts that str() makes of them, and timestamps as the integers
    int(timestamp * 1000). The set of values is a list, in the order in which it is iterated. *)
From Coq Require Import String Ascii ZArith DecimalString.
From Verif Require Import Prelude MetricData_Model.
Open Scope list_scope.
Open Scope nat_scope.
Set Implicit Arguments.

Definition text : Type := list ascii.
Definition lit (s : string) : text := list_ascii_of_string s.
Definition newline : ascii := ascii_of_nat 10.
(** MetricData (metrics/data.py:17-24), as far as it is rendered *)
Record datum : Type := mk_datum { name : text; labels : dict text text; value : text; millis : option Z; internal : bool }.

(** str.replace of one character by a text *)
Definition replace (c : ascii) (by_ : text) (t : text) : text := concat (map (fun x => if Ascii.eqb x c then by_ else [x]) t).
(** str(int) *)
Definition show_int (z : Z) : text := lit (NilEmpty.string_of_int (Z.to_int z)).
(** ','.join *)
Fixpoint join (l : list text) : text :=
  match l with [] => [] | [t] => t | t :: r => t ++ lit "," ++ join r end.
(** '%s="%s"' (prometheus.py:105-107) *)
Definition render_label (kv : text * text) : text :=
  fst kv ++ ["="%char; """"%char] ++ replace """"%char ["\"%char; """"%char] (replace "\"%char ["\"%char; "\"%char] (snd kv)) ++ [""""%char].
(** RendererObject.render (prometheus.py:97-112) *)
Definition render (d : datum) : text :=
  if internal d then [] else
  replace "."%char (lit "_") (name d)
  ++ (match labels d with [] => [] | l => lit "{" ++ join (map render_label l) ++ lit "}" end)
  ++ lit " " ++ value d
  ++ (match millis d with Some t => lit " " ++ show_int t | None => [] end)
  ++ [newline].
(** metric_data_collection_to_prometheus (prometheus.py:125-132) *)
Definition to_prometheus (l : list datum) : text :=
  match l with
  | [] => [newline]
  | _ => concat (map (fun d => if internal d then [] else render d) l)
  end.

(** add_labels of every value (metrics/data.py:26-29, 77-82); simplified: data that become equal by it are kept apart, while the set merges them *)
Definition text_eqb (a b : text) : bool := if list_eq_dec ascii_dec a b then true else false.
Definition labelled (extra : dict text text) (d : datum) : datum :=
  mk_datum (name d) (label_merge text_eqb (labels d) extra) (value d) (millis d) (internal d).
(** PrometheusHandler.do_GET (prometheus.py:15-28): the status and the body *)
Definition do_GET (path : text) (extra : dict text text) (l : list datum) : nat * option text :=
  if text_eqb path (lit "/metrics") then (200, Some (to_prometheus (map (labelled extra) l))) else (404, None).
