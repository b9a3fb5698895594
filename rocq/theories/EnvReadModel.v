(** Model of reading an envelope (src/pycba/results.py:617-650, 784-822). *)
From Coq Require Import String.
From Verif Require Import Base SectionModel LoadModel BeamModel AnalysisModel ResultsModel EnvelopeModel SpanModel.
Open Scope R_scope.
Local Notation length := List.length.
Local Open Scope list_scope.

(** results.py:789-822 [Envelopes.at], for attributes indexed by station; the dictionary is
    given as the list of its entries, a repeated name is repeated.  [values[unique_index]]
    raises IndexError when the array is shorter than the stations; that it is longer does not
    arise (all the arrays of an envelope have its number of stations). *)
Definition env_at (e : env) (x : R) (attrs : list string) : result (list (string * R)) :=
  mapM (fun s => do values <- station_attr e s;
                 if Nat.ltb (length values) (length (e_x e)) then Err IndexError
                 else Ok (s, read_at x (e_x e) values)) attrs.

(** results.py:617-650 [from_beam_analysis], given [beam_results] of the object. *)
Definition env_of_results (res : option bres) : result env :=
  match res with None => Err ValueError | Some r => env_init [r] end.
