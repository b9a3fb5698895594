(** Independent specification of readings of an envelope at a coordinate. *)
From Coq Require Import String.
From Verif Require Import Base SectionModel LoadModel BeamModel AnalysisModel ResultsModel EnvelopeModel EnvelopeSpec EnvReadModel.
Open Scope R_scope.
Local Notation length := List.length.
Local Open Scope list_scope.

(** Moment and shear of one analysis at a coordinate, as its own results report them. *)
Definition moment_at (x : R) (r : bres) : R := read_at x (r_x (br_all r)) (r_M (br_all r)).
Definition shear_at (x : R) (r : bres) : R := read_at x (r_x (br_all r)) (r_V (br_all r)).

(** All analyses have the stations [xs], with a moment and a shear at each. *)
Definition on_stations (xs : list R) (vr : list bres) : Prop :=
  Forall (fun r => r_x (br_all r) = xs /\ length (r_M (br_all r)) = length xs /\ length (r_V (br_all r)) = length xs) vr.

(** [e.at(x)] gives these four values. *)
Definition reads (e : env) (x a b c d : R) : Prop :=
  env_at e x ["Mmax"; "Mmin"; "Vmax"; "Vmin"]%string = Ok [("Mmax", a); ("Mmin", b); ("Vmax", c); ("Vmin", d)]%string.
