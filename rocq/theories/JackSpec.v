(** Displacements prescribed at degrees of freedom without a rigid support. *)
From Verif Require Import Base ElementModel BeamModel AnalysisModel AnalysisSpec.
Open Scope R_scope.

(** A degree of freedom whose displacement is prescribed although no rigid support holds it
    there: something else (a jack) must. *)
Definition jacked (b : beam) (i : nat) : Prop := prescribed b i <> None /\ ~ restraint b i < 0.
