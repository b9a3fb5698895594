(** A point load at the joint of two members. *)
From Verif Require Import Base LoadModel ElementModel BeamModel AnalysisModel AnalysisSpec.
Open Scope R_scope.
Local Open Scope list_scope.

(** Rows of a force [P] at the right end of member [k] (users count from 1), of length [L],
    and at the left end of the next member. *)
Definition at_end (k : nat) (P L : R) : row := Row (Z.of_nat k) 2 [P; L].
Definition at_start (k : nat) (P : R) : row := Row (Z.of_nat k + 1) 2 [P; 0].
