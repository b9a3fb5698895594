(** Independent specification of the accuracy of vehicle traverses. *)
From Verif Require Import Base SectionModel LoadModel LoadSpec ElementModel UtilsModel BeamModel BeamSpec AnalysisModel AnalysisSpec ResultsModel EnvelopeModel EnvelopeSpec
  VehicleModel VehicleSpec BridgeModel BridgeSpec LoadEqSpec.
Open Scope R_scope.

(** A member of any section without shear flexibility (the section changes on the member only),
    or one with one flexural and one shear rigidity. *)
Definition plain_member (mb : member) : Prop :=
  mb_GAv mb = None /\ marks_inside (mb_L mb) (mb_EI mb) \/ exists e g, mb_EI mb = RConst e /\ mb_GAv mb = Some (RConst g).
(** The deck is held vertically at both ends. *)
Definition ends_held (b : beam) : Prop := restraint b 0 < 0 /\ restraint b (2 * b_nspans b) < 0.

(** [r]: results with the static loads and the vehicle with its first axle at [p]. *)
Definition loaded_at (gl : nat -> list (R * R)) (ill : nat -> mat -> bool) (a : analysis) (v : vehicle) (static : list row) (sps : nat -> list R) (p : R) (r : bres) : Prop :=
  exists rows, axle_rows (an_beam a) v p rows /\ analysed_with gl ill a sps (static ++ rows)%list = Ok r.

(** Reaction of the held degree of freedom [i]. *)
Definition reaction_of (b : beam) (i : nat) (r : bres) : R := R_at (rank (fun j => Rltb (restraint b j) 0) i) r.
(** The held degrees of freedom other than the vertical ones of the two ends. *)
Definition inner_support (b : beam) (i : nat) : Prop :=
  (i < 2 * (b_nspans b + 1))%nat /\ restraint b i < 0 /\ i <> 0%nat /\ i <> (2 * b_nspans b)%nat.

(** Moments, and reactions of inner supports, of two analyses differ by at most [d]. *)
Definition within_of (b : beam) (d : R) (r r' : bres) : Prop :=
  (forall k, Rabs (M_at k r - M_at k r') <= d) /\ (forall i, inner_support b i -> Rabs (reaction_of b i r - reaction_of b i r') <= d).

(** The envelope [e] covers the results [r] up to [d]. *)
Definition covered (b : beam) (d : R) (e : env) (r : bres) : Prop :=
  (forall k, (k < e_npts e)%nat -> nth k (e_Mmin e) 0 - d <= M_at k r <= nth k (e_Mmax e) 0 + d) /\
  (forall i, inner_support b i -> let q := rank (fun j => Rltb (restraint b j) 0) i in (q < e_nsup e)%nat ->
     nth q (e_Rminval e) 0 - d <= reaction_of b i r <= nth q (e_Rmaxval e) 0 + d).

(** Total of the axle weights (their magnitudes). *)
Definition total_weight (v : vehicle) : R := lsum (map (fun ax => Rabs (snd ax)) (axles v)).
