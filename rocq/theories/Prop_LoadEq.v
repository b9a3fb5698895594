(** Property C88: load matrices that describe the same loading give the same results. *)
From Coq Require Import ZArith Lia.
From Verif Require Import Base Linalg SectionModel FlexModel LoadModel ElementModel UtilsModel BeamModel AnalysisModel AnalysisFacts3 ResultsModel BedFacts4 LoadEqSpec LoadEqFacts6 LoadEqExample.
Open Scope R_scope.

(** C88.  The order of the rows, the way in which a uniform load or a ramp is described, and
    the number of rows into which a load is divided do not change any result: displacements,
    reactions and every entry of every table are the same. *)
Theorem C88_same_loading : forall gl ill a sps npts check A B a1 r,
  an_n a = b_nspans (an_beam a) -> same_loading (an_beam a) A B ->
  analyze gl ill (with_beam a (set_loads (an_beam a) A)) sps npts check = (a1, Ok r) ->
  exists a2, analyze gl ill (with_beam a (set_loads (an_beam a) B)) sps npts check = (a2, Ok r).
Proof. exact same_results. Qed.
Print Assumptions C88_same_loading.

(** C88.  A row of an unknown type, or on a member that the beam does not have, is not
    refused: the analysis goes through as if the row were not there. *)
Theorem C88_unplaced_refuted : forall gl ill a sps npts check x k r,
  an_n a = b_nspans (an_beam a) -> idle (an_beam a) x ->
  (exists a1, analyze gl ill (with_beam a (set_loads (an_beam a) (x :: k))) sps npts check = (a1, Ok r)) <->
  (exists a2, analyze gl ill (with_beam a (set_loads (an_beam a) k)) sps npts check = (a2, Ok r)).
Proof. exact idle_results. Qed.
Print Assumptions C88_unplaced_refuted.

Example C88_nonvacuous : forall ill sps, an_n AnalysisFacts3.sample = b_nspans (an_beam AnalysisFacts3.sample) /\
  same_loading (an_beam AnalysisFacts3.sample) told_one told_two /\ told_one <> told_two /\
  (exists a' r, analyze sample_gl ill (with_beam AnalysisFacts3.sample (set_loads (an_beam AnalysisFacts3.sample) told_one)) sps None false = (a', Ok r)) /\
  idle (an_beam AnalysisFacts3.sample) (Row 3 1 [10]) /\ idle (an_beam AnalysisFacts3.sample) (Row 1 7 [10]).
Proof.
  intros ill sps. split; [reflexivity|]. split; [exact told_same|]. split; [discriminate|]. split; [exact (told_runs ill sps)|].
  split; [apply idle_span; [right; cbn; lia|lia|cbn; lia]|apply idle_type; lia].
Qed.

(** A beam on an elastic foundation. *)
Example C88_bed_nonvacuous : forall gl ill sps, an_n bed_an = b_nspans (an_beam bed_an) /\ same_loading (an_beam bed_an) bed_one bed_two /\ bed_one <> bed_two /\
  exists a' r, analyze gl ill (with_beam bed_an (set_loads (an_beam bed_an) bed_one)) sps None false = (a', Ok r).
Proof. intros gl ill sps. split; [reflexivity|]. split; [exact bed_same|]. split; [discriminate|exact (bed_runs gl ill sps)]. Qed.
