(** C64: an analysis is the solution of the beam problem ([ExactSpec]). *)
From Coquelicot Require Import Coquelicot.
From Coq Require Import Lia.
From Verif Require Import Base BaseFacts Linalg SectionModel LoadModel LoadSpec ElementModel ElementSpec ConstSectFacts UtilsModel BeamModel
  AnalysisModel AnalysisSpec AnalysisFacts3 ResultsModel ResultsSpec DetFacts2 ExactSpec ExactFacts3.
Open Scope R_scope.

(** Full claim: all beams of prismatic members under all loads.  Missing: pin-pin members
    (C04_pin_pin_refuted) and concentrated moments on shear-flexible members
    (C07_moment_load_refuted), for which it is false; imposed curvatures beyond quadratic.

    The displacements reported and the end forces of the members are those of a beam bent
    according to the theory... *)
Theorem C64_exact_partial : forall gl ill a npts check a' o, gauss_rule gl ->
  members (an_beam a) (an_n a) prismatic -> exact_loads (an_beam a) (an_n a) ->
  analyze_core gl ill a npts check = (a', Ok o) ->
  exists ef, bent_beam (an_beam a) (an_n a) (o_d o) ef /\
    forall m e, (m < an_n a)%nat -> member_forces gl (an_beam a) (o_d o) m = Ok e -> eq4 (ef m) e.
Proof. exact (fun gl ill a npts check a' o G => analysis_exact gl G ill a npts check a' o). Qed.
Print Assumptions C64_exact_partial.

(** ...every solution of the theory has these displacements and end forces... *)
Theorem C64_only_partial : forall gl ill a npts check a' o D ef, gauss_rule gl ->
  members (an_beam a) (an_n a) prismatic -> exact_loads (an_beam a) (an_n a) ->
  analyze_core gl ill a npts check = (a', Ok o) -> bent_beam (an_beam a) (an_n a) D ef ->
  (forall i, (i < an_ndof a)%nat -> D i = o_d o i) /\
  forall m e, (m < an_n a)%nat -> member_forces gl (an_beam a) (o_d o) m = Ok e -> eq4 (ef m) e.
Proof. exact (fun gl ill a npts check a' o D ef G => analysis_only gl G ill a npts check a' o D ef). Qed.
Print Assumptions C64_only_partial.

(** ...and the tables sample the shear and moment of the bent members. *)
Theorem C64_tables_partial : forall gl ill a sps npts check a' br i r e, gauss_rule gl ->
  an_n a = b_nspans (an_beam a) -> members (an_beam a) (an_n a) prismatic -> exact_loads (an_beam a) (an_n a) ->
  analyze gl ill a sps npts check = (a', Ok br) -> nth_error (br_mem br) i = Some r -> member_forces gl (an_beam a) (br_D br) i = Ok e ->
  exists V M, member_curves (node_x (an_beam a) i) r V M /\ member_bends (an_beam a) (br_D br) i e V M.
Proof. exact (fun gl ill a sps npts check a' br i r e G => tables_exact gl G ill a sps npts check a' br i r e). Qed.
Print Assumptions C64_tables_partial.

(** Two spans on a clamp, a roller and a spring; a settled simple span with a point load and an
    imposed curvature. *)
Example C64_nonvacuous : forall ill,
  (exists o, run sample_gl ill sample sample_A false = Ok o /\ members (set_loads sample_beam sample_A) 2 prismatic /\ exact_loads (set_loads sample_beam sample_A) 2) /\
  (exists o, snd (analyze_core sample_gl ill (curved 7 (Some 1) mixed_rows) None false) = Ok o /\
     members (curved_beam 7 (Some 1) mixed_rows) 1 prismatic /\ exact_loads (curved_beam 7 (Some 1) mixed_rows) 1).
Proof.
  intros ill. split.
  - destruct (sample_runs ill _ sample_A_wf) as (o & E). exists o. split; [exact E|]. split.
    + intros m mb Hm Em. assert (C : m = 0%nat \/ m = 1%nat) by lia.
      destruct C as [-> | ->]; cbv in Em; injection Em as <-; constructor; cbn; try lra; try lia; try reflexivity; try (eexists; split; [reflexivity|lra]); left; reflexivity.
    + intros m mb ls Hm Em El. injection El as <-. assert (C : m = 0%nat \/ m = 1%nat) by lia.
      destruct C as [-> | ->]; cbn [loads_of filter map fst snd]; cbn; repeat constructor.
  - assert (H7 : 0 < 7) by lra. destruct (mixed_refs sample_gl 7) as (r & Er).
    destruct (curved_core 7 (Some 1) H7 sample_gl ill mixed_rows [(0%Z, LPL 7 2); (0%Z, LIC [1; 2; 3] (Some (RConst 7)))] r gauss2_rule eq_refl Er) as (o & E).
    exists o. split; [exact E|]. split.
    + intros m mb Hm Em. destruct (curved_member _ _ _ _ _ Em) as (_ & ->). constructor; cbn; try lra; try lia; try reflexivity; try (eexists; split; [reflexivity|lra]); left; reflexivity.
    + intros m mb ls Hm Em El. destruct (curved_member _ _ _ _ _ Em) as (-> & ->). inversion El. cbn.
      constructor; [split; [split; cbn; [lra|exact I]|exact I]|]. constructor; [split; [split; exact I|cbn; lia]|constructor].
Qed.
