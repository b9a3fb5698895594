(** C66: a beam seen from its other side ([MirrorSpec]) gives the mirrored results. *)
From Coquelicot Require Import Coquelicot.
From Verif Require Import Base BaseFacts Linalg SectionModel LoadModel LoadSpec ElementModel ElementSpec ConstSectFacts UtilsModel BeamModel
  AnalysisModel AnalysisSpec AnalysisFacts3 ExactSpec MirrorSpec MirrorFacts2.
Open Scope R_scope.

(** Full claim: all prismatic beams under all loads.  Missing: what C64 misses.

    Deflections and end shears are the same at the mirrored places, rotations and end moments
    of opposite sense. *)
Theorem C66_mirror_partial : forall gl ill ill2 a a2 np np2 ch ch2 r r2 o o2, gauss_rule gl ->
  mirrored (an_beam a) (an_beam a2) (an_n a) -> an_n a2 = an_n a ->
  members (an_beam a) (an_n a) prismatic -> exact_loads (an_beam a) (an_n a) -> exact_loads (an_beam a2) (an_n a2) ->
  analyze_core gl ill a np ch = (r, Ok o) -> analyze_core gl ill2 a2 np2 ch2 = (r2, Ok o2) ->
  (forall i, (i < an_ndof a)%nat -> o_d o2 (mirror_dof (an_n a) i) = sense i * o_d o i) /\
  (forall m e e' p, (m < an_n a)%nat -> member_forces gl (an_beam a) (o_d o) m = Ok e -> member_forces gl (an_beam a2) (o_d o2) (mirror_span (an_n a) m) = Ok e' ->
     (p < 4)%nat -> e' p = sense p * e (mirror_end p)).
Proof. exact (fun gl ill ill2 a a2 np np2 ch ch2 r r2 o o2 G => mirroring gl G ill ill2 a a2 np np2 ch ch2 r r2 o o2). Qed.
Print Assumptions C66_mirror_partial.

(** So are the reactions. *)
Theorem C66_reactions_partial : forall gl ill ill2 a a2 np np2 ch ch2 r r2 o o2, gauss_rule gl ->
  mirrored (an_beam a) (an_beam a2) (an_n a) -> an_n a2 = an_n a ->
  members (an_beam a) (an_n a) prismatic -> exact_loads (an_beam a) (an_n a) -> exact_loads (an_beam a2) (an_n a2) ->
  analyze_core gl ill a np ch = (r, Ok o) -> analyze_core gl ill2 a2 np2 ch2 = (r2, Ok o2) ->
  settles_supports (an_beam a) -> settles_supports (an_beam a2) ->
  forall i, (i < an_ndof a)%nat -> reported (an_beam a2) o2 (mirror_dof (an_n a) i) = sense i * reported (an_beam a) o i.
Proof. exact (fun gl ill ill2 a a2 np np2 ch ch2 r r2 o o2 G => mirroring_reactions gl G ill ill2 a a2 np np2 ch ch2 r r2 o o2). Qed.
Print Assumptions C66_reactions_partial.

(** A UDL, a trapezoid, a concentrated moment and an imposed curvature on two spans. *)
Example C66_nonvacuous : forall ill,
  mirrored (an_beam east) (an_beam west) 2 /\ members (an_beam east) 2 prismatic /\ exact_loads (an_beam east) 2 /\ exact_loads (an_beam west) 2 /\
  settles_supports (an_beam east) /\ settles_supports (an_beam west) /\ analysis_init west_ctor = Ok west /\
  (exists o, snd (analyze_core sample_gl ill east None false) = Ok o) /\ (exists o, snd (analyze_core sample_gl ill west None false) = Ok o).
Proof.
  exact (fun ill => conj west_mirrored (conj east_prismatic (conj east_loads (conj west_loads (conj east_settles (conj west_settles (conj west_init
    (conj (east_runs ill) (west_runs ill))))))))).
Qed.
