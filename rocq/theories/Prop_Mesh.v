(** C65: an extra node in a span ([MeshSpec]) does not change the results. *)
From Coquelicot Require Import Coquelicot.
From Verif Require Import Base BaseFacts Linalg SectionModel LoadModel LoadSpec ElementModel ElementSpec ConstSectFacts UtilsModel BeamModel
  AnalysisModel AnalysisSpec AnalysisFacts3 ExactSpec MeshSpec MeshFacts3.
Open Scope R_scope.

(** Full claim: all prismatic beams under all loads.  Missing: what C64 misses (pin-pin members
    and concentrated moments on shear-flexible members, where the claim fails with C64).

    Displacements of the old nodes and end forces stay, and the new node moves as the span did
    at that place. *)
Theorem C65_extra_node_partial : forall gl ill ill2 a a2 k x np np2 ch ch2 r r2 o o2, gauss_rule gl ->
  node_inserted (an_beam a) (an_beam a2) (an_n a) k x -> an_n a2 = S (an_n a) ->
  members (an_beam a) (an_n a) prismatic -> exact_loads (an_beam a) (an_n a) -> exact_loads (an_beam a2) (an_n a2) ->
  analyze_core gl ill a np ch = (r, Ok o) -> analyze_core gl ill2 a2 np2 ch2 = (r2, Ok o2) ->
  (forall i, (i < an_ndof a)%nat -> o_d o2 (new_dof k i) = o_d o i) /\
  (forall m e e', (m < an_n a)%nat -> m <> k -> member_forces gl (an_beam a) (o_d o) m = Ok e -> member_forces gl (an_beam a2) (o_d o2) (new_member k m) = Ok e' -> eq4 e' e) /\
  (forall e e1 e2, member_forces gl (an_beam a) (o_d o) k = Ok e -> member_forces gl (an_beam a2) (o_d o2) k = Ok e1 -> member_forces gl (an_beam a2) (o_d o2) (S k) = Ok e2 ->
     e1 0%nat = e 0%nat /\ e1 1%nat = e 1%nat /\ e2 2%nat = e 2%nat /\ e2 3%nat = e 3%nat /\ moves_at (an_beam a) (o_d o) k e x (o_d o2 (2 * k + 2)%nat) (o_d o2 (2 * k + 3)%nat)).
Proof. exact (fun gl ill ill2 a a2 k x np np2 ch ch2 r r2 o o2 G => insertion gl G ill ill2 a a2 k x np np2 ch ch2 r r2 o o2). Qed.
Print Assumptions C65_extra_node_partial.

(** The reactions reported at the old nodes stay. *)
Theorem C65_reactions_partial : forall gl ill ill2 a a2 k x np np2 ch ch2 r r2 o o2, gauss_rule gl ->
  node_inserted (an_beam a) (an_beam a2) (an_n a) k x -> an_n a2 = S (an_n a) ->
  members (an_beam a) (an_n a) prismatic -> exact_loads (an_beam a) (an_n a) -> exact_loads (an_beam a2) (an_n a2) ->
  analyze_core gl ill a np ch = (r, Ok o) -> analyze_core gl ill2 a2 np2 ch2 = (r2, Ok o2) ->
  settles_supports (an_beam a) -> settles_supports (an_beam a2) ->
  forall i, (i < an_ndof a)%nat -> reported (an_beam a2) o2 (new_dof k i) = reported (an_beam a) o i.
Proof. exact (fun gl ill ill2 a a2 k x np np2 ch ch2 r r2 o o2 G => insertion_reactions gl G ill ill2 a a2 k x np np2 ch ch2 r r2 o o2). Qed.
Print Assumptions C65_reactions_partial.

(** A node inserted within a trapezoidal load on the second span. *)
Example C65_nonvacuous : forall ill,
  node_inserted (an_beam coarse) (an_beam fine) 2 1 3 /\ members (an_beam coarse) 2 prismatic /\ exact_loads (an_beam coarse) 2 /\ exact_loads (an_beam fine) 3 /\
  settles_supports (an_beam coarse) /\ settles_supports (an_beam fine) /\ analysis_init fine_ctor = Ok fine /\
  (exists o, snd (analyze_core sample_gl ill coarse None false) = Ok o) /\ (exists o, snd (analyze_core sample_gl ill fine None false) = Ok o).
Proof.
  exact (fun ill => conj fine_inserted (conj coarse_prismatic (conj coarse_loads (conj fine_loads (conj coarse_settles (conj fine_settles (conj fine_init
    (conj (coarse_runs ill) (fine_runs ill))))))))).
Qed.
