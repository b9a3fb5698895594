(** C79: stiffening a beam ([StiffSpec]) does not increase what forces at its nodes do. *)
From Verif Require Import Base BaseFacts Linalg SectionModel LoadModel ElementModel ElementSpec UtilsModel BeamModel AnalysisModel
  AnalysisSpec AnalysisFacts3 StiffSpec StiffFacts2 StiffExample.
Open Scope R_scope.

(** Forces at nodes (downward positive, deflections upward positive) never do negative work:
    under one force the node never moves against it. *)
Theorem C79_sense : forall gl ill a fs check o, gauss_rule gl -> no_settlement (an_beam a) ->
  members (an_beam a) (an_n a) plain_member -> Forall (fun f => (fst f < an_n a)%nat) fs ->
  run gl ill a (node_forces fs) check = Ok o ->
  lsum (map (fun f => snd f * o_d o (2 * fst f)%nat) fs) <= 0.
Proof. exact stiffening_sense. Qed.
Print Assumptions C79_sense.

(** Raising rigidities, dropping shear flexibility, removing releases, stiffening springs and
    holding further DOFs never lets one force move its node further... *)
Theorem C79_one_force : forall gl ill a a' j P check check' o o', gauss_rule gl -> an_n a' = an_n a ->
  stiffened (an_beam a) (an_beam a') (an_n a) -> no_settlement (an_beam a) -> no_settlement (an_beam a') ->
  members (an_beam a) (an_n a) plain_member -> members (an_beam a') (an_n a) plain_member ->
  (j < an_n a)%nat -> 0 < P -> run gl ill a (node_force P j) check = Ok o -> run gl ill a' (node_force P j) check' = Ok o' ->
  o_d o (2 * j)%nat <= o_d o' (2 * j)%nat <= 0.
Proof. exact stiffening_one. Qed.
Print Assumptions C79_one_force.

(** ...and never lets several forces do more work. *)
Theorem C79_forces : forall gl ill a a' fs check check' o o', gauss_rule gl -> an_n a' = an_n a ->
  stiffened (an_beam a) (an_beam a') (an_n a) -> no_settlement (an_beam a) -> no_settlement (an_beam a') ->
  members (an_beam a) (an_n a) plain_member -> members (an_beam a') (an_n a) plain_member ->
  Forall (fun f => (fst f < an_n a)%nat) fs ->
  run gl ill a (node_forces fs) check = Ok o -> run gl ill a' (node_forces fs) check' = Ok o' ->
  Rabs (lsum (map (fun f => snd f * o_d o' (2 * fst f)%nat) fs)) <= Rabs (lsum (map (fun f => snd f * o_d o (2 * fst f)%nat) fs)).
Proof. exact stiffening_total. Qed.
Print Assumptions C79_forces.

Example C79_nonvacuous : forall ill,
  analysis_init (prop_ctor 2 (GAll (RConst 7)) 1 0) = Ok weak /\ analysis_init (prop_ctor 5 GNone 3 (-1)) = Ok strong /\
  stiffened (an_beam weak) (an_beam strong) 2 /\ no_settlement (an_beam weak) /\ no_settlement (an_beam strong) /\
  members (an_beam weak) 2 plain_member /\ members (an_beam strong) 2 plain_member /\ Forall (fun f => (fst f < 2)%nat) two_forces /\
  (exists o, run sample_gl ill weak (node_forces two_forces) false = Ok o) /\ (exists o, run sample_gl ill strong (node_forces two_forces) false = Ok o).
Proof.
  intros ill. repeat apply conj.
  - exact weak_init.
  - exact strong_init.
  - exact weak_strong.
  - apply prop_unsettled.
  - apply prop_unsettled.
  - intros m mb Hm E. exact (proj1 (weak_plain [] m mb Hm E)).
  - intros m mb Hm E. exact (proj1 (strong_plain [] m mb Hm E)).
  - repeat constructor.
  - apply weak_runs.
  - apply strong_runs.
Qed.

(** C15 with members whose rigidities vary along the span. *)
Theorem C15_maxwell_varying : forall gl ill a P i j check oi oj, gauss_rule gl -> no_settlement (an_beam a) ->
  members (an_beam a) (an_n a) plain_member -> (i < an_n a)%nat -> (j < an_n a)%nat ->
  run gl ill a (node_force P i) check = Ok oi -> run gl ill a (node_force P j) check = Ok oj ->
  P <> 0 -> o_d oi (2 * j)%nat = o_d oj (2 * i)%nat.
Proof. exact maxwell_plain. Qed.
Print Assumptions C15_maxwell_varying.
