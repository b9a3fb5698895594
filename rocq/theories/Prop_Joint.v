(** C102: a point load at the joint of two members. *)
From Verif Require Import Base LoadModel ElementModel ElementSpec BeamModel BeamSpec AnalysisModel AnalysisSpec AnalysisFacts3 MechFacts JointSpec JointFacts.
Open Scope R_scope.
Local Open Scope list_scope.

(** C102: a force at a joint, given at the end of the left member or at the start of the right
    one, gives the same displacements and the same reported reactions and spring forces.
    Missing: the member tables (they differ at the joint), varying sections and foundations. *)
Theorem C102_joint_partial : forall gl ill a lm k P,
  members (an_beam a) (an_n a) (fun mb => sound_member mb /\ scalar_member mb) -> (S k < an_n a)%nat ->
  forall check check' o1 o2,
  run gl ill a (lm ++ [at_end (S k) P (span_length (an_beam a) k)]) check = Ok o1 ->
  run gl ill a (lm ++ [at_start (S k) P]) check' = Ok o2 ->
  forall i, (i < an_ndof a)%nat -> o_d o1 i = o_d o2 i /\ reported (an_beam a) o1 i = reported (an_beam a) o2 i.
Proof. exact joint. Qed.
Print Assumptions C102_joint_partial.
Example C102_nonvacuous : forall ill, exists o1 o2,
  run sample_gl ill sample (sample_A ++ [at_end 1 7 (span_length sample_beam 0)]) false = Ok o1 /\ run sample_gl ill sample (sample_A ++ [at_start 1 7]) false = Ok o2 /\
  members sample_beam 2 (fun mb => sound_member mb /\ scalar_member mb).
Proof. exact sample_joint. Qed.
