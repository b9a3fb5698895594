(** The envelope of one analysis. *)
From Coq Require Import String Lia Lra.
From Verif Require Import Base BaseFacts Linalg SectionModel LoadModel BeamModel AnalysisModel AnalysisSpec ResultsModel ResultsSpec ResultsFacts EnvelopeModel EnvelopeSpec EnvelopeFacts ShapeFacts EnvReadModel EnvReadSpec EnvReadFacts.
Open Scope R_scope.
Local Notation length := List.length.
Local Open Scope list_scope.

Lemma own_none : env_of_results None = Err ValueError.
Proof. reflexivity. Qed.
Lemma own_envelope gl ill a sps npts check a' r : analyze gl ill a sps npts check = (a', Ok r) -> (0 < an_npts a')%nat -> sound_grid (an_beam a) ->
  exists e, env_of_results (Some r) = Ok e /\ e_nres e = 1%nat /\ e_x e = r_x (br_all r) /\ on_stations (e_x e) [r] /\ envelope_of [r] e.
Proof.
  intros EA P G. destruct (diagram_lengths _ _ _ _ _ _ _ _ EA P G) as (HM & HV).
  destruct (c21 (length (r_x (br_all r))) (length (br_R r)) [r]) as (e & E & N1 & N2 & N3 & H); [discriminate|repeat constructor; assumption|].
  destruct (init_parts [r] e E) as (r0 & t & E0 & X & _). injection E0 as <- <-.
  exists e. split; [exact E|]. split; [exact N3|]. split; [exact X|]. split; [|exact H]. rewrite X. repeat constructor; assumption.
Qed.
