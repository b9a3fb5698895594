(** Sample envelopes for C77. *)
From Coq Require Import String Lia Lra.
From Verif Require Import Base BaseFacts Linalg SectionModel LoadModel FoundationModel ElementModel ElementSpec BeamModel AnalysisModel AnalysisSpec AnalysisFacts3 ResultsModel ResultsSpec ResultsFacts ShapeFacts
  EnvelopeModel EnvelopeSpec EnvelopeFacts EnvReadModel EnvReadSpec EnvReadFacts SpanSample.
Open Scope R_scope.
Local Notation length := List.length.
Local Open Scope list_scope.

Lemma one_analysed gl ill a sps npts check a' r : analyze gl ill a sps npts check = (a', Ok r) -> (0 < an_npts a')%nat -> sound_grid (an_beam a) ->
  exists e, env_init [r] = Ok e /\ e_x e = r_x (br_all r) /\ e_npts e = length (r_x (br_all r)) /\ e_nsup e = length (br_R r) /\ on_stations (r_x (br_all r)) [r].
Proof.
  intros E P S. destruct (diagram_lengths _ _ _ _ _ _ _ _ E P S) as [A B].
  destruct (c21 (length (r_x (br_all r))) (length (br_R r)) [r]) as (e & Ee & N1 & N2 & _ & _); [discriminate|repeat constructor; assumption|].
  exists e. split; [exact Ee|]. destruct (init_parts _ _ Ee) as (r0 & t & EV & X & _). injection EV as <- <-. split; [exact X|]. split; [exact N1|]. split; [exact N2|]. repeat constructor; assumption.
Qed.
Lemma sample_other_beam gl ill : exists a1 a2 a1' a2' r1 r2 e1 e2 m, analysis_init (span_ctor 6 2) = Ok a1 /\ analysis_init (span_ctor 12 2) = Ok a2 /\
  analyze gl ill a1 (fun _ => []) None true = (a1', Ok r1) /\ analyze gl ill a2 (fun _ => []) None true = (a2', Ok r2) /\
  env_init [r1] = Ok e1 /\ env_init [r2] = Ok e2 /\ In 12 (e_x e2) /\ ~ In 12 (e_x e1) /\ augment e1 e2 = Ok m /\ e_x m = e_x e1.
Proof.
  destruct (span_results 6 ltac:(lra) gl ill 2) as (a1' & r1 & E1 & P1 & L1 & _ & B1 & R1). destruct (span_results 12 ltac:(lra) gl ill 2) as (a2' & r2 & E2 & P2 & L2 & I2 & _ & R2).
  destruct (one_analysed _ _ _ _ _ _ _ _ E1 ltac:(lia) (span_sound 6 ltac:(lra) 2)) as (e1 & H1 & X1 & N1 & S1 & _).
  destruct (one_analysed _ _ _ _ _ _ _ _ E2 ltac:(lia) (span_sound 12 ltac:(lra) 2)) as (e2 & H2 & X2 & N2 & S2 & _).
  destruct (proj2 (merge_counts e1 e2)) as (m & M); [split; congruence|].
  exists (span_an 6 2), (span_an 12 2), a1', a2', r1, r2, e1, e2, m. do 2 (split; [reflexivity|]). split; [exact E1|]. split; [exact E2|]. split; [exact H1|]. split; [exact H2|].
  split; [rewrite X2; exact I2|]. split; [rewrite X1; intros Q; specialize (B1 12 Q); lra|]. split; [exact M|].
  unfold augment in M. destruct (negb _ || negb _)%bool in M; [discriminate|]. injection M as M. rewrite <- M. reflexivity.
Qed.
Lemma sample_merged gl ill : exists a1 a2 r1 r2 a b m, snd (analyze gl ill a1 (fun _ => []) None true) = Ok r1 /\ snd (analyze gl ill a2 (fun _ => []) None true) = Ok r2 /\ analysis_init (span_ctor 6 2) = Ok a1 /\ analysis_init (span_ctor 6 (-2)) = Ok a2 /\
  env_init [r1] = Ok a /\ env_init [r2] = Ok b /\ augment a b = Ok m /\ on_stations (e_x a) ([r1] ++ [r2]) /\
  (exists k, first_station (e_x a) 6 k) /\ (0 < length (e_x a))%nat /\ exists e, env_init [r1; r2] = Ok e /\ on_stations (e_x e) [r1; r2].
Proof.
  destruct (span_results 6 ltac:(lra) gl ill 2) as (a1' & r1 & E1 & P1 & L1 & I1 & _ & R1). destruct (span_results 6 ltac:(lra) gl ill (-2)) as (a2' & r2 & E2 & P2 & L2 & _ & _ & R2).
  destruct (one_analysed _ _ _ _ _ _ _ _ E1 ltac:(lia) (span_sound 6 ltac:(lra) 2)) as (e1 & H1 & X1 & N1 & S1 & O1).
  destruct (one_analysed _ _ _ _ _ _ _ _ E2 ltac:(lia) (span_sound 6 ltac:(lra) (-2))) as (e2 & H2 & X2 & N2 & S2 & O2).
  destruct (proj2 (merge_counts e1 e2)) as (m & M); [split; congruence|].
  destruct (same_shape _ _ _ _ _ _ _ _ _ [Row 1 1 [-2]] _ _ _ _ E1 E2 eq_refl eq_refl ltac:(congruence)) as [X _].
  assert (O : on_stations (r_x (br_all r1)) [r1; r2]).
  { unfold on_stations in *. constructor; [inversion O1; assumption|]. rewrite <- X. exact O2. }
  destruct (c21 103 4 [r1; r2]) as (e & Ee & _); [discriminate| |].
  { unfold compatible. unfold on_stations in O. inversion O as [|? ? (Q1 & Q2 & Q3) T]. inversion T as [|? ? (Q4 & Q5 & Q6) _]. subst. repeat constructor; congruence. }
  exists (span_an 6 2), (span_an 6 (-2)), r1, r2, e1, e2, m. split; [rewrite E1; reflexivity|]. split; [rewrite E2; reflexivity|]. do 2 (split; [reflexivity|]). split; [exact H1|]. split; [exact H2|]. split; [exact M|]. split; [rewrite X1; exact O|]. split; [rewrite X1; apply first_of, I1|]. split; [rewrite X1, L1; lia|].
  exists e. split; [exact Ee|]. destruct (init_parts _ _ Ee) as (r0 & t & EV & Xe & _). injection EV as <- <-. rewrite Xe. exact O.
Qed.
Lemma sample_left_end : exists c a a' r f e, analysis_init c = Ok a /\ analyze sample_gl (fun _ _ => false) a (fun _ => []) None false = (a', Ok r) /\
  member_forces sample_gl (an_beam a) (br_D r) 0 = Ok f /\ - f 1%nat = -6 /\ env_init [r] = Ok e /\ reads e 0 0 0 0 0.
Proof.
  destruct (ff_results sample_gl (fun _ _ => false) (fun _ => [])) as (a' & r & f & E & EP & Ee & E1).
  assert (SG : sound_grid (an_beam ff)) by (intros i mb _ Hm; destruct (ff_member i mb Hm) as (_ & _ & _ & K & L & _); split; [lra|exact K]).
  destruct (one_analysed _ _ _ _ _ _ _ _ E ltac:(lia) SG) as (e & H1 & X1 & _ & _ & O1).
  exists ff_ctor, ff, a', r, f, e. split; [reflexivity|]. split; [exact E|]. split; [exact Ee|]. split; [rewrite E1; lra|]. split; [exact H1|].
  apply (at_left_end sample_gl (fun _ _ => false) [r] e); [|exact H1|rewrite X1; exact O1].
  intros r' [<-|[]]. exists ff, (fun _ => []), None, false, a'. split; [exact E|]. split; [lia|]. split; [exact SG|]. cbn. lia.
Qed.
Lemma own_sample gl ill : exists a a' r, analysis_init (span_ctor 6 2) = Ok a /\ analyze gl ill a (fun _ => []) None true = (a', Ok r) /\ (0 < an_npts a')%nat /\ sound_grid (an_beam a).
Proof.
  destruct (span_results 6 ltac:(lra) gl ill 2) as (a1' & r1 & E1 & P1 & _). exists (span_an 6 2), a1', r1.
  split; [reflexivity|]. split; [exact E1|]. split; [lia|]. exact (span_sound 6 ltac:(lra) 2).
Qed.
