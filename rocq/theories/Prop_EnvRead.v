(** C77: reading an envelope at a coordinate. *)
From Coq Require Import String Lia Lra.
From Verif Require Import Base BaseFacts Linalg SectionModel LoadModel FoundationModel ElementModel ElementSpec BeamModel AnalysisModel AnalysisSpec AnalysisFacts3 ResultsModel ResultsSpec ResultsFacts ShapeFacts
  EnvelopeModel EnvelopeSpec EnvReadModel EnvReadSpec EnvReadFacts EnvReadFacts2 SpanSample EnvReadExample.
Open Scope R_scope.
Local Notation length := List.length.
Local Open Scope list_scope.

(** C77: at a station an envelope reads the extremes, zero included, of what the results of
    the analyses themselves read there... *)
Theorem C77_station : forall vr e x k, env_init vr = Ok e -> on_stations (e_x e) vr -> first_station (e_x e) x k ->
  exists a b c d, reads e x a b c d /\ largest (moment_at x) vr a /\ smallest (moment_at x) vr b /\ largest (shear_at x) vr c /\ smallest (shear_at x) vr d.
Proof. exact at_station. Qed.
Print Assumptions C77_station.

(** ...its coincident values are those of an analysis that attains the extreme... *)
Theorem C77_coincident : forall vr e x k, env_init vr = Ok e -> on_stations (e_x e) vr -> first_station (e_x e) x k ->
  exists a b c d a' b' c' d', reads e x a b c d /\
  env_at e x ["Vco_Mmax"; "Vco_Mmin"; "Mco_Vmax"; "Mco_Vmin"]%string = Ok [("Vco_Mmax", a'); ("Vco_Mmin", b'); ("Mco_Vmax", c'); ("Mco_Vmin", d')]%string /\
  companion (moment_at x) (shear_at x) vr a a' /\ companion (moment_at x) (shear_at x) vr b b' /\
  companion (shear_at x) (moment_at x) vr c c' /\ companion (shear_at x) (moment_at x) vr d d'.
Proof. exact at_companion. Qed.
Print Assumptions C77_coincident.

(** ...anywhere, between stations and off the beam, it bounds what the results of each
    analysis read there... *)
Theorem C77_bounds : forall vr e x, env_init vr = Ok e -> on_stations (e_x e) vr ->
  exists a b c d, reads e x a b c d /\ b <= 0 <= a /\ d <= 0 <= c /\ forall r, In r vr -> b <= moment_at x r <= a /\ d <= shear_at x r <= c.
Proof. exact at_bounds. Qed.
Print Assumptions C77_bounds.

(** ...and two envelopes merged read, at a station, the extremes over the analyses of both. *)
Theorem C77_merged : forall A B a b m x k, env_init A = Ok a -> env_init B = Ok b -> augment a b = Ok m -> on_stations (e_x a) (A ++ B) -> first_station (e_x a) x k ->
  exists p q r s, reads m x p q r s /\ largest (moment_at x) (A ++ B) p /\ smallest (moment_at x) (A ++ B) q /\ largest (shear_at x) (A ++ B) r /\ smallest (shear_at x) (A ++ B) s.
Proof. exact merged_station. Qed.
Print Assumptions C77_merged.

(** Two analyses of one span, under a load and under its opposite. *)
Example C77_nonvacuous : forall gl ill, exists a1 a2 r1 r2 a b m, snd (analyze gl ill a1 (fun _ => []) None true) = Ok r1 /\ snd (analyze gl ill a2 (fun _ => []) None true) = Ok r2 /\ analysis_init (span_ctor 6 2) = Ok a1 /\ analysis_init (span_ctor 6 (-2)) = Ok a2 /\
  env_init [r1] = Ok a /\ env_init [r2] = Ok b /\ augment a b = Ok m /\ on_stations (e_x a) ([r1] ++ [r2]) /\
  (exists k, first_station (e_x a) 6 k) /\ (0 < length (e_x a))%nat /\ exists e, env_init [r1; r2] = Ok e /\ on_stations (e_x e) [r1; r2].
Proof. exact sample_merged. Qed.

(** What an envelope reads at the left end is zero, whatever the analyses... *)
Theorem C77_left_end : forall gl ill vr e,
  (forall r, In r vr -> exists a sps npts check a', analyze gl ill a sps npts check = (a', Ok r) /\ (0 < an_npts a')%nat /\ sound_grid (an_beam a) /\ (0 < b_nspans (an_beam a))%nat) ->
  env_init vr = Ok e -> on_stations (e_x e) vr -> reads e 0 0 0 0 0.
Proof. exact at_left_end. Qed.
Print Assumptions C77_left_end.

(** ...the moment at the support of a span fixed at that end among them (full claim of the
    theorems above: the extremes of the moments of the beam; what is read of the results
    themselves is wrong there, see C49). *)
Theorem C77_left_end_refuted : exists c a a' r f e, analysis_init c = Ok a /\ analyze sample_gl (fun _ _ => false) a (fun _ => []) None false = (a', Ok r) /\
  member_forces sample_gl (an_beam a) (br_D r) 0 = Ok f /\ - f 1%nat = -6 /\ env_init [r] = Ok e /\ reads e 0 0 0 0 0.
Proof. exact sample_left_end. Qed.
Print Assumptions C77_left_end_refuted.

(** Envelopes are merged when they have as many stations and reactions, and else not... *)
Theorem C77_merge_counts : forall a b, (exists m, augment a b = Ok m) <-> e_npts a = e_npts b /\ e_nsup a = e_nsup b.
Proof. exact merge_counts. Qed.
Print Assumptions C77_merge_counts.

(** ...so the documented ValueError for envelopes that are not of the same beam is not raised:
    those of a span of 6 and of a span of 12 are merged, on the stations of the first. *)
Theorem C77_other_beam_refuted : forall gl ill, exists a1 a2 a1' a2' r1 r2 e1 e2 m, analysis_init (span_ctor 6 2) = Ok a1 /\ analysis_init (span_ctor 12 2) = Ok a2 /\
  analyze gl ill a1 (fun _ => []) None true = (a1', Ok r1) /\ analyze gl ill a2 (fun _ => []) None true = (a2', Ok r2) /\
  env_init [r1] = Ok e1 /\ env_init [r2] = Ok e2 /\ In 12 (e_x e2) /\ ~ In 12 (e_x e1) /\ augment e1 e2 = Ok m /\ e_x m = e_x e1.
Proof. exact sample_other_beam. Qed.
Print Assumptions C77_other_beam_refuted.

(** The envelope of one analysis object holds the extremes of that one analysis, on its
    stations; an object not analysed yet has none. *)
Theorem C77_own : forall gl ill a sps npts check a' r, analyze gl ill a sps npts check = (a', Ok r) -> (0 < an_npts a')%nat -> sound_grid (an_beam a) ->
  exists e, env_of_results (Some r) = Ok e /\ e_nres e = 1%nat /\ e_x e = r_x (br_all r) /\ on_stations (e_x e) [r] /\ envelope_of [r] e.
Proof. exact own_envelope. Qed.
Print Assumptions C77_own.
Theorem C77_own_none : env_of_results None = Err ValueError.
Proof. exact own_none. Qed.
Print Assumptions C77_own_none.
Example C77_own_nonvacuous : forall gl ill, exists a a' r, analysis_init (span_ctor 6 2) = Ok a /\ analyze gl ill a (fun _ => []) None true = (a', Ok r) /\ (0 < an_npts a')%nat /\ sound_grid (an_beam a).
Proof. exact own_sample. Qed.
