(** Property theorems: axle placement (C35), vehicle traverses (C36), lane loads (C37, C32),
    critical values (C38), shear sections (C55), envelope ratios (C56). *)
From Coq Require Import Lia ZArith Sorted.
From Verif Require Import Base Linalg SectionModel LoadModel LoadSpec FoundationModel ElementModel UtilsModel BeamModel BeamSpec AnalysisModel AnalysisSpec ResultsModel ResultsSpec ResultsFacts
  EnvelopeModel EnvelopeSpec VehicleModel VehicleSpec VehicleFacts LoadCasesModel LoadCasesSpec BridgeModel BridgeSpec BridgeFacts BridgeFacts2 BridgeFacts3 BridgeFacts4 RatioFacts.
Open Scope R_scope.

(** Constructed beams with positive span lengths are decks. *)
Theorem C35_constructed : forall c b, beam_init c = Ok b -> (1 <= b_nspans b)%nat -> Forall (Rlt 0) (b_lengths b) -> deck b.
Proof. exact constructed_deck. Qed.
Print Assumptions C35_constructed.
Example ff_is_deck : deck (an_beam ff) /\ bridge_model ff.
Proof. exact (conj (bm_deck _ ff_bridge) ff_bridge). Qed.

(** C35: one point load for each axle on the deck, with its weight and at its position, and no
    other; the rows are determined by this, and their sum is the weight on the deck. *)
Theorem C35_axles : forall b v pos, deck b -> exists rows, axle_LM b v pos = Ok rows /\ axle_rows b v pos rows /\
  (forall rows', axle_rows b v pos rows' -> rows' = rows) /\
  lsum (map row_force rows) = lsum (map snd (on_deck b (axles_at v pos))).
Proof. exact axles_spec. Qed.
Print Assumptions C35_axles.
(** A vehicle that is on the deck as a whole loads it with its whole weight. *)
Theorem C35_whole_vehicle : forall b v pos rows, axle_rows b v pos rows -> (forall p, In p (axles_at v pos) -> 0 <= fst p <= deck_length b) ->
  length rows = length (axles v) /\ lsum (map row_force rows) = lsum (map snd (axles v)).
Proof. exact axle_rows_all. Qed.
Print Assumptions C35_whole_vehicle.
(** The front axle of the truck at 5 m: the second axle at 1 m, the last one not yet on. *)
Example C35_nonvacuous : axle_rows (an_beam ff) truck 5 [Row 1 2 [35; 5; 0]; Row 1 2 [145; 1; 0]].
Proof.
  unfold axle_rows, on_deck, axles_at, axles. cbn [truck v_coords v_axw combine map fst snd filter]. rewrite ff_length. unfold within.
  destruct (Rle_dec 0 (5 - 0)); [|lra]. destruct (Rle_dec (5 - 0) 6); [|lra]. destruct (Rle_dec 0 (5 - (0 + 4))); [|lra]. destruct (Rle_dec (5 - (0 + 4)) 6); [|lra].
  destruct (Rle_dec 0 (5 - (0 + 4 + 6))); [lra|].
  apply Forall2_cons; [|apply Forall2_cons; [|constructor]]; [exists 0%nat, 5|exists 0%nat, 1]; cbn [snd fst]; (split; [reflexivity|]); (split; [cbn; lia|]);
    (split; [unfold node_at; cbn; ring|]); (split; [lra|]); left; cbn; lra.
Qed.

(** C36: a successful run analyses the evenly spaced positions from the start to within half a
    step of the end, each with the static loads and the axles at that position on the model
    given, and nothing else. *)
Theorem C36_traverse : forall gl ill g a v step pstart pend sp dv g' e, bg_ba g = Some a -> bg_veh g = Some v -> bridge_model a ->
  run_vehicle gl ill g step pstart pend sp dv = (g', Ok e) ->
  exists k sps, shear_sections (an_beam a) sp dv sps (bg_spx g') /\ traversed gl ill (axle_loads v) g a v step pstart pend sps g' e k.
Proof. exact vehicle_traversed. Qed.
Print Assumptions C36_traverse.
(** The run succeeds if the analyses do. *)
Theorem C36_completes : forall gl ill g a v step pstart pend sp dv k, bg_ba g = Some a -> bg_veh g = Some v -> bridge_model a -> (2 * b_nspans (an_beam a) < length (b_R (an_beam a)))%nat ->
  step <> 0 -> Rabs (given (deck_length (an_beam a) + v_L v) pend - (given 0 pstart + INR k * step)) < Rabs step / 2 ->
  (forall sps pts p rows, shear_sections (an_beam a) sp dv sps pts -> In p (positions (given 0 pstart) step k) -> axle_rows (an_beam a) v p rows ->
     exists r, analysed_with gl ill a sps (bg_static g ++ rows)%list = Ok r) ->
  exists g' e, run_vehicle gl ill g step pstart pend sp dv = (g', Ok e).
Proof. exact vehicle_completes. Qed.
Print Assumptions C36_completes.
Example C36_nonvacuous : forall gl ill sp dv, exists g' e, run_vehicle gl ill ff_bridge0 4 None None sp dv = (g', Ok e).
Proof. exact ff_run. Qed.
(** Otherwise the exception of the first position that fails is raised. *)
Theorem C36_first_failure : forall gl ill g a v step pstart pend sp dv k j x rows sps, bg_ba g = Some a -> bg_veh g = Some v -> bridge_model a -> (2 * b_nspans (an_beam a) < length (b_R (an_beam a)))%nat ->
  step <> 0 -> Rabs (given (deck_length (an_beam a) + v_L v) pend - (given 0 pstart + INR k * step)) < Rabs step / 2 ->
  sp = SpDict sps -> (j <= k)%nat ->
  (forall i rw, (i < j)%nat -> axle_rows (an_beam a) v (given 0 pstart + INR i * step) rw -> exists r, analysed_with gl ill a sps (bg_static g ++ rw)%list = Ok r) ->
  axle_rows (an_beam a) v (given 0 pstart + INR j * step) rows -> analysed_with gl ill a sps (bg_static g ++ rows)%list = Err x ->
  snd (run_vehicle gl ill g step pstart pend sp dv) = Err x.
Proof. exact vehicle_fails. Qed.
Print Assumptions C36_first_failure.
(** Steps away from the end are refused, and so is a run without a bridge or vehicle. *)
Theorem C36_backwards : forall gl ill g a v step pstart pend sp dv, bg_ba g = Some a -> bg_veh g = Some v -> bridge_model a -> (2 * b_nspans (an_beam a) < length (b_R (an_beam a)))%nat ->
  step <> 0 -> (given (deck_length (an_beam a) + v_L v) pend - given 0 pstart) / step < -1/2 ->
  snd (run_vehicle gl ill g step pstart pend sp dv) = Err IndexError.
Proof. exact vehicle_backwards. Qed.
Print Assumptions C36_backwards.
Example C36_backwards_nonvacuous : forall gl ill, snd (run_vehicle gl ill ff_bridge0 (-1) None None (SpPoints None) None) = Err IndexError.
Proof.
  intros gl ill. apply (C36_backwards gl ill ff_bridge0 ff truck (-1) None None _ _ eq_refl eq_refl ff_bridge); [cbn; lia|lra|]. rewrite ff_length. cbn [given truck v_L]. lra.
Qed.
Theorem C36_missing : forall gl ill g step pstart pend sp dv, bg_ba g = None \/ bg_veh g = None -> run_vehicle gl ill g step pstart pend sp dv = (g, Err ValueError).
Proof. exact vehicle_missing. Qed.
Print Assumptions C36_missing.
(** A zero step is refused too, but the shear points stay armed on the analysis. *)
Theorem C36_zero_step : forall gl ill g a v pstart pend sp dv sps pts, bg_ba g = Some a -> bg_veh g = Some v -> apply_shear_points (an_beam a) sp dv = Ok (sps, pts) ->
  snd (run_vehicle gl ill g 0 pstart pend sp dv) = Err ZeroDivisionError /\ bg_sps (fst (run_vehicle gl ill g 0 pstart pend sp dv)) = sps.
Proof. exact zero_step. Qed.
Print Assumptions C36_zero_step.
(** The analysis keeps the axles of the last position: a bridge analysis made from it takes
    them as static loads, so that runs of different objects are not independent. *)
Theorem C36_reused_analysis_refuted : forall gl ill, exists g g' e a', g = bridge_init (Some ff) (Some truck) /\
  run_vehicle gl ill g 4 None None (SpPoints None) None = (g', Ok e) /\ bg_ba g' = Some a' /\
  bg_static g = [Row 1 1 [2]] /\ bg_static (bridge_init (Some a') (Some truck)) = [Row 1 1 [2]; Row 1 2 [140; 6; 0]].
Proof. intros gl ill. destruct (ff_reused gl ill) as (g' & e & a' & H). exists ff_bridge0, g', e, a'. split; [reflexivity|exact H]. Qed.
Print Assumptions C36_reused_analysis_refuted.

(** C37: a load-model run adds the lane load to the axles of each position: the whole deck, or
    the deck outside the vehicle and its clearances. *)
Theorem C37_traverse : forall gl ill g a v step w c pstart pend sp dv g' e, bg_ba g = Some a -> bg_veh g = Some v -> bridge_model a ->
  Forall (Rlt length_tol) (b_lengths (an_beam a)) -> 0 <= v_L v ->
  run_load_model gl ill g step w c pstart pend sp dv = (g', Ok e) ->
  exists k sps, shear_sections (an_beam a) sp dv sps (bg_spx g') /\ traversed gl ill (axle_lane_loads v c w) g a v step pstart pend sps g' e k.
Proof. exact model_traversed. Qed.
Print Assumptions C37_traverse.
Theorem C37_completes : forall gl ill g a v step w c pstart pend sp dv k, bg_ba g = Some a -> bg_veh g = Some v -> bridge_model a -> (2 * b_nspans (an_beam a) < length (b_R (an_beam a)))%nat ->
  Forall (Rlt length_tol) (b_lengths (an_beam a)) -> 0 <= v_L v ->
  step <> 0 -> Rabs (given (deck_length (an_beam a) + v_L v) pend - (given 0 pstart + INR k * step)) < Rabs step / 2 -> (exists bf, validate_clearances c = Ok bf) ->
  (forall sps pts p rows, shear_sections (an_beam a) sp dv sps pts -> In p (positions (given 0 pstart) step k) -> axle_lane_loads v c w (an_beam a) p rows ->
     exists r, analysed_with gl ill a sps (bg_static g ++ rows)%list = Ok r) ->
  exists g' e, run_load_model gl ill g step w c pstart pend sp dv = (g', Ok e).
Proof. exact model_completes. Qed.
Print Assumptions C37_completes.
Example C37_nonvacuous : forall gl ill sp dv, exists g' e, run_load_model gl ill ff_bridge0 4 10 (ClPair 1 2) None None sp dv = (g', Ok e).
Proof. exact ff_model_run. Qed.
(** The lane load of one position. *)
Theorem C37_lane : forall b v c bf w pos, deck b -> Forall (Rlt length_tol) (b_lengths b) -> 0 <= v_L v -> validate_clearances c = Ok bf ->
  lane b v c w pos (lane_rows b v c bf w pos).
Proof. exact lane_spec. Qed.
Print Assumptions C37_lane.
(** Negative and malformed clearances are refused and change nothing; others are accepted. *)
Theorem C37_clearances_rejected : forall gl ill g step w c pstart pend sp dv, (c = ClBad \/ exists b f, c = ClPair b f /\ (b < 0 \/ f < 0)) ->
  run_load_model gl ill g step w c pstart pend sp dv = (g, Err ValueError).
Proof. exact clearances_rejected. Qed.
Print Assumptions C37_clearances_rejected.
Theorem C37_clearances_accepted : forall c, (c = ClNone \/ exists b f, c = ClPair b f /\ 0 <= b /\ 0 <= f) -> exists bf, validate_clearances c = Ok bf.
Proof. exact clearances_accepted. Qed.
Print Assumptions C37_clearances_accepted.

(** C32, lane loads: the rows for an interval load its part of each span with the intensity,
    up to 1e-9 at the ends of the interval, and nothing outside it. *)
Theorem C32_lane_interval : forall b xa xb w, deck b -> Forall (Rlt length_tol) (b_lengths b) ->
  Forall (udl_row b w) (interval_udl_LM b xa xb w) /\
  forall i x, (i < b_nspans b)%nat -> 0 < x < nth i (b_lengths b) 0 ->
  (xa + length_tol < node_at b i + x < xb - length_tol -> loading (b_lengths b) (interval_udl_LM b xa xb w) i x = w) /\
  (node_at b i + x < xa \/ xb < node_at b i + x -> loading (b_lengths b) (interval_udl_LM b xa xb w) i x = 0).
Proof. exact interval_spec. Qed.
Print Assumptions C32_lane_interval.
Example C32_lane_nonvacuous : deck (an_beam ff) /\ Forall (Rlt length_tol) (b_lengths (an_beam ff)).
Proof. exact (conj (bm_deck _ ff_bridge) ff_tol). Qed.

(** C38: after a run the critical moments, shears and reactions are the extremes of all the
    analyses, attained at the reported station by an analysis whose position is reported and
    whose companion value is the one reported. *)
Theorem C38_vehicle : forall gl ill g a v step pstart pend sp dv g' e, bg_ba g = Some a -> bg_veh g = Some v -> bridge_model a ->
  run_vehicle gl ill g step pstart pend sp dv = (g', Ok e) ->
  exists c, critical_values g' e = Ok c /\ critical (an_beam a) e (bg_pos g') (bg_results g') (bg_spx g') c.
Proof. exact vehicle_critical. Qed.
Print Assumptions C38_vehicle.
Theorem C38_load_model : forall gl ill g a v step w c pstart pend sp dv g' e, bg_ba g = Some a -> bg_veh g = Some v -> bridge_model a ->
  Forall (Rlt length_tol) (b_lengths (an_beam a)) -> 0 <= v_L v ->
  run_load_model gl ill g step w c pstart pend sp dv = (g', Ok e) ->
  exists cv, critical_values g' e = Ok cv /\ critical (an_beam a) e (bg_pos g') (bg_results g') (bg_spx g') cv.
Proof. exact model_critical. Qed.
Print Assumptions C38_load_model.
(** The truck over the encastre span, with shear sections 1 m from the supports and at 2 m. *)
Example C38_nonvacuous : forall gl ill, exists g' e c, run_vehicle gl ill ff_bridge0 4 None None (SpPoints (Some [2])) (Some 1) = (g', Ok e) /\ critical_values g' e = Ok c /\
  critical (an_beam ff) e (bg_pos g') (bg_results g') (bg_spx g') c.
Proof.
  intros gl ill. destruct (ff_run gl ill (SpPoints (Some [2])) (Some 1)) as (g' & e & H). destruct (C38_vehicle gl ill ff_bridge0 ff truck _ _ _ _ _ _ _ eq_refl eq_refl ff_bridge H) as (c & A & B).
  exists g', e, c. auto.
Qed.

(** C55: the shear sections are the points asked for inside the deck, in order and without
    repetition; each is an extra station of its member. *)
Theorem C55_sections : forall b sp dv, deck b -> (2 * b_nspans b < length (b_R b))%nat ->
  exists sps pts, apply_shear_points b sp dv = Ok (sps, pts) /\ shear_sections b sp dv sps pts.
Proof. exact apply_total. Qed.
Print Assumptions C55_sections.
Example C55_nonvacuous : exists sps pts, apply_shear_points (an_beam ff) (SpPoints (Some [2; 9; 2])) (Some 1) = Ok (sps, pts) /\ In 2 pts /\ ~ In 9 pts.
Proof.
  destruct (C55_sections (an_beam ff) (SpPoints (Some [2; 9; 2])) (Some 1) (bm_deck _ ff_bridge) ltac:(cbn; lia)) as (sps & pts & E & _ & S & _). exists sps, pts. split; [exact E|]. split.
  - apply S. split; [rewrite ff_length; lra|]. left. eexists. split; [reflexivity|]. left. reflexivity.
  - intros H. apply S in H. destruct H as [H _]. rewrite ff_length in H. lra.
Qed.
(** The shears reported for a section are the envelope values at the nearest stations on either
    side; the support reported is the nearest one. *)
Theorem C55_section_shears : forall gl ill g a v step pstart pend sp dv g' e, bg_ba g = Some a -> bg_veh g = Some v -> bridge_model a ->
  run_vehicle gl ill g step pstart pend sp dv = (g', Ok e) -> exists c, critical_values g' e = Ok c /\ Forall2 (section_shear (an_beam a) e) (bg_spx g') (cv_shear c).
Proof. intros gl ill g a v step pstart pend sp dv g' e A B C D. destruct (vehicle_critical gl ill g a v step pstart pend sp dv g' e A B C D) as (c & E & F). exists c. exact (conj E (ct_shear _ _ _ _ _ _ F)). Qed.
Print Assumptions C55_section_shears.

(** C56: the ratios of two envelopes of a bridge are the ratios of the magnitudes of their
    ordinates and reactions, 0 where the reference is within 1e-3 of zero. *)
Theorem C56_ratios : forall trial ref, shaped trial -> shaped ref -> e_npts trial = e_npts ref -> e_nsup trial = e_nsup ref ->
  exists q, envelopes_ratios trial ref = Ok q /\ ratios_of trial ref q.
Proof. exact ratios_spec. Qed.
Print Assumptions C56_ratios.
Theorem C56_scaled : forall l r q, 0 <= l -> 1e-3 < Rabs r -> ratio_of (l * r) r q -> q = l.
Proof. exact ratio_scaled. Qed.
Print Assumptions C56_scaled.
Theorem C56_incompatible : forall trial ref, e_npts trial <> e_npts ref \/ e_nsup trial <> e_nsup ref -> envelopes_ratios trial ref = Err ValueError.
Proof. exact ratios_rejected. Qed.
Print Assumptions C56_incompatible.
(** Envelopes of results have the shape required. *)
Theorem C56_shaped : forall vr e, env_init vr = Ok e -> shaped e.
Proof. exact init_shaped. Qed.
Print Assumptions C56_shaped.
Example C56_nonvacuous : forall gl ill, exists g' e q, run_vehicle gl ill ff_bridge0 4 None None (SpPoints None) None = (g', Ok e) /\ envelopes_ratios e e = Ok q /\ ratios_of e e q.
Proof.
  intros gl ill. destruct (ff_run gl ill (SpPoints None) None) as (g' & e & H).
  assert (S : shaped e).
  { destruct (vehicle_init_env gl ill ff_bridge0 ff truck _ _ _ _ _ _ _ eq_refl eq_refl ff_bridge H) as (vr & E). exact (init_shaped _ _ E). }
  destruct (C56_ratios e e S S eq_refl eq_refl) as (q & E & F). exists g', e, q. auto.
Qed.
