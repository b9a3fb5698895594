(** C91: the pictures of a plastic analysis. *)
From Coq Require Import String ZArith.
From Verif Require Import Base Linalg SectionModel LoadModel UnitsModel VehicleModel VehicleFacts ElementSpec AnalysisSpec FoundSpec NonlinModel NonlinSpec NonlinFacts10 NonlinFacts11 NonlinFacts12 NonlinFacts13 PlotModel NlPlotModel NlPlotSpec NlPlotFacts NlPlotExample.
Open Scope R_scope.
Local Open Scope list_scope.

(** The deformed shape is that of the analysis, enlarged by the factor given or so that the
    largest deflection is 12 % of the length; one marker per plastic hinge, on the curve. *)
Theorem C91_deformed : forall rd a Ls EI rs Mp My q msz, made a Ls EI rs Mp My q msz -> capacities a ->
  forall us0 us units, resolve us0 units = Ok us ->
  forall LM lmax k ms r scale, nl_analyze rd a LM lmax k ms = Ok r ->
  exists p c, plot_collapse us0 (static_out a r) scale units = Ok p /\
    shows_shape a (fun j => nr_u r (2 * j)%nat) c (pc_curve p) /\ hinges_on (fun j => nr_u r (2 * j)%nat) c (nr_events r) (pc_hinges p) /\
    match scale with Some s => c = s | None => 0 < c /\ (moved a (fun j => nr_u r (2 * j)%nat) -> fills a (fun j => nr_u r (2 * j)%nat) c) end /\
    at_joints Ls (pc_supports p) /\ pc_beam p = [(0, 0); (nb_total a, 0)] /\ pc_front p = Some (nr_lambda r) /\ pc_xlabel p = distance_axis us /\
    pc_title p = (if nr_collapsed r then "Collapse mechanism" else "Deformed shape")%string.
Proof. exact collapse_static. Qed.
Print Assumptions C91_deformed.
Example C91_deformed_nonvacuous : exists a r, made a [1; 3] (EIOne (RConst 1)) ex2_rs (NList [3; 1]) None 0 10 /\ capacities a /\ nl_analyze exact_rank a ex2_load (1/10) 1 1 = Ok r /\
  moved a (fun j => nr_u r (2 * j)%nat) /\ (exists e, In e (nr_events r) /\ ev_kind e = PlasticHinge) /\ resolve SI UNone = Ok SI.
Proof. exact ex_shown. Qed.
(** For a passage of loads the curve is a straight line whatever the deflections were. *)
Theorem C91_moving_flat : forall rd a Ls EI rs Mp My q msz, made a Ls EI rs Mp My q msz -> capacities a ->
  forall us0 us units, resolve us0 units = Ok us ->
  forall m st n_sub k r scale aw cs vL, (forall j, (j < nb_nodes a)%nat -> 0 <= nb_gy a j) -> carries m aw cs vL -> 0 < st -> 0 <= nb_total a + vL -> n_sub <> 0%nat ->
  nl_moving rd a m st n_sub k = Ok r ->
  exists p, plot_collapse us0 (moving_out a r) scale units = Ok p /\
    shows_shape a (fun _ => 0) 1 (pc_curve p) /\ hinges_on (fun _ => 0) 1 (nr_events r) (pc_hinges p) /\ at_joints Ls (pc_supports p) /\
    pc_title p = (if nr_collapsed r then "Collapse mechanism" else "Deformed shape")%string.
Proof. exact collapse_moving. Qed.
Print Assumptions C91_moving_flat.
(** The history: each event once, at its place and its stage, in the series of its kind. *)
Theorem C91_history : forall a Ls EI rs Mp My q msz, made a Ls EI rs Mp My q msz ->
  forall us0 us units, resolve us0 units = Ok us ->
  forall o moving, pictured a o ->
  exists p, plot_hinge_history us0 o moving units = Ok p /\
    series InitialYield ev_lam (no_events o) (pc_yields p) /\ series PlasticHinge ev_lam (no_events o) (pc_hinges p) /\
    pc_beam p = (if moving then [] else [(0, 1); (nb_total a, 1)]) /\ pc_xlabel p = distance_axis us /\ (moving = true -> pc_ylabel p = length_axis us "Front axle position").
Proof. exact history_shown. Qed.
Print Assumptions C91_history.
(** The state: each event at its place; of a vehicle, the axles standing on the beam, which are
    those that the analysis loads the beam with at that position.  The titles tell whether the
    beam collapsed. *)
Theorem C91_state : forall a Ls EI rs Mp My q msz, made a Ls EI rs Mp My q msz ->
  forall us0 us units, resolve us0 units = Ok us ->
  forall o v, pictured a o ->
  exists p, plot_beam_state us0 o v units = Ok p /\
    series InitialYield (fun _ => - (1/2)) (no_events o) (pc_yields p) /\ series PlasticHinge (fun _ => - (1/2)) (no_events o) (pc_hinges p) /\
    pc_beam p = [(0, 0); (nb_total a, 0)] /\ at_joints Ls (pc_supports p) /\
    match v with
    | None => pc_axles p = [] /\ pc_front p = None /\ pc_title p = ""%string
    | Some v => axles_on v (no_lambda o) (nb_total a) (pc_axles p) /\ pc_front p = Some (no_lambda o) /\
                vehicle_forces a (v_axw v) (v_coords v) (no_lambda o) = fold_left (fun F xw => add_point a F (snd xw) (fst xw)) (pc_axles p) (fun _ => 0) /\
                pc_title p = (if no_collapsed o then "Vehicle at collapse" else "Vehicle at final")%string
    end.
Proof. exact state_shown. Qed.
Print Assumptions C91_state.
(** Every static analysis and every passage meets the hypotheses of the two theorems above. *)
Theorem C91_results_fit : forall rd a Ls EI rs Mp My q msz, made a Ls EI rs Mp My q msz -> capacities a ->
  (forall LM lmax k ms r, nl_analyze rd a LM lmax k ms = Ok r -> pictured a (static_out a r)) /\
  (forall m st n_sub k r aw cs vL, (forall j, (j < nb_nodes a)%nat -> 0 <= nb_gy a j) -> carries m aw cs vL -> 0 < st -> 0 <= nb_total a + vL -> n_sub <> 0%nat ->
     nl_moving rd a m st n_sub k = Ok r -> pictured a (moving_out a r)).
Proof. exact results_fit. Qed.
Print Assumptions C91_results_fit.
(** Refuted: a triangle is drawn at a joint without any restraint. *)
Theorem C91_triangles_refuted : forall rd, exists a r p, made a [1; 3] (EIOne (RConst 1)) ex2_rs (NList [3; 1]) None 0 10 /\ capacities a /\ nl_analyze rd a [] 1 0 0 = Ok r /\
  plot_beam_state SI (static_out a r) None UNone = Ok p /\ In 1 (pc_supports p) /\ nth 2 ex2_rs 0 = 0 /\ nth 3 ex2_rs 0 = 0 /\ start [1; 3] 1 = 1.
Proof. exact ex_triangle. Qed.
Print Assumptions C91_triangles_refuted.
(** Refuted: axles are drawn although the analysis did not collapse. *)
Theorem C91_axles_refuted : forall rd, exists a r p, made a [4; 1] (EIOne (RConst 1)) ex_rs (NList [10; 1000]) None 0 10 /\ capacities a /\ nl_analyze rd a ex_load (1/10) 1 1 = Ok r /\
  nr_collapsed r = false /\ plot_beam_state SI (static_out a r) (Some truck) UNone = Ok p /\ In (1/10, 35) (pc_axles p).
Proof. exact ex_axles. Qed.
Print Assumptions C91_axles_refuted.
