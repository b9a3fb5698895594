(** C86: the diagrams drawn.  C87: the animation of a traverse. *)
From Coq Require Import String.
From Verif Require Import Base Linalg SectionModel LoadModel BeamModel AnalysisModel AnalysisSpec UtilsModel UnitsModel ResultsModel ResultsSpec EnvelopeModel EnvelopeSpec EnvReadSpec VehicleModel VehicleSpec BridgeModel BridgeSpec
  NonlinModel PlotModel PlotSpec PlotFacts PlotFacts2 PlotFacts3 PlotFacts4 PlotFacts5 PlotExample ResultsFacts EnvReadExample VehicleFacts BridgeFacts4 SpanSample.
Open Scope R_scope.
Local Notation length := List.length.
Local Open Scope list_scope.

(** C86: the default backend is changed by a known, available name in any case, and by nothing else... *)
Theorem C86_set_backend : forall installed d name, let '(d', r) := set_backend installed d name in
  (r = inl tt /\ d' = UtilsModel.lower name /\ is_backend d' /\ (d' = "plotly"%string -> installed = true)) \/
  (d' = d /\ ((r = inr (Raised ValueError) /\ ~ is_backend (UtilsModel.lower name)) \/ (r = inr ModuleNotFoundError /\ UtilsModel.lower name = "plotly"%string /\ installed = false))).
Proof. exact set_backend_spec. Qed.
Print Assumptions C86_set_backend.
Example C86_set_backend_nonvacuous : set_backend true "matplotlib" "Plotly" = ("plotly"%string, inl tt) /\ set_backend false "matplotlib" "Plotly" = ("matplotlib"%string, inr ModuleNotFoundError) /\ set_backend true "plotly" "bokeh" = ("plotly"%string, inr (Raised ValueError)).
Proof. repeat split. Qed.

(** ...so that whatever was set before, a call without a backend uses the default, which is known and
    available... *)
Theorem C86_default : forall installed d, default_backend installed d -> (is_backend d /\ (d = "plotly"%string -> installed = true)) /\ resolve_backend d None = Ok d.
Proof. intros installed d H. exact (conj (default_ok installed d H) (proj1 (resolve_default installed d H))). Qed.
Print Assumptions C86_default.
Example C86_default_nonvacuous : default_backend true "plotly".
Proof. exact (db_set true "matplotlib" "PLOTLY" (db_start true)). Qed.

(** ...a single diagram is, on new axes, the effect of the analysis against the stations: moments hang
    below the line, shears stand above it, deflections are in display units; with its label... *)
Theorem C86_diagram : forall installed bk us0 L r k units backend color name us, results_of L r ->
  resolve_backend bk backend = Ok name -> resolve us0 units = Ok us -> (name = "plotly"%string -> installed = true) ->
  exists a, plot_diagram installed bk us0 L (Some r) k None units backend color = inl (Some a) /\
    (name = "matplotlib"%string -> page a = [beam_line L; (color, shape us r k)]) /\ (name = "plotly"%string -> page a = [(RED, shape us r k)]) /\
    ax_ylabel a = label us k /\ ax_xlabel a = distance_axis us.
Proof. exact diagram_drawn. Qed.
Print Assumptions C86_diagram.
Example C86_diagram_nonvacuous : forall (gl : nat -> list (R * R)) (ill : nat -> mat -> bool), exists r, results_of 6 r.
Proof. exact results_sample. Qed.

(** ...however many diagrams of one kind are drawn over each other, each is drawn as it would be alone... *)
Theorem C86_overlay : forall installed bk us0 k L l a, overlaid installed bk us0 k L l a ->
  page a = beam_line L :: map (fun h => (fst (fst h), shape (snd (fst h)) (snd h) k)) l /\
  forall L' L'' r units backend color us, results_of L' r -> on_matplotlib bk backend -> resolve us0 units = Ok us ->
    exists a', plot_diagram installed bk us0 L'' (Some r) k (Some a) units backend color = inl (Some a').
Proof. intros. exact (conj (proj1 (overlaid_page _ _ _ _ _ _ _ H)) (fun L' L'' r units backend color us A B C => overlay_completes _ _ _ _ _ _ _ L' L'' r units backend color us H A B C)). Qed.
Print Assumptions C86_overlay.

(** ...nothing is drawn before an analysis... *)
Theorem C86_unanalysed : forall installed bk us0 L k ax units backend color show_beam show_reactions,
  plot_diagram installed bk us0 L None k ax units backend color = inl None /\ plot_results installed bk us0 L None show_beam units backend show_reactions = inl None.
Proof. exact nothing_drawn. Qed.
Print Assumptions C86_unanalysed.

(** ...without plotly a call that asks for it fails... *)
Theorem C86_plotly_missing : forall bk us0 L r k ax units color show_beam show_reactions backend, resolve_backend bk backend = Ok "plotly"%string ->
  plot_diagram false bk us0 L (Some r) k ax units backend color = inr ModuleNotFoundError /\ plot_results false bk us0 L (Some r) show_beam units backend show_reactions = inr ModuleNotFoundError.
Proof. exact plotly_missing. Qed.
Print Assumptions C86_plotly_missing.

(** ...the figure of all results holds the three diagrams in order... *)
Theorem C86_results : forall installed bk us0 L r show_beam units backend show_reactions name us, results_of L r ->
  resolve_backend bk backend = Ok name -> resolve us0 units = Ok us -> (name = "plotly"%string -> installed = true) ->
  exists ps m v d, plot_results installed bk us0 L (Some r) show_beam units backend show_reactions = inl (Some ps) /\ diagrams ps = [m; v; d] /\
    (name = "matplotlib"%string -> page m = [beam_line L; ("r"%string, shape us r KM)] /\ page v = [beam_line L; ("r"%string, shape us r KV)] /\ page d = [beam_line L; ("r"%string, shape us r KD)] /\
       length ps = (3 + (if show_beam then 1 else 0) + (if show_reactions then 1 else 0))%nat) /\
    (name = "plotly"%string -> page m = [(RED, shape us r KM)] /\ page v = [(RED, shape us r KV)] /\ page d = [(RED, shape us r KD)] /\ length ps = 3%nat) /\
    ax_ylabel m = label us KM /\ ax_ylabel v = label us KV /\ ax_ylabel d = label us KD.
Proof. exact results_drawn. Qed.
Print Assumptions C86_results.

(** ...but [show_beam=False] alone does not give "the bare three-panel figure". *)
Theorem C86_panels_refuted : forall installed us0 L r us, results_of L r -> resolve us0 UNone = Ok us ->
  exists ps, plot_results installed "matplotlib" us0 L (Some r) false UNone None true = inl (Some ps) /\ length ps = 4%nat.
Proof. intros installed us0 L r us H U. destruct (results_drawn installed "matplotlib" us0 L r false UNone None true "matplotlib" us H eq_refl U ltac:(discriminate)) as (ps & m & v & d & E & _ & N & _). exact (ex_intro _ ps (conj E (proj2 (proj2 (proj2 (N eq_refl)))))). Qed.
Print Assumptions C86_panels_refuted.

(** An envelope is drawn as its two extremes, and each analysis, if asked for, between them... *)
Theorem C86_envelope : forall installed bk us0 e vr each units backend name us, env_init vr = Ok e -> on_stations (e_x e) vr -> e_x e <> [] ->
  resolve_backend bk backend = Ok name -> resolve us0 units = Ok us -> (name = "plotly"%string -> installed = true) ->
  exists m v, plot_envelope installed bk us0 e vr each units backend = inl (m, v) /\
    (name = "matplotlib"%string ->
       page m = [beam_line (last (e_x e) 0); ("r"%string, below (e_x e) (e_Mmax e)); ("b"%string, below (e_x e) (e_Mmin e))] ++ (if each then map (fun r => ("r"%string, below (e_x e) (r_M (br_all r)))) vr else []) /\
       page v = [beam_line (last (e_x e) 0); ("r"%string, above (e_x e) (e_Vmax e)); ("b"%string, above (e_x e) (e_Vmin e))] ++ (if each then map (fun r => ("b"%string, above (e_x e) (r_V (br_all r)))) vr else [])) /\
    (name = "plotly"%string -> page m = [(RED, below (e_x e) (e_Mmax e)); (BLUE, below (e_x e) (e_Mmin e))] /\ page v = [(RED, above (e_x e) (e_Vmax e)); (BLUE, above (e_x e) (e_Vmin e))]) /\
    ax_ylabel m = moment_axis us /\ ax_ylabel v = shear_axis us /\ ax_xlabel v = distance_axis us.
Proof. exact envelope_drawn. Qed.
Print Assumptions C86_envelope.
Theorem C86_between : forall vr e r, env_init vr = Ok e -> on_stations (e_x e) vr -> In r vr ->
  between (map Ropp (e_Mmax e)) (map Ropp (r_M (br_all r))) (map Ropp (e_Mmin e)) /\ between (e_Vmin e) (r_V (br_all r)) (e_Vmax e).
Proof. exact each_between. Qed.
Print Assumptions C86_between.
Example C86_envelope_nonvacuous : forall gl ill, exists a1 a2 r1 r2 a b m, snd (analyze gl ill a1 (fun _ => []) None true) = Ok r1 /\ snd (analyze gl ill a2 (fun _ => []) None true) = Ok r2 /\ analysis_init (span_ctor 6 2) = Ok a1 /\ analysis_init (span_ctor 6 (-2)) = Ok a2 /\
  env_init [r1] = Ok a /\ env_init [r2] = Ok b /\ augment a b = Ok m /\ on_stations (e_x a) ([r1] ++ [r2]) /\
  (exists k, first_station (e_x a) 6 k) /\ (0 < length (e_x a))%nat /\ exists e, env_init [r1; r2] = Ok e /\ on_stations (e_x e) [r1; r2].
Proof. exact sample_merged. Qed.

(** ...and the coincident values with the extremes they belong to. *)
Theorem C86_coincidents : forall us0 e vr units us, env_init vr = Ok e -> on_stations (e_x e) vr -> e_x e <> [] -> resolve us0 units = Ok us ->
  exists m mc v vc, plot_coincidents us0 e units = Ok ((m, mc), (v, vc)) /\
    page m = [beam_line (last (e_x e) 0); ("tab:red"%string, below (e_x e) (e_Mmax e)); ("tab:blue"%string, below (e_x e) (e_Mmin e))] /\
    page mc = [("lightcoral"%string, above (e_x e) (e_VcoMmax e)); ("lightskyblue"%string, above (e_x e) (e_VcoMmin e))] /\
    page v = [beam_line (last (e_x e) 0); ("tab:red"%string, above (e_x e) (e_Vmax e)); ("tab:blue"%string, above (e_x e) (e_Vmin e))] /\
    page vc = [("lightcoral"%string, below (e_x e) (e_McoVmax e)); ("lightskyblue"%string, below (e_x e) (e_McoVmin e))] /\
    coincident vr e.
Proof. exact coincidents_drawn. Qed.
Print Assumptions C86_coincidents.

(** A vehicle at one position: the diagrams of the static loads and the axles on the deck, marked where
    those axles stand... *)
Theorem C86_static : forall gl ill us0 g a v pos units us rows r, bg_ba g = Some a -> bg_veh g = Some v -> bridge_model a -> length (v_coords v) = length (v_axw v) -> resolve us0 units = Ok us ->
  axle_rows (an_beam a) v pos rows -> analysed_with gl ill a (bg_sps g) (bg_static g ++ rows) = Ok r ->
  exists g' m s, plot_static gl ill us0 g pos units = (g', Ok (m, s)) /\
    page m = [beam_line (deck_length (an_beam a)); ("r"%string, below (r_x (br_all r)) (r_M (br_all r)))] /\ page s = [beam_line (deck_length (an_beam a)); ("r"%string, above (r_x (br_all r)) (r_V (br_all r)))] /\
    ax_marks m = loading_axles (an_beam a) v pos /\ ax_marks s = loading_axles (an_beam a) v pos /\
    load_arrows (deck_length (an_beam a)) v pos = loading_axles (an_beam a) v pos /\ wheels v pos = map fst (axles_at v pos).
Proof. exact static_drawn. Qed.
Print Assumptions C86_static.
Example C86_static_nonvacuous : forall gl ill us0, exists g' m s, plot_static gl ill us0 ff_bridge0 5 UNone = (g', Ok (m, s)) /\ ax_marks m = [5 - 0; 5 - (0 + 4)] /\ ax_marks s = [5 - 0; 5 - (0 + 4)].
Proof. exact static_sample. Qed.

(** ...but with [plotflag] the results returned are those without the shear points asked for. *)
Theorem C86_plotted_results : forall gl ill us0 g a v pos sp dv g' r', bg_ba g = Some a -> bg_veh g = Some v -> bridge_model a ->
  static_vehicle_plot gl ill us0 g pos sp dv = (g', Ok r') -> exists rows, axle_rows (an_beam a) v pos rows /\ analysed_with gl ill a (fun _ => []) (bg_static g ++ rows) = Ok r'.
Proof. exact plotted_results. Qed.
Print Assumptions C86_plotted_results.
Theorem C86_shear_points_refuted : forall gl ill us0, exists g1 g2 r r', static_vehicle gl ill ff_bridge0 3 (SpDict (fun _ => [3])) None = (g1, Ok r) /\
  static_vehicle_plot gl ill us0 ff_bridge0 3 (SpDict (fun _ => [3])) None = (g2, Ok r') /\ length (r_x (br_all r)) = 105%nat /\ length (r_x (br_all r')) = 103%nat.
Proof. exact static_plot_sample. Qed.
Print Assumptions C86_shear_points_refuted.

(** After a traverse its envelope is drawn with the history of every reaction against the positions, the
    extremes marked at positions that have them... *)
Theorem C86_histories : forall gl ill us0 g a v step pstart pend sp dv g' e units us, bg_ba g = Some a -> bg_veh g = Some v -> bridge_model a ->
  run_vehicle gl ill g step pstart pend sp dv = (g', Ok e) -> resolve us0 units = Ok us -> (0 < e_nsup e)%nat ->
  exists m v hs, plot_envelopes us0 (deck_length (an_beam a)) (bg_pos g') e units = Ok (m, v, Histories hs) /\
    page m = [beam_line (deck_length (an_beam a)); ("r"%string, below (e_x e) (e_Mmax e)); ("b"%string, below (e_x e) (e_Mmin e))] /\
    page v = [beam_line (deck_length (an_beam a)); ("r"%string, above (e_x e) (e_Vmax e)); ("b"%string, above (e_x e) (e_Vmin e))] /\
    Forall2 (fun i h => page (fst (fst h)) = [beam_line (deck_length (an_beam a)); ("r"%string, above (bg_pos g') (upward i (bg_results g'))); ("b"%string, above (bg_pos g') (downward i (bg_results g')))] /\
       marked greatest (bg_pos g') (upward i (bg_results g')) (snd (fst h)) /\ marked least (bg_pos g') (downward i (bg_results g')) (snd h)) (seq 0 (e_nsup e)) hs.
Proof. exact own_histories. Qed.
Print Assumptions C86_histories.
Example C86_histories_nonvacuous : forall gl ill p q, q = p + 4 -> exists g e, run_vehicle gl ill ff_bridge0 4 (Some p) (Some q) (SpPoints None) None = (g, Ok e) /\ bg_pos g = [p; p + 4] /\ e_nsup e = 4%nat.
Proof. exact ff_traverse. Qed.

(** ...an envelope of another number of analyses with bars of the extreme reactions... *)
Theorem C86_bars : forall us0 L pos e vr units us, env_init vr = Ok e -> on_stations (e_x e) vr -> resolve us0 units = Ok us -> length pos <> length vr ->
  exists m v, plot_envelopes us0 L pos e units = Ok (m, v, Bars (e_Rmaxval e) (e_Rminval e)).
Proof. exact bars_drawn. Qed.
Print Assumptions C86_bars.

(** ...but the envelope of another traverse with as many positions is drawn against the wrong ones, and
    a beam without rigid supports cannot be drawn. *)
Theorem C86_other_positions_refuted : forall gl ill us0, exists g1 e1 g2 e2 m v h hs, run_vehicle gl ill ff_bridge0 4 (Some 0) (Some 4) (SpPoints None) None = (g1, Ok e1) /\ run_vehicle gl ill ff_bridge0 4 (Some 4) (Some 8) (SpPoints None) None = (g2, Ok e2) /\
  bg_pos g1 = [0; 0 + 4] /\ plot_envelopes us0 (deck_length (an_beam ff)) (bg_pos g2) e1 UNone = Ok (m, v, Histories (h :: hs)) /\ In ("r"%string, above [4; 4 + 4] (upward 0 (bg_results g1))) (page (fst (fst h))).
Proof. exact other_positions. Qed.
Print Assumptions C86_other_positions_refuted.
Theorem C86_no_supports_refuted : forall us0 L pos e vr units us, env_init vr = Ok e -> on_stations (e_x e) vr -> resolve us0 units = Ok us -> length pos = length vr -> e_nsup e = 0%nat ->
  plot_envelopes us0 L pos e units = Err ValueError.
Proof. exact no_supports_fail. Qed.
Print Assumptions C86_no_supports_refuted.

(** Plastic moments hang below the line, the history and the last state in order... *)
Theorem C86_plastic : forall us0 coords r units us, coords <> [] -> resolve us0 units = Ok us ->
  exists a, plot_moments us0 coords r None units = Ok a /\ ax_ylabel a = moment_axis us /\
    page a = beam_line (last coords 0) :: map (fun v => ("r"%string, below coords (nodal coords v))) (nr_mom_hist r ++ [nr_moments r]).
Proof. exact plastic_new. Qed.
Print Assumptions C86_plastic.
(** ...but a second plot on the same axes turns both upside down. *)
Theorem C86_plastic_overlay_refuted : forall us0 coords r r' units us a, coords <> [] -> resolve us0 units = Ok us -> plot_moments us0 coords r None units = Ok a ->
  exists a', plot_moments us0 coords r' (Some a) units = Ok a' /\ In ("r"%string, above coords (nodal coords (nr_moments r))) (page a') /\ In ("r"%string, above coords (nodal coords (nr_moments r'))) (page a').
Proof. exact plastic_twice. Qed.
Print Assumptions C86_plastic_overlay_refuted.

(** C87: where the traverse completes, its animation has one frame per position, in order; each shows the
    effects of the analysis there, moments hanging below the line, over the band of all effects so far, all
    within the limits of its axes... *)
Theorem C87_frames : forall gl ill us0 g a v step pstart pend units us g' e, bg_ba g = Some a -> bg_veh g = Some v -> bridge_model a -> resolve us0 units = Ok us ->
  run_vehicle gl ill g step pstart pend (SpPoints None) None = (g', Ok e) ->
  exists fs, animate gl ill us0 g step pstart pend units = (g', Ok fs) /\ Forall2 (frame_of us (deck_length (an_beam a)) (bg_pos g') (e_x e) (bg_results g')) (seq 0 (length (bg_pos g'))) fs.
Proof. exact animate_frames. Qed.
Print Assumptions C87_frames.
Example C87_nonvacuous : forall gl ill p q, q = p + 4 -> exists g e, run_vehicle gl ill ff_bridge0 4 (Some p) (Some q) (SpPoints None) None = (g, Ok e) /\ bg_pos g = [p; p + 4] /\ e_nsup e = 4%nat.
Proof. exact ff_traverse. Qed.

(** ...and nowhere else... *)
Theorem C87_needs_traverse : forall gl ill us0 g step pstart pend units g' fs, animate gl ill us0 g step pstart pend units = (g', Ok fs) -> exists e, run_vehicle gl ill g step pstart pend (SpPoints None) None = (g', Ok e).
Proof. exact animate_needs_run. Qed.
Print Assumptions C87_needs_traverse.

(** ...the band of the last frame is the envelope of the traverse, except that the envelope includes
    zero. *)
Theorem C87_last_band : forall us L pos vr e f, env_init vr = Ok e -> on_stations (e_x e) vr -> vr <> [] -> frame_of us L pos (e_x e) vr (pred (length vr)) f ->
  exists hM lM yM hV lV yV, page (fr_M f) = [beam_line L; ("0.55"%string, above (e_x e) hM); ("0.55"%string, above (e_x e) lM); yM] /\ page (fr_V f) = [beam_line L; ("0.55"%string, above (e_x e) hV); ("0.55"%string, above (e_x e) lV); yV] /\
    forall k, (k < length (e_x e))%nat -> nth k (e_Mmax e) 0 = Rmax 0 (- nth k lM 0) /\ nth k (e_Mmin e) 0 = Rmin 0 (- nth k hM 0) /\ nth k (e_Vmax e) 0 = Rmax 0 (nth k hV 0) /\ nth k (e_Vmin e) 0 = Rmin 0 (nth k lV 0).
Proof. exact last_bands. Qed.
Print Assumptions C87_last_band.
