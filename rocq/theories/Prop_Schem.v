(** Property theorems about the matplotlib schematic of a beam (C97). *)
From Coq Require Import ZArith String Ascii.
From Verif Require Import Base SectionModel LoadModel ElementModel BeamModel BeamSpec AnalysisSpec AnalysisFacts3 UnitsModel BridgeSpec RenderModel RenderSpec RenderFacts5 InPlotModel InPlotSpec
  SchemModel SchemSpec SchemFacts SchemFacts2 SchemFacts3 SchemFacts4.
Local Notation length := List.length.
Local Open Scope list_scope.
Open Scope R_scope.

(** C97: the schematic is drawn whenever its loads lie on their spans and its units are known. *)
Theorem C97_draws : forall g uni us0 b s p o us, deck b -> beam_plotter b s = Ok p -> placed b (pl_loads p) -> (length (b_kf b) <= b_nspans b)%nat -> positive_beam (b_lengths b) (b_EIs b) ->
  resolve us0 (mo_units o) = Ok us -> exists pic, render_mpl g uni us0 p o = Ok pic.
Proof. exact schem_total. Qed.
Print Assumptions C97_draws.

(** Each force is a vertical arrow onto the beam from the side it comes from, with its
    magnitude; a greater force has a longer arrow. *)
Theorem C97_forces : forall g uni us0 b s p o us pic, deck b -> beam_plotter b s = Ok p -> resolve us0 (mo_units o) = Ok us -> render_mpl g uni us0 p o = Ok pic ->
  Forall2 (force_shown g us (deck_length b) (mo_values o)) (dr_pts (pl_loads p)) (sc_points pic) /\
  forall i j q q' gl gl', nth_error (dr_pts (pl_loads p)) i = Some q -> nth_error (sc_points pic) i = Some gl ->
    nth_error (dr_pts (pl_loads p)) j = Some q' -> nth_error (sc_points pic) j = Some gl' ->
    (Rabs (p_P q) < Rabs (p_P q') -> reach gl < reach gl') /\ (Rabs (p_P q) = Rabs (p_P q') -> reach gl = reach gl').
Proof. exact forces_drawn. Qed.
Print Assumptions C97_forces.
(** ...but no force at all is an arrow of full length. *)
Theorem C97_no_force_refuted : forall g uni us0, exists p pic gl, beam_plotter sample_beam (GivenRows [Row 2 2 [0; 2]]) = Ok p /\ render_mpl g uni us0 p (all_on UNone) = Ok pic /\
  sc_points pic = [gl] /\ reach gl = 0.16 * deck_length sample_beam.
Proof. exact nothing_drawn. Qed.
Print Assumptions C97_no_force_refuted.

(** Each distributed load is drawn over its loaded length, on the side of the beam it comes
    from, with its intensity; a greater intensity is drawn higher. *)
Theorem C97_distributed : forall g uni us0 b s p o us pic, deck b -> beam_plotter b s = Ok p -> resolve us0 (mo_units o) = Ok us -> render_mpl g uni us0 p o = Ok pic ->
  Forall2 (dist_shown g us (deck_length b) (mo_values o)) (dr_dist (pl_loads p)) (sc_dist pic) /\
  forall i j q q' gl gl' w w' h h', nth_error (dr_dist (pl_loads p)) i = Some q -> nth_error (sc_dist pic) i = Some gl ->
    nth_error (dr_dist (pl_loads p)) j = Some q' -> nth_error (sc_dist pic) j = Some gl' ->
    In (w, h) [(d_w0 q, left_height gl); (d_w1 q, right_height gl)] -> In (w', h') [(d_w0 q', left_height gl'); (d_w1 q', right_height gl')] ->
    (Rabs w < Rabs w' -> Rabs h < Rabs h') /\ (Rabs w = Rabs w' -> Rabs h = Rabs h').
Proof. exact dists_drawn. Qed.
Print Assumptions C97_distributed.
(** The arrows of a load that does not change sense are on the side of the load... *)
Theorem C97_sense_partial : forall g us L show q gl a, dist_shown g us L show q gl -> 0 <= d_w0 q * d_w1 q -> d_x0 q < d_x1 q -> In a (dg_arrows gl) ->
  0 < snd (ar_tail a) * ordinate q (fst (ar_tail a)).
Proof. exact dist_sense. Qed.
Print Assumptions C97_sense_partial.
(** ...but where a load changes sense an arrow can point against it, its label can be that of
    a uniform load, and the label of an upward load lies inside its arrows. *)
Theorem C97_sense_refuted : forall g uni us0, exists p pic q gl a, beam_plotter sample_beam (GivenRows [Row 2 5 [-1; 2; 0; 6]]) = Ok p /\ render_mpl g uni us0 p (all_on UNone) = Ok pic /\
  dr_dist (pl_loads p) = [q] /\ sc_dist pic = [gl] /\ In a (dg_arrows gl) /\ snd (ar_tail a) < 0 < ordinate q (fst (ar_tail a)).
Proof. exact wrong_way. Qed.
Print Assumptions C97_sense_refuted.
Theorem C97_label_refuted : forall g uni us0, exists p pic gl at_ p' pic' gl' at_', beam_plotter sample_beam (GivenRows [Row 2 5 [-5; 5; 0; 6]]) = Ok p /\ render_mpl g uni us0 p (all_on UNone) = Ok pic /\
  sc_dist pic = [gl] /\ dg_text gl = Some {| ca_at := at_; ca_text := worth (g 5) (us_distributed us0) |} /\
  beam_plotter sample_beam (GivenRows [Row 2 1 [5]]) = Ok p' /\ render_mpl g uni us0 p' (all_on UNone) = Ok pic' /\
  sc_dist pic' = [gl'] /\ dg_text gl' = Some {| ca_at := at_'; ca_text := worth (g 5) (us_distributed us0) |}.
Proof. exact same_label. Qed.
Print Assumptions C97_label_refuted.
Theorem C97_label_place_refuted : forall g uni us0, exists p pic gl c, beam_plotter sample_beam (GivenRows [Row 1 1 [-10]]) = Ok p /\ render_mpl g uni us0 p (all_on UNone) = Ok pic /\
  sc_dist pic = [gl] /\ dg_text gl = Some c /\ left_height gl = right_height gl /\ left_height gl < snd (ca_at c) < 0.
Proof. exact label_inside. Qed.
Print Assumptions C97_label_place_refuted.

(** Each moment is an arc around its place whose arrowhead turns anticlockwise exactly if the
    moment is not negative. *)
Theorem C97_moments : forall g uni us0 b s p o us pic, deck b -> beam_plotter b s = Ok p -> resolve us0 (mo_units o) = Ok us -> render_mpl g uni us0 p o = Ok pic ->
  Forall2 (moment_shown g us (deck_length b) (mo_values o)) (dr_moms (pl_loads p)) (sc_moments pic).
Proof. exact moments_drawn. Qed.
Print Assumptions C97_moments.

(** The dimensions, if asked for, are the span lengths; the extents are those of exactly the
    loads that leave a part of their span free... *)
Theorem C97_dimensions : forall g uni us0 b s p o pic, deck b -> beam_plotter b s = Ok p -> render_mpl g uni us0 p o = Ok pic ->
  (mo_dimensions o = false -> sc_dims pic = []) /\
  (mo_dimensions o = true -> length (sc_dims pic) = b_nspans b /\
     forall m, (m < b_nspans b)%nat -> exists d, nth_error (sc_dims pic) m = Some d /\ dimensioned g (node_at b m) (node_at b (S m)) d).
Proof. exact dims_drawn. Qed.
Print Assumptions C97_dimensions.
Theorem C97_extents : forall g uni us0 b s p o pic, deck b -> beam_plotter b s = Ok p -> placed b (pl_loads p) -> render_mpl g uni us0 p o = Ok pic ->
  (mo_values o = false -> sc_extents pic = []) /\
  (mo_values o = true -> (forall q, In q (dr_dist (pl_loads p)) -> leaves_free b q -> exists d, In d (sc_extents pic) /\ dimensioned g (d_x0 q) (d_x1 q) d) /\
     (forall d, In d (sc_extents pic) -> exists q, In q (dr_dist (pl_loads p)) /\ leaves_free b q /\ dimensioned g (d_x0 q) (d_x1 q) d)).
Proof. exact extents_drawn. Qed.
Print Assumptions C97_extents.
(** ...but they say metres in every unit system, also beside an axis in feet. *)
Theorem C97_metres_refuted : forall g uni us0, exists p pic d, beam_plotter sample_beam (GivenRows []) = Ok p /\ render_mpl g uni us0 p (all_on (USystem US_KIP_FT)) = Ok pic /\
  sc_xlabel pic = "Distance along beam (ft)"%string /\ nth_error (sc_dims pic) 0 = Some d /\ dl_x0 d = 0 /\ dl_x1 d = 4 /\ ca_text (dl_text d) = (g 4 ++ " m")%string.
Proof. exact metres_always. Qed.
Print Assumptions C97_metres_refuted.

(** The symbols are those found for the beam (see C67), each with its letter; springs stand
    under exactly the members on a foundation. *)
Theorem C97_letters : forall g uni us0 p o pic, render_mpl g uni us0 p o = Ok pic ->
  sc_supports pic = (if mo_supports o then pl_supports p else []) /\ sc_hinges pic = (if mo_supports o then pl_hinges p else []) /\
  (if (mo_labels o && mo_supports o)%bool then Forall2 lettered (pl_supports p) (sc_letters pic) else sc_letters pic = []).
Proof. exact letters_drawn. Qed.
Print Assumptions C97_letters.
Theorem C97_foundations : forall g uni us0 b s p o pic, deck b -> beam_plotter b s = Ok p -> length (b_kf b) = b_nspans b -> render_mpl g uni us0 p o = Ok pic ->
  if mo_supports o then Forall2 (ground_shown b) (filter (founded b) (seq 0 (b_nspans b))) (sc_grounds pic) else sc_grounds pic = [].
Proof. exact founds_drawn. Qed.
Print Assumptions C97_foundations.

(** With the supports, everything drawn lies within the limits of the axes... *)
Theorem C97_limits : forall g uni us0 b s p o pic, deck b -> / 10^10 < deck_length b -> beam_plotter b s = Ok p -> placed b (pl_loads p) -> (length (b_kf b) <= b_nspans b)%nat ->
  render_mpl g uni us0 p o = Ok pic ->
  mo_supports o = true \/ (sc_dims pic = [] /\ sc_extents pic = []) -> Forall (inside pic) (marks pic) /\ forall gl t, In gl (sc_moments pic) -> inside pic (circle_point gl t).
Proof. exact limits_shown. Qed.
Print Assumptions C97_limits.
Theorem C97_outline : forall g uni us0 b s p o pic pts, deck b -> beam_plotter b s = Ok p -> positive_beam (b_lengths b) (b_EIs b) -> render_mpl g uni us0 p o = Ok pic -> mo_supports o = true ->
  sc_beam pic = Some pts -> forall x h, In (x, h) pts -> 0 < h /\ inside pic (x, h) /\ inside pic (x, - h).
Proof. exact outline_shown. Qed.
Print Assumptions C97_outline.
(** ...but without them the extent of a load can be cut off. *)
Theorem C97_limits_refuted : forall g uni us0, exists p pic pt, beam_plotter sample_beam (GivenRows [Row 1 3 [10; 1; 2]]) = Ok p /\ placed sample_beam (pl_loads p) /\ render_mpl g uni us0 p (bare UNone) = Ok pic /\ In pt (marks pic) /\ ~ inside pic pt.
Proof. exact extent_cut. Qed.
Print Assumptions C97_limits_refuted.

(** A beam with a force, a moment, a uniform and a trapezoidal load. *)
Example C97_nonvacuous : forall g uni us0, exists p pic, beam_plotter sample_beam (GivenRows sample_rows) = Ok p /\ deck sample_beam /\ / 10^10 < deck_length sample_beam /\ placed sample_beam (pl_loads p) /\
  positive_beam (b_lengths sample_beam) (b_EIs sample_beam) /\ length (b_kf sample_beam) = b_nspans sample_beam /\ render_mpl g uni us0 p (all_on UNone) = Ok pic.
Proof.
  intros g uni us0. destruct (sample_pic g uni sample_rows sample_parsed us0 (all_on UNone) us0 eq_refl sample_fits sample_on eq_refl) as (p & pic & B & PL & R & _).
  exists p, pic. split; [exact B|]. split; [exact deck_sample|]. split; [rewrite sample_L; assert (10^10 = 10000000000) by ring; rewrite H; lra|]. split; [exact PL|]. split; [exact sample_positive|]. split; [reflexivity|exact R].
Qed.
(** A beam with two depths whose second member lies on the ground. *)
Example C97_nonvacuous_stepped : forall g uni us0, exists p pic pts gr, deck stepped_beam /\ beam_plotter stepped_beam (GivenRows []) = Ok p /\ positive_beam (b_lengths stepped_beam) (b_EIs stepped_beam) /\
  length (b_kf stepped_beam) = b_nspans stepped_beam /\ render_mpl g uni us0 p (all_on UNone) = Ok pic /\ sc_beam pic = Some pts /\ pts <> [] /\ sc_grounds pic = [gr].
Proof. exact stepped_drawn. Qed.
