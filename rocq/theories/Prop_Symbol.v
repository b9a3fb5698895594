(** Property theorems about the support symbols and the picture of the reactions (C98). *)
From Coq Require Import ZArith String.
From Verif Require Import Base SectionModel LoadModel ElementModel BeamModel BeamSpec AnalysisModel AnalysisSpec ResultsModel ResultsFacts UnitsModel BridgeSpec RenderModel RenderSpec
  InPlotModel InPlotSpec SchemModel SchemSpec SchemFacts4 SymbolModel SymbolSpec SymbolFacts SymbolFacts2 SymbolFacts3.
Local Notation length := List.length.
Local Open Scope list_scope.
Open Scope R_scope.

(** C98: every supported node, from left to right, has the symbol of its kind, and a stem
    that carries a spiral exactly if it is held vertically and on a rotational spring. *)
Theorem C98_symbols_partial : forall g uni us0 b s p o pic, deck b -> documented b -> beam_plotter b s = Ok p -> render_mpl g uni us0 p o = Ok pic -> mo_supports o = true ->
  Forall2 (fun i ss => (forall k, symbol b i k -> pictured b i k ss) /\ (stem_up ss (node_at b i) <-> vert b i < 0 < rot b i))
    (filter (fun i => negb (Reqb (vert b i) 0 && Reqb (rot b i) 0)) (seq 0 (b_nspans b + 1))) (support_symbols pic).
Proof. exact symbols_drawn. Qed.
Print Assumptions C98_symbols_partial.
Example C98_symbols_nonvacuous : forall g uni us0, exists b p pic, beam_init kinds_ctor = Ok b /\ deck b /\ documented b /\ beam_plotter b OwnLoads = Ok p /\ render_mpl g uni us0 p (all_on UNone) = Ok pic /\
  length (support_symbols pic) = 5%nat /\ symbol b 0 KPin /\ vert b 0 < 0 < rot b 0 /\ symbol b 1 KRoller /\ symbol b 2 KSpring /\ symbol b 3 KGuided /\ no_loads (pl_loads p) = true /\
  (forall su, In su (sc_supports pic) -> s_kind su <> KFixed).
Proof. exact kinds_drawn. Qed.
(** ...but a node on a rotational spring alone is drawn as one on a vertical spring. *)
Theorem C98_torsion_refuted : forall g uni us0, exists c1 c2 b1 b2 p1 p2 pic1 pic2, beam_init c1 = Ok b1 /\ beam_init c2 = Ok b2 /\ documented b1 /\ documented b2 /\
  vert b1 0 = 0 /\ 0 < rot b1 0 /\ 0 < vert b2 0 /\ rot b2 0 = 0 /\
  beam_plotter b1 (GivenRows []) = Ok p1 /\ beam_plotter b2 (GivenRows []) = Ok p2 /\ render_mpl g uni us0 p1 (all_on UNone) = Ok pic1 /\ render_mpl g uni us0 p2 (all_on UNone) = Ok pic2 /\
  support_symbols pic1 = support_symbols pic2 /\ hinge_symbols pic1 = hinge_symbols pic2.
Proof. exact torsion_as_spring. Qed.
Print Assumptions C98_torsion_refuted.

(** A disc on the beam at exactly the interior nodes where a member end is released. *)
Theorem C98_hinges : forall g uni us0 b s p o pic, deck b -> beam_plotter b s = Ok p -> render_mpl g uni us0 p o = Ok pic -> mo_supports o = true ->
  exists r, 0 < r /\ forall sp, In sp (hinge_symbols pic) <-> exists m, (1 <= m < b_nspans b)%nat /\ (loose_right b (m - 1) \/ loose_left b m) /\ sp = SDisc (node_at b m, 0) r.
Proof. exact hinge_symbols_drawn. Qed.
Print Assumptions C98_hinges.

(** The symbols lie within the axes: always if a load is drawn, otherwise but for clamps... *)
Theorem C98_limits_partial : forall g uni us0 b s p o pic su sp pt, deck b -> beam_plotter b s = Ok p -> render_mpl g uni us0 p o = Ok pic -> mo_supports o = true ->
  (no_loads (pl_loads p) = true -> s_kind su <> KFixed) -> In su (sc_supports pic) -> In sp (draw_support (0.05 * sc_L pic) su) -> In pt (extremes sp) -> inside pic pt.
Proof. exact symbols_inside. Qed.
Print Assumptions C98_limits_partial.
(** ...whose wall is cut off at the top of the axes. *)
Theorem C98_limits_refuted : forall g uni us0, exists p pic sp pt ss, beam_plotter ff_beam (GivenRows []) = Ok p /\ render_mpl g uni us0 p (all_on UNone) = Ok pic /\
  In ss (support_symbols pic) /\ In sp ss /\ In pt (extremes sp) /\ ~ inside pic pt.
Proof. exact wall_cut_off. Qed.
Print Assumptions C98_limits_refuted.

(** The picture of the reactions: nothing before the analysis, always a picture after it. *)
Theorem C98_unanalysed : forall g uni us0 b u, plot_reactions g uni us0 b None u = Ok None.
Proof. exact nothing_to_plot. Qed.
Print Assumptions C98_unanalysed.
Theorem C98_draws : forall g uni gl ill a sps npts check a' br us0 u us, deck (an_beam a) -> analyze gl ill a sps npts check = (a', Ok br) -> length (b_R (an_beam a)) = an_ndof a -> an_n a = b_nspans (an_beam a) ->
  (length (b_kf (an_beam a)) <= b_nspans (an_beam a))%nat -> positive_beam (b_lengths (an_beam a)) (b_EIs (an_beam a)) ->
  resolve us0 u = Ok us -> exists rp, plot_reactions g uni us0 (an_beam a') (Some br) u = Ok (Some rp).
Proof. exact reactions_total. Qed.
Print Assumptions C98_draws.
Theorem C98_units : forall g uni us0 b br u e, resolve us0 u = Err e -> plot_reactions g uni us0 b (Some br) u = Err e.
Proof. exact bad_units. Qed.
Print Assumptions C98_units.

(** One arrow for each reported vertical reaction above 1e-6, from left to right, in its sense
    and with its magnitude, longer for a greater force; one arc for each moment reaction. *)
Theorem C98_reactions : forall g uni gl ill a sps npts check a' br us0 u us rp, deck (an_beam a) -> analyze gl ill a sps npts check = (a', Ok br) -> length (b_R (an_beam a)) = an_ndof a ->
  resolve us0 u = Ok us -> plot_reactions g uni us0 (an_beam a') (Some br) u = Ok (Some rp) ->
  let F i := reported (an_beam a) (output_of br) (2 * i) in let M i := reported (an_beam a) (output_of br) (2 * i + 1) in
  Forall2 (fun i gl => reaction_shown g us (node_at (an_beam a) i) (F i) gl) (loaded_nodes F (an_n a)) (rp_forces rp) /\
  Forall2 (fun i gl => turning_shown g us (deck_length (an_beam a)) (node_at (an_beam a) i) (M i) gl) (loaded_nodes M (an_n a)) (rp_moments rp) /\
  forall j k i i' gl gl', nth_error (loaded_nodes F (an_n a)) j = Some i -> nth_error (rp_forces rp) j = Some gl -> nth_error (loaded_nodes F (an_n a)) k = Some i' -> nth_error (rp_forces rp) k = Some gl' ->
    (Rabs (F i) < Rabs (F i') -> react_reach gl < react_reach gl') /\ (Rabs (F i) = Rabs (F i') -> react_reach gl = react_reach gl').
Proof. exact reactions_pictured. Qed.
Print Assumptions C98_reactions.
Example C98_reactions_nonvacuous : forall g uni gl ill sps us0, exists a' br rp, analyze gl ill ff sps None false = (a', Ok br) /\
  plot_reactions g uni us0 (an_beam a') (Some br) UNone = Ok (Some rp) /\ rp_moments rp <> [].
Proof. exact ff_drawn. Qed.
Example C98_draws_nonvacuous : deck (an_beam ff) /\ length (b_R (an_beam ff)) = an_ndof ff /\ an_n ff = b_nspans (an_beam ff) /\ positive_beam (b_lengths ff_beam) (b_EIs ff_beam).
Proof. exact (conj ff_deck (conj eq_refl (conj eq_refl ff_positive))). Qed.

(** The arrows of the forces and their labels are in view, and below every support symbol. *)
Theorem C98_view_partial : forall g uni us0 b br u rp gl pt, deck b -> plot_reactions g uni us0 b (Some br) u = Ok (Some rp) -> In gl (rp_forces rp) -> In pt (react_points gl) -> view rp pt.
Proof. exact forces_in_view. Qed.
Print Assumptions C98_view_partial.
Theorem C98_clear : forall g uni us0 b br u rp gl pt ss sp pt', deck b -> plot_reactions g uni us0 b (Some br) u = Ok (Some rp) -> In gl (rp_forces rp) -> In pt (react_points gl) ->
  In ss (support_symbols (rp_schem rp)) -> In sp ss -> In pt' (extremes sp) -> snd pt < snd pt'.
Proof. exact forces_clear. Qed.
Print Assumptions C98_clear.
(** ...but the arcs of the moments and their labels are cut off at the top. *)
Theorem C98_view_refuted : forall g uni gl ill sps us0, exists a' br rp gl0 c, analyze gl ill ff sps None false = (a', Ok br) /\ plot_reactions g uni us0 (an_beam a') (Some br) UNone = Ok (Some rp) /\
  In gl0 (rp_moments rp) /\ fst (mg_arc gl0) < 90 < snd (mg_arc gl0) /\ ~ view rp (circle_point gl0 90) /\ mg_text gl0 = Some c /\ ~ view rp (ca_at c).
Proof. exact arcs_cut_off. Qed.
Print Assumptions C98_view_refuted.
