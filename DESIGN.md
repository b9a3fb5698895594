# Formal model of pycba in Rocq (Coq 8.16.1)

The model lives in `rocq/theories`, logical name `Verif`.  Model files contain
definitions only (each citing the file and lines of `/repo` it models), proof files
contain lemmas, and `Prop_*.v` files contain only the property theorems, each closed
by `exact <lemma>` with `Print Assumptions` beneath, next to an `Example` that
shows the hypotheses are met by a concrete, non-trivial case.

## Modelling decisions

* Numbers.  Python floats and numpy arrays of floats are modelled by the standard
  library's real numbers `R`.  Floating-point rounding, overflow, NaN and signed zero
  are NOT modelled: theorems are about the exact-arithmetic meaning of the formulas.
  Comparisons are the decidable-by-axiom comparisons of `R` (`Rlt_dec`, `Rle_dec`, ...).
* Arrays.  1-D arrays are `list R` where the code indexes/slices them as data, or
  `nat -> R` with an explicit dimension for the vectors and matrices of the stiffness
  method.  Only indices below the dimension are observed.
* Exceptions.  A function that may raise returns `result A := Ok a | Err e`, with `e`
  the exception class.
* Mutation.  A mutating method becomes a function returning the new state; where the
  property is about aliasing the state is an explicit heap.
* `numpy.linalg.solve`.  Modelled by a Gaussian elimination with row exchange written in
  Gallina (`Linalg.v`): it either returns a vector or reports a singular matrix.  We prove
  that it is correct (`Some d` solves the system; `None` means that the matrix has a
  non-trivial kernel).  LAPACK's pivoting strategy and rounding are not modelled.
* `numpy.linalg.eigvalsh` / `scipy.linalg.eigh`.  Not computed.  The stability test is
  modelled as an arbitrary boolean function of the (stiffness, restraints, prescribed
  displacement) triple where only the caching matters, and as exact singularity where the
  meaning matters; modal properties are about any eigenpair of the assembled matrices.
* Parameters instead of library code: the Gauss-Legendre nodes `gl` (theorems that need
  them assume `gauss_rule gl`, met by the two-point rule), the eigenvalue test `ill` of the
  stability check (arbitrary), Python's `float(str)` in `parse_beam_string`, the printing of
  numbers in the TikZ source.
* numpy/scipy quadrature (`simpson`, `cumulative_trapezoid`) are modelled by their
  defining sums on uniform grids; `leggauss(2)` by its exact nodes +-1/sqrt 3.

## Plan per property

| id | modelled | proof |
|----|----------|-------|
| C01 | `get_cnl` of every load class incl. clipping | ring/field identities; integrals of the load as an independent spec |
| C02 | `get_cnl`, `get_mbr_results` (pointwise) | field identities between end rotations |
| C03 | `get_mbr_results` pointwise functions of x | derivatives (stdlib `derivable_pt_lim` / Coquelicot `is_derive`) with Macaulay brackets |
| C04 | `Load.get_ref` | equilibrium for FF/FP/PF; PP refuted (sign error), exact error formula |
| C05 | `k_FF..k_PP`, `_condense`, `get_ref` | Schur complement by field |
| C06 | all `get_span_k` branches | sum-of-squares energy |
| C07 | `k_FF_timo`, `_timo_flexibility`, `k_timoshenko`, `_ref_timoshenko` | field; limits by epsilon-delta |
| C08 | `SectionEI` constant pieces, 2-point Gauss, `_flexibility` | induction over pieces |
| C09 | `_forces`, `_assemble`, `_apply_bc`, solver | induction over DOFs; solver correctness |
| C10 | + `_reactions` | summation by parts over assembled members |
| C11-C12 | whole `analyze` | uniqueness of the solution + linearity |
| C13 | solver, `_check_stability` | completeness of elimination |
| C14 | op-history state machine | invariant by induction on histories |
| C15 | `analyze` | symmetry of assembled K |
| C16 | `get_local_span_coords` | induction on spans |
| C17 | `parse_LM`, `factor_LM`, `add_LM` | induction on rows |
| C18 | `_validate`, `Beam.__init__`, `coerce` | case analysis |
| C19-C20 | `utils.py` on Coq strings | induction on strings |
| C21-C25 | `Envelopes` | fold invariants |
| C26-C28 | `additive_envelope`, `sign_selective_envelope`, target combination | exchange argument / induction on cases |
| C29 | `LoadCases.combine/combined_loads` | via C11 |
| C30 | heap model of `LoadCases` | invariant over histories |
| C31-C32 | `make_patterned_udl`, `_make_segment_udl`, `_interval_udl_LM` | induction on segments |
| C33 | `LoadPattern.to_load_cases` | list lemmas |
| C34 | `Vehicle`, `reverse`, `make_train` | induction on lists |
| C35-C38 | `_axle_LM`, `run_vehicle`, `run_load_model`, `critical_values` | via C16 and list lemmas |
| C39 | `InfluenceLines` | via C11 |
| C40 | `SectionEI.add_segment` | invariant over histories |
| C41-C43 | `FoundationElement`, `_m_consistent`, `solve_modal` assembly | Schur complement, integrals, quadratic forms |
| C44-C45 | `nonlinear.py` | invariant over increments |
| C46 | `prestress.py` | Macaulay form of the piecewise parabola, moments of its loads |
| C47 | `units.py` | case analysis / histories |
| C48 | `VehicleLibrary` | computation + lra |
| C49-C53 | `results.py`, `load.py` | as above |
| C54 | `get_member_results`, trapezoidal recovery | induction over stations |
| C55-C56 | `resolve_shear_points`, `critical_values`, `envelopes_ratios` | list lemmas |
| C57 | `Envelopes.per_span` | list lemmas, via C21 |
| C58 | `nonlinear.py` end forces and moments | invariant over increments, virtual work |
| C59-C60 | `_is_mechanism`, `_update_R` | kernel of the restrained stiffness; invariant |
| C61 | `_subelement_loads`, `_rfull`, `ref`, `BeamAnalysis.analyze` | cutting the loads at the mesh nodes; telescoping the sub-element end forces; integrating the subgrade reaction of the cubics |
| C62 | `recover`, `_eb_member_values`, `_concat_results` | each sub-element is recovered like a prismatic member |
| C52, C63 (determinate beams) | `BeamAnalysis.analyze`, `LoadIC` | the difference of two solutions is a self-stress state |
| C64 (exact solution) | `BeamAnalysis.analyze`, `Beam.get_span_k`, `Beam.get_ref`, all loads, result tables | `ExactSpec` states the continuous problem by integrals; fixed-end actions clamp a member, stiffness columns bend it, uniqueness on each member and then of the assembled equations |
| C65 (extra node), C66 (mirror image) | as C64 | the solution of the beam problem, cut in two or mirrored, solves the other beam problem; uniqueness (C64) |
| C67-C68, C70 (schematic) | `BeamPlotter` (`render.py`): inferred supports, loads, hinges; `render_tikz` | `RenderSpec` states what is to be shown; induction over nodes and load rows; injectivity of generated names |
| C69 (reactions by node), C71 (load helpers) | `_reactions_by_node`, `add_*` | rank of a DOF among the restrained ones; parsing of the appended row |
| C72-C74 (programs with several objects) | `BeamAnalysis` objects and shared load lists (`SessionModel`: a store of lists and objects, one transition per call) | invariant over call lists; frame per call; the constructor applied to the present data gives an equal object up to the version counter |
| C75 (template objects) | `build_pycba_model`, `_template_npts` on an object reached by any program | the rebuilt object equals the object with the loads replaced, up to the version counter (C73) |
| C76 (combination objects), C78 (collection envelopes) | `LoadCombination`, `LoadCases.set/add/add_load/target_combination/envelope` (`CombObjModel`: a store of collections and combinations) | frame per call; optimality of the sign choice (C28); analyses of one beam share their stations; convex combinations lie between the extremes |
| C77 (reading envelopes) | `Envelopes.at`, `augment` | reading at a station picks the value there; interpolation keeps the order |
| C79 (stiffening) | as C15, members with varying rigidities included | energy of the shared displacements: members ordered by their flexibilities (the Gauss sums have equal nodes and weights), then `0 <= form(u-u', u-u')` |
| C80 (TikZ annotations) | `render_tikz` (`RenderModel`) | each line asked for is in the list of lines the function builds; text of the document |
| C81 (other units) | the constructor, `analyze` and the readings, of a beam and of the same beam described in other units | scaling by degrees of freedom: the new stiffness equations have the scaled displacements as solution; the station arrays scale entry by entry. Rigidities may be constant or one polynomial along the member. Partial: sections of several pieces and members on foundations are left out (their absolute tolerances 1e-12, 1e-9, 1e-8 are lengths in the user's unit) |
| C82 (convergence of deflections) | `analyze` and the tables of rotations and deflections, against the bent shapes of C64 (`ConvSpec`) | trapezoids on steps of at most L/npts miss the integral by the variation of the integrand; shear and moment have bounded variation; the start rotation is exact or pinned by both ends. Partial: members with varying section or on foundations, pin-pin members |
| C83 (steps of a traverse) | `run_vehicle` and `analyze`, the vehicle at any position (`RefineSpec`) | the displacements are a fixed inverse times the nodal forces, which are Lipschitz functions of the axle position within a span and agree at the nodes (for varying sections: through the quadrature of the unit-load curvatures); over a held end nothing is felt; superposition of the axles; every position is within half a step of an analysed one. Partial: no foundations, and no span with both a varying section and shear flexibility (its shear quadrature samples a jumping shear force, so its moments may jump with the axle position); the reactions of the two ends jump (`C83_end_reaction_refuted`) |
| C84 (exported tables) | `to_csv`, `to_dataframe` of results and envelopes with `column_stack`, `savetxt` and dictionaries (`ExportModel`); a reader of delimited text (`ExportSpec`) | texts without the delimiter are the pieces between delimiters; lengths of the arrays of analyses and envelopes. The number format is a parameter, legible for the numbers of the table. Partial: with another delimiter alone the header keeps its commas (`C84_delimiter_refuted`) |
| C85 (reactions and shapes) | no new code: analyses with loads and with prescribed displacements (`AnalysisModel`), influence lines (`InfModel`); the shape of a bent member is that of C64 (`MuellerSpec`) | reciprocity of the two analyses (virtual work over nodes, symmetric stiffnesses); the fixed-end forces are the work of the loads on the cubic shapes of an unloaded member, released or not (cubic about the constant shear angle where the member is flexible in shear). Partial: varying sections and foundations missing |
| C86 (drawn diagrams) | the backends (`set_backend`, `_resolve_backend`), the curves, marks, inversion and labels of `plot_bmd`/`plot_sfd`/`plot_dsd`, `plot_results`, `Envelopes.plot`, `plot_coincidents`, `BridgeAnalysis.plot_static`, `static_vehicle(plotflag=True)`, `plot_envelopes`, `plot_moments`, `plot_il` (`PlotModel`); what a reader sees is the height on the page of every line (`PlotSpec`). Left out: pens, fills, titles, the zero lines of plotly figures, the schematic of the beam | the lines of each panel are computed from the lengths of the result arrays (C51); overlays by induction over the calls; the analyses behind the bridge plots as in C35. Refuted: panel count, shear points with a plot, positions of another traverse, no rigid supports, plastic moments drawn twice |
| C87 (animation) | `BridgeAnalysis.animate`: traverse, running extremes, axis limits and the lines of every frame (`PlotModel`); the movie itself is not modelled | the running extremes by induction over the analyses; the limits contain the last running extremes and so all of them; the last band compared with the envelope of C21 |
| C88 (descriptions of a loading) | no new code: `parse_LM`, `_set_loads`, `get_ref`, `_member_values` as in C09/C49; `same_loading` (`LoadEqSpec`) is the equivalence generated by reordering and by the rewritings of one row | each rewriting leaves the fixed-end forces and every sampled diagram of the member unchanged (field identities), for all kinds of members without foundation; on foundations, sums of loads at one place and loads over the whole member, element by element of the mesh; reordering for all beams; then the analysis is the same function of the same data. Refuted: rows of unknown type or on missing members are ignored |
| C89 (drawn load patterns) | `plot_load_patterns`, `_load_case_loaded_regions`, `_load_case_loaded_spans` (`PatPlotModel`); the stretch that a row loads is specified from the documented load types (`PatPlotSpec`) and tied to the intensity of C03. Left out: colours, axes | case analysis of a row, induction over the rows; the segments from C31. Refuted: spans named by a case with distributed load are ignored, a trapezoid without length is not drawn |
| C90 (loads of a vehicle run) | `BrSessionModel`: a store of load lists, beam analyses (`SessionModel`) and bridge analyses, each with the list object it keeps as static loads; the calls of C72-C74 and constructor, `set_bridge`, `set_vehicle`, `static_vehicle`, `run_vehicle`, `run_load_model`. Left out: positions from the step (C36), plots | invariant of the store over all call sequences; induction over the positions of a run with the kinship relation of C36. Refuted: loads added to the beam analysis after a run are not in the next one |
| C91 (plastic pictures) | `NlPlotModel`: `plot_collapse`, `plot_hinge_history`, `plot_beam_state` as lists of drawn points, on the results of `NonlinModel` | mesh coordinates rise and events name nodes (C44, C45), so `np.interp` is exact at a hinge; lists. Refuted: a triangle at every joint, restrained or not; axles drawn without collapse, against the docstring. Shown: for moving loads the curve is always flat |
| C92 (restraint values) | existing models (`AnalysisModel`, `InfModel`, `ModalModel`, `NonlinModel`, `RenderModel`) under `edit_restraints` | every use of a value in the static analysis depends on its sign only; congruence through all steps. Refuted in general form: reaction influence lines, vibrations, plastic analysis, drawings compare with -1 |
| C93 (input and reaction pictures) | `InPlotModel`: `SectionEI.plot`, `_ei_depth_profile`, `render_reactions_mpl`, `_round_sig`, `plot_vehicle` as lists of points and arrows | `InPlotSpec`: graph of a function, rigidity of a beam at a coordinate, arrow of a force; induction over the pieces on top of the C40 facts; cube root by `Rpower`. Refuted: that a plain line means one rigidity |
| C94 (three moments) | existing models under `ThreeSpec` (simple spans of beam theory, Clapeyron's equation) | difference of two states of a span under the same loads by integration (from C64), equality of rotations at the joint; closed-form rotations from clamped states |
| C95 (comparing frequencies) | `ModalModel` under `FreqSpec` (stiffer, further held, similar, reversed beams) | min-max comparison through a linear map of motions (a nonzero combination of modes orthogonal to the earlier ones, then C43's least ratio); cubics restricted to parts of elements for finer meshes; existence of eigensystems by completeness and deflation |
| C96 (tendon, mode, ratio and response pictures, summaries) | `MorePlotModel` (points, labels, bars, groups) under `MorePlotSpec` | inversion of each loop; C46's drawn drape, C43's shapes, C56's ratios; induction over axle groups |
| C97 (matplotlib schematic) | `SchemModel` (glyphs as points, arrows and texts) under `SchemSpec` (force, load and moment shown, dimensioned, lettered, inside the limits) | inversion of the drawing loops; monotone glyph heights; arcs by the angle-sum formulas; bounds of every mark against the limits |
| C98 (support symbols, picture of reactions) | `SymbolModel` (lines, polygons, discs) under `SymbolSpec` (pictured kinds, extremes of a shape, reaction shown, view) | box bounds of every shape; inversion of the drawing loops; reported reactions from C69; arcs by the angle-sum formulas |
| C99 (files written by plot, save_tikz) | `SaveModel` (paths, suffixes, disk, outcomes; file system, matplotlib and pdflatex as parameters) under `SaveSpec` (extension, sibling, document, last writer) | suffix lemmas by induction on names; case inversion of a call; induction on the series of calls |
| C100 (object left by a load pattern) | `PatRunModel` (loop over the arrangements with its writes to the object) under `PatRunSpec` (held results agree with held loads, last loads set) | induction on the arrangements: analyses do not depend on the loads written; C75 for the agreement of results; induction on calls |
| C101 (prescribed displacements without support) | no new code: `analyze` as in C09/C10; `jacked` (`JackSpec`) | nodal balance DOF by DOF as in C09 but without its hypothesis; virtual work on rigid motions; a concrete cantilever for the refutation |
| C102 (point load at a joint) | no new code: `analyze` as in C09; rows `at_end`, `at_start` (`JointSpec`) | released fixed-end forces of a load at a member end are the load itself; nodal sums agree DOF by DOF; uniqueness of the solution |

Not expressible in this model: the drawing by matplotlib and plotly of the lines given to them (PlotModel, SchemModel),
what `pdflatex` does with a document, floating-point rounding, LAPACK internals, pandas, and files other than those of `plot` and `save_tikz`.

## Modelled and not modelled

| source | modelled in | not modelled |
|--------|-------------|--------------|
| `load.py` | LoadModel | plotting |
| `section.py` | SectionModel, SectBuildModel, InPlotModel (points of `plot`) | `polyfit` (any function), `validate_length` with a given tolerance, styles of the plot |
| `beam.py` | SectionModel, FlexModel, ElementModel, FoundationModel, BeamModel, MorePlotModel (counts) | plotting, deprecated aliases |
| `foundation.py` | FoundationModel, ResultsModel (`recover`) | - |
| `modal.py` | ModalModel, MorePlotModel (plots, frequencies in Hz, text) | `eigh` (any function, contract as hypothesis), periods |
| `analysis.py` | AnalysisModel, RenderModel (`add_*`, `_reactions_by_node`), SessionModel (several objects, shared load lists), PlotModel, SymbolModel (`plot_reactions`) | the schematic and reaction panels of `plot_results` |
| `utils.py` | UtilsModel | - |
| `results.py` | EnvelopeModel, EnvHeapModel, SpanModel, EnvReadModel, ExportModel, ResultsModel, PlotModel | pandas itself |
| `plotting.py` | PlotModel | hover texts, layout, the zero lines |
| `load_cases.py` | LoadCasesModel, CollModel, CombObjModel, PatPlotModel, MorePlotModel (`plot_response_envelope`) | export of tables, metadata other than `load_position` (CollModel: as an object) |
| `pattern.py` | PatternModel, PatRunModel (what `analyze` leaves in the given analysis object) | |
| `vehicle.py` | VehicleModel, InPlotModel (arrows of `plot_vehicle`) | styles of the plot; numpy shapes other than one-dimensional |
| `prestress.py` | PrestressModel, MorePlotModel (`plot_tendon`) | the beam schematic in the picture |
| `inf_lines.py` | InfModel, PlotModel (`plot_il`) | the dtype of the restraints only as integer or not |
| `units.py` | UnitsModel | formatting of the numbers, non-ASCII names |
| `nonlinear.py` | NonlinModel, PlotModel (`plot_moments`), NlPlotModel (the other plots) | `matrix_rank` (any function, contract as hypothesis), styles of the plots and the lines at +-Mp, a zero `mesh_size` or `step` |
| `render.py` | RenderModel, InPlotModel (depth profile, reaction arrows, label rounding), SchemModel (matplotlib schematic), SymbolModel (support symbols, picture of reactions), SaveModel (`save_tikz`) | colours and fonts, units resolved to a unit system beforehand; number formatting is any function |
| `bridge.py` | BridgeModel, PlotModel, BrSessionModel, MorePlotModel (`plot_ratios`, axle summary) | the schematic of bridge and vehicle, labels of reactions, the movie, the vehicle description of `critical_values`' caller |

## Trusted base

* Coq 8.16.1's kernel (and `coqc`, the standard library's `Reals` axioms as listed by
  `Print Assumptions`: `ClassicalDedekindReals.sig_forall_dec`,
  `ClassicalDedekindReals.sig_not_dec`,
  `FunctionalExtensionality.functional_extensionality_dep`, and, where listed,
  `Classical_Prop.classic`).  No axioms of our own.
* The reading of the Python source recorded in the comments of the model files.

## Findings

Properties that the faithful model violates, each with the theorem that refutes it:

* C04/C05, pin-pin members: `Load.get_ref` (load.py:118-122) and its copies for sections
  (beam.py:849-858) add the released shears with the wrong sign.  The end forces do not
  balance the load unless the two fixed-end moments cancel
  (`C04_pin_pin_refuted`, `C04_pin_pin_balances_iff`).
* C07, concentrated moment on a shear-flexible prismatic member: `_ref_timoshenko` drops the
  shear rotation of the applied moment, the reported forces do not clamp the member
  (`C07_moment_load_refuted`).
* C53, partial UDL that starts beyond the member: raises instead of being ignored
  (`C53_partial_udl_off_span_refuted`).
* C53, partial UDL that overhangs the member: end forces are clipped, the internal diagrams
  are not (`C53_partial_udl_diagram_refuted`).

* C10, pin-pin members: the reactions of a whole beam do not balance the moments of the
  loads (`C10_pin_pin_moment_refuted`), a consequence of the release above.
* C14 (outside the stated claim): the `restraints` getter returns the live list, so an edit
  in place is not seen by the stability cache (`C14_in_place_edit_refuted`).
* C16: the span lookup counts spans from 0 although its docstring says 1-based.
* C18: a member-type list shorter than the span list silently drops the remaining spans
  (`C18_short_types_refuted`).
* C25: combining envelopes of 2, 3 and 2 analyses leaves a non-zero reaction history: the last
  merge compares counts with the zeroed copy of the first (`C25_history_refuted`).
* C51: `BeamResults.at(0)` returns the closing zero of the first station, not the end moment or
  shear (`C51_left_end_refuted`, `C51_left_end_reads_zero`).
* C20: text before the first and after the last terminal letter is ignored; a length such as
  `1e3` is read as an encastre terminal.
* C32: `_make_segment_udl` compares the covered length with the span length with numpy's
  default relative tolerance, so a segment that ends short of the span end by less than 1e-5 of
  the span is extended to it (`C32_segment_end_refuted`).
* C29: `combine` factors the settlements along with the loads, `analyze_combination` applies
  them in full (`C29_settlement_refuted`); with an imposed curvature on a released member the
  deflections differ too, because the analysis switches to another recovery
  (`C29_imposed_curvature_refuted`).
* C30: `extend`, `add_trap` (`a` without `c`, new name) and `add_span_udl` raise after having
  changed the collection (`C30_extend_refuted`, `C30_add_trap_refuted`,
  `C30_add_span_udl_refuted`).
* C34: `Vehicle.reverse(in_place=True)` mirrors the axle coordinates but not the spacings and
  weights, so a train or a copy made of the reversed vehicle is the original one
  (`C34_reversed_in_place_refuted`); `make_train` refuses the documented single gap
  (`C34_single_gap_refuted`) and vehicles with a zero spacing (`C34_train_rejects`).
* C48: the ABAG B-double weighs 68 t (documented 68.5 t), the ABAG semi-trailer 53 t
  (documented 45 t) (`C48_abag_weight_refuted`).
* C36: a traverse leaves the axles of its last position in the analysis object, so another
  `BridgeAnalysis` made from it (or `set_bridge` with it) has them as static loads
  (`C36_reused_analysis_refuted`).
* C36: a zero step raises after the shear points have been armed, and they stay armed
  (`C36_zero_step`).
* C38: the positions reported are those whose own extreme is close (`numpy.isclose`) to the
  critical value; only one of them need attain it at the reported station.  A zero reaction
  extreme is reported with the first position.
* C46: the compound parabola has a kink at its right contraflexure unless `b == c`: the level
  there is computed with `b / (L - b)` instead of `b / (L - c)`
  (`C46_compound_joins`, `C46_compound_slope_refuted`).
* C46: when the first (last) span is unstressed, the anchorage moment of the tendon is applied
  at the end of the beam (`C46_unstressed_span_refuted`); when no span is stressed and an end
  of the beam is free, the call raises NameError (`C46_no_tendon_refuted`).  A change of force
  at an interior support gets no moment although the eccentricity there is not zero.  The
  module's docstring gives the secondary moment as `M_bal - F e`, with its own sign convention
  it is `M_bal + F e` (`C46_analysed_span`).
* C46: the order of the points of a profile is checked, except for the parabola on a cantilever:
  a straight part longer than the span is accepted (`C46_refused_partial`,
  `C46_tip_unchecked_refuted`).
* C39: `create_ils` resets the results but not the positions, so after a second creation
  `get_il` returns more positions than ordinates (`C39_recreated_refuted`).  With restraints in
  a float array (`np.array` of a list with a spring stiffness) the index mask is a float array
  too, and influence lines of reactions raise IndexError (`C39_float_restraints`).
* C40: two segments may miss each other by up to 1e-9; at a point inside the gap the section
  returns an uninitialised value (`C40_gap_refuted`).  A polynomial segment is checked at its
  stations only and can be negative between them (`C40_poly_refuted`).
* C43: the modal analysis ignores a Winkler foundation (and prescribed displacements); none of
  the modes reported for a beam on a foundation balances the subgrade pressure
  (`C43_ignores`, `C43_foundation_refuted`).
* C45: the first element of every span but the first gets the rigidity of the span before it
  (`C45_first_element`, `C45_rigidity_refuted`).  Spring supports are treated as free
  (`C45_supports`), and loads other than full uniform and point loads are dropped without
  notice (`C45_other_loads_ignored`).  Uniform loads are lumped: no fixed-end moments
  (`C45_uniform_load`).
* C59: any two hinges farther apart than twice the smallest element, one of them at a node
  free to turn, are reported as collapse, because the trial stiffness releases both ends at
  each hinge and the node's own rotation becomes a singular motion (`C59_two_hinges`,
  `C59_collapse_refuted`): a continuous beam with hinges over two supports "collapses".
* C60: the increment in which a hinge forms is applied in full, so the moment kept from then on
  can exceed the capacity by any amount (`C60_capacity_refuted`).
* C61: a partial uniform load on a foundation member that starts or ends within the relative
  tolerance of `np.isclose` of an internal mesh node is stretched or cut to the node; the
  tolerance grows with the distance from the start of the member (`C61_snapping_refuted`).
* C62: shear and moment along a foundation member jump at every internal node by the lumped
  subgrade reaction (`C62_jumps`), and the closing stations of the interior sub-elements, with
  V = M = D = 0, stay in the tables.  A free beam under a uniform load therefore settles
  uniformly, as it should, but is reported with moments `w h^2 / 12` and with zero deflections
  between the true ones (`C62_settlement_refuted`).
* C52, C63: an imposed curvature on a pin-pin member produces reactions although the member is
  free to bend, the same released shears as in C04 (`C52_pin_pin_refuted`).
* C67: a node held by a negative restraint other than -1 is not drawn
  (`C67_other_negative_refuted`), and a vertical spring hides a clamped rotation
  (`C67_spring_with_clamp_refuted`).
* C68: a partial UDL that overhangs its span is drawn over the next one
  (`C68_overhang_refuted`); a load on span 0 acts nowhere but is drawn past the right end
  (`C68_span_zero_refuted`).
* C69: `_reactions_by_node` drops reactions not above 1e-6 in whatever units
  (`C69_small_reactions_refuted`).
* C70: the TikZ source of an upward distributed load is that of the downward one
  (`C70_sense_refuted`); the labels of the supports run past `Z`, at the 28th node into a
  backslash (`C70_letters_refuted`).
* C71: `add_trap` with `c` but no `a` ignores `c` (`C71_trap_without_start_refuted`).
* C72: a load list given to two objects is extended by the `add_*` helpers of either, so both
  objects and the caller see the load (`C72_shared_refuted`).
* C73: `analyze()` without `npts` uses the number of stations of the previous call instead of
  the documented 100 (`C73_default_stations_refuted`); a span added with `obj.beam.add_span`
  is never analysed, every later `analyze` raises (`C73_added_span_refuted`).
* C74: `add_span` with an invalid member type raises after extending the lists of lengths and
  rigidities (`C74_rejected_span_refuted`).
* C75: `build_pycba_model` does not pass the foundation moduli on, so load cases on a beam on
  an elastic foundation are analysed without it (`C75_foundation_lost`,
  `C75_foundation_refuted`).
* C76: a target combination keeps its factors when `set` gives a case other loads, and is then
  no longer the most adverse (`C76_stale_refuted`).
* C77: `Envelopes.at(0)` reads zero at a fixed left end (`C77_left_end_refuted`); `augment`
  merges envelopes of different beams (`C77_other_beam_refuted`).
* C81: the rotation read at the left end of the beam is that of the closing station, which is
  not divided by the rigidity, so it changes with the units (`C81_left_rotation_refuted`).
* C81: the length of a section may differ from its span by 1e-6 of the larger of one unit and
  the span, so a section for a span of 0.5 m is accepted in metres and rejected in millimetres
  (`C81_section_length_refuted`).
* C81: the stability check compares eigenvalues of translations and of rotations, so a stable
  cantilever passes in one unit of length and is rejected in another (`C81_check_refuted`, for
  a test with exact eigenvalues).
* C84: `to_csv(path, delimiter=";")` separates the values by semicolons but the names of the
  columns by commas (`C84_delimiter_refuted`).
* C86: `plot_results(show_beam=False)` is documented as the bare three-panel figure but has four
  panels unless `show_reactions=False` is given too (`C86_panels_refuted`).
* C86: `static_vehicle(pos, plotflag=True, shear_points=...)` returns results without the shear
  points: the plot analyses again after they were disarmed (`C86_shear_points_refuted`).
* C86: `plot_envelopes` draws the reaction histories of any envelope with as many analyses against
  the positions of the last traverse (`C86_other_positions_refuted`), and fails for a beam without
  rigid supports (`C86_no_supports_refuted`).
* C86: `plot_moments` inverts the axis it is given, so a second plot on the same axes turns both
  upside down (`C86_plastic_overlay_refuted`).
* C88: a row of an unknown load type, and a row on a member that the beam does not have, are
  ignored in silence (`C88_unplaced_refuted`); the total load on the beam is then not what the
  load matrix says.
* C89: `plot_load_patterns` is documented to take the loaded spans from `loaded_spans` when given; a
  case with any distributed load ignores them (`C89_named_spans_refuted`).
* C89: a trapezoidal row with a start but no length is analysed up to the end of the span but not
  drawn by `plot_load_patterns` (`C89_open_trapezoid_refuted`).
* C90: a `BridgeAnalysis` keeps the load list of its beam analysis without copying it, and every vehicle
  position gives the beam analysis a new list. So a load added to the beam analysis before the first
  vehicle run is included in it; one added afterwards is silently left out of all later runs
  (`C90_later_loads_refuted`).
* C91: the pictures of a plastic analysis draw a support triangle at every joint between spans, also at
  one without any restraint (`C91_triangles_refuted`), and `plot_beam_state` draws the axles of a vehicle
  also when the analysis did not collapse, against its docstring (`C91_axles_refuted`). `plot_collapse` of
  a moving-load result is always a straight line, titled "Collapse mechanism" if it collapsed, because
  `analyze_moving` keeps no displacements (`C91_moving_flat`).
* C92: the static analysis treats every negative restraint value as rigid, the other modules only -1, and
  nothing refuses or warns. With e.g. -2 everywhere, a vibration analysis has free supports
  (`C92_modal_refuted`), a plastic analysis reports collapse at load factor 0 with no hinge
  (`C92_plastic_refuted`), no support is drawn (`C92_drawn_refuted`) and no influence line of a reaction can
  be read (`C92_reaction_lines_refuted`); with -2 at one place the line of another support's reaction is
  returned (`C92_wrong_reaction_refuted`).
* C93: the schematic decides whether to draw the depth of a beam from 41 samples of each section. A strip
  narrower than a fortieth of the span that lies between two samples is not seen: a beam with a strip of five
  times the rigidity is drawn as a plain line (`C93_plain_line_refuted`).
- `plot_ratios` asks for the key `Rmax0`, so the ratios of a bridge without any reported reaction (on springs or a foundation only) are refused as insufficient (C96_ratios_refuted).
- The schematic writes its dimensions and load extents in metres whatever unit system is asked for (C97_metres_refuted).
- With `supports=False` the vertical limits leave no room for the load extents, which are cut off (C97_limits_refuted).
- A trapezoidal load that changes sense is drawn with arrows on the side of a straight line between the glyph heights, so some arrows point against the load (C97_sense_refuted), and one from -w to w has the label of a uniform load w (C97_label_refuted).
- The label of a distributed load acting upwards lies inside its arrows (C97_label_place_refuted); a point load of zero is drawn as an arrow of the full length of the largest force (C97_no_force_refuted).
- A node on a rotational spring alone gets the same symbol as one on a vertical spring that stands on the ground (C98_torsion_refuted).
- If no load is drawn, the wall of a clamp reaches 1.0 (hatching 1.4) symbol heights above the beam but the axes end at 0.9: its top is cut off (C98_limits_refuted). `plot_reactions` always draws without loads.
- `render_reactions_mpl` only lowers the bottom of the view: the arcs of moment reactions (radius 1.2 symbol heights) and their labels (at 1.7) lie above its top, 0.9 (C98_view_refuted).
- `plot(save="fig.TEX")` is recognised as TikZ without regard to case, but `save_tikz` compares the suffix with case: fig.tex is (over)written and fig.TEX is not (C99_case_refuted).
- `save_tikz` replaces whatever follows the last dot: with `tikz=True` the targets "beam-1.5" and "beam-1.6" both become beam-1.tex, the second picture replacing the first (C99_names_refuted).
- `LoadPattern.analyze` replaces the loads and the results of the analysis object it was given; neither the docstring nor the return value says so (C100_left, C100_nonvacuous).
- A pattern on a beam held up by its foundation only raises ValueError, although the beam itself can be analysed: the arrangements lose the foundation (C100_foundation_refuted, as C75).
- A pattern run ignores the `shear_points` of the analysis object: the results left lack the stations that analysing the object again gives (C100_sections_refuted).
- Where D prescribes a displacement at a degree of freedom without rigid support, the force that holds it there is not reported (at a sprung one only the force of the spring is): the reported reactions do not balance the loads (C101_lifted_tip_refuted).

## Seeded wrong programs

`seeded/LOG.jsonl` has one line per edit of a model definition, made in a scratch copy.

- After an edit the files were rebuilt, and every lemma whose proof broke was admitted in the copy. `theorems_failed` lists the property theorems that then rest on an admitted lemma.
- A listed theorem is therefore one whose proof, as written, breaks. That its statement is false of the edited program was not proved separately.
- An edit with no failed theorem survived; `theorems_tightened` names the theorems strengthened because of it. One survivor has none, and its note says why.
- The rebuilds covered the files present when the edit was made, so theorems added later are not listed. For the edits whose note says so, only the files of one property were rebuilt.
- A proof that only ran out of time on the loaded machine is no failure: proofs in files that do not depend on the edited one were taken off the lists, and the runs that such a timeout stopped were repeated and the first attempt dropped. One more attempt, whose edit left a statement that does not typecheck, was dropped and repeated with an equivalent edit.
- Some planned edits were not run for lack of time; they are not in the log.
