{
 "claims": [
  {
   "property": "C01",
   "status": "proved",
   "theorems": [
    "C01_fixed_end_forces_balance",
    "C01_fixed_end_forces_defined"
   ],
   "note": "All seven load classes, loads clipped at the right end included; load = integral of its intensity over the member."
  },
  {
   "property": "C02",
   "status": "proved",
   "theorems": [
    "C02_fixed_end_moments_clamp",
    "C02_fixed_end_forces_virtual_work"
   ],
   "note": "All transverse load classes; also as virtual work on Hermite shapes (this form includes overhanging partial loads)."
  },
  {
   "property": "C03",
   "status": "proved",
   "theorems": [
    "C03_diagrams_solve_simple_span",
    "C03_diagram_rates",
    "C03_results_tabulate"
   ],
   "note": "All closed-form load classes lying on the member."
  },
  {
   "property": "C04",
   "status": "partial",
   "theorems": [
    "C04_releases_balance_partial",
    "C04_released_ends_carry_no_moment",
    "C04_pin_pin_balances_iff",
    "C04_pin_pin_refuted"
   ],
   "note": "FF/FP/PF proved. The pin-pin release violates the property (sign of the released shears); proved to hold exactly when the fixed-end moments cancel."
  },
  {
   "property": "C05",
   "status": "partial",
   "theorems": [
    "C05_release_is_condensation_partial",
    "C05_stiffness_is_condensation",
    "C05_pin_pin_no_stiffness"
   ],
   "note": "Stiffness for all four types and all formulations; loads for FP and PF. The PP load vector violates the claim (C04_pin_pin_refuted)."
  },
  {
   "property": "C06",
   "status": "proved",
   "theorems": [
    "C06_member_mechanics"
   ],
   "note": "Euler-Bernoulli, Timoshenko, SectionEI; all member types without foundation."
  },
  {
   "property": "C07",
   "status": "partial",
   "theorems": [
    "C07_stiffness_inverts_flexibility",
    "C07_flexibility_is_end_rotations",
    "C07_fixed_end_forces_partial",
    "C07_stiffness_limit",
    "C07_fixed_end_limit",
    "C07_moment_load_refuted"
   ],
   "note": "Everything except concentrated moments, for which the fixed-end forces are wrong (refuted)."
  },
  {
   "property": "C08",
   "status": "proved",
   "theorems": [
    "C08_constant_section_is_scalar",
    "C08_every_subdivision_builds"
   ],
   "note": "EI and GAv, every subdivision, all member types."
  },
  {
   "property": "C09",
   "status": "proved",
   "theorems": [
    "C09_supports_and_equilibrium",
    "C09_reactions_hold_the_nodes"
   ],
   "note": "Any number of spans, all member types, springs, settlements."
  },
  {
   "property": "C10",
   "status": "partial",
   "theorems": [
    "C10_reactions_balance_load",
    "C10_reactions_balance_moment_partial",
    "C10_pin_pin_moment_refuted"
   ],
   "note": "Vertical balance for all member types; moment balance for FF/FP/PF. Moment balance is false for pin-pin members (refuted)."
  },
  {
   "property": "C11",
   "status": "proved",
   "theorems": [
    "C11_loads_add",
    "C11_loads_scale",
    "C11_load_order",
    "C11_diagrams_add",
    "C11_diagrams_scale"
   ],
   "note": "Displacements, reactions, member end forces and recovered diagrams; any quadrature rule and stability test. Diagrams of members without elastic foundation; rotations and deflections when no member is released or no curvature is imposed."
  },
  {
   "property": "C12",
   "status": "proved",
   "theorems": [
    "C12_loads_and_settlements_add",
    "C12_loads_and_settlements_scale",
    "C12_loads_plus_settlements"
   ],
   "note": "Displacements, reactions (and end forces for the sum)."
  },
  {
   "property": "C13",
   "status": "proved",
   "theorems": [
    "C13_unique",
    "C13_mechanism_raises",
    "C13_no_mechanism_solves",
    "C13_continuous_beams_are_stable"
   ],
   "note": "The eigenvalue test is an arbitrary oracle: a mechanism raises whatever it answers."
  },
  {
   "property": "C14",
   "status": "proved",
   "theorems": [
    "C14_cache_is_transparent",
    "C14_never_stale",
    "C14_loads_never_recheck",
    "C14_in_place_edit_refuted"
   ],
   "note": "All histories of the listed calls. Outside the claim: in-place edits of the list returned by the restraints getter bypass the version count (C14_in_place_edit_refuted)."
  },
  {
   "property": "C15",
   "status": "proved",
   "theorems": [
    "C15_betti",
    "C15_maxwell",
    "C15_maxwell_varying"
   ],
   "note": "Betti for every pair of load sets; Maxwell for point loads at the nodes."
  },
  {
   "property": "C16",
   "status": "proved",
   "theorems": [
    "C16_span_lookup"
   ],
   "note": "Span indices are 0-based (the docstring says 1-based)."
  },
  {
   "property": "C17",
   "status": "proved",
   "theorems": [
    "C17_factor_then_parse",
    "C17_scale_one",
    "C17_factor_twice",
    "C17_factor_concat",
    "C17_parse_concat",
    "C17_scaled_load_scales_forces"
   ],
   "note": "Documented rows of types 1-6."
  },
  {
   "property": "C18",
   "status": "partial",
   "theorems": [
    "C18_analyze_rejects_exactly",
    "C18_inconsistent_rejected",
    "C18_constructor_exact_partial",
    "C18_short_types_refuted"
   ],
   "note": "Proved except for member-type lists shorter than the span list, which silently drop spans (refuted)."
  },
  {
   "property": "C19",
   "status": "proved",
   "theorems": [
    "C19_supports_lower",
    "C19_rejections"
   ],
   "note": "Exact characterisation of the accepted lists."
  },
  {
   "property": "C20",
   "status": "proved",
   "theorems": [
    "C20_round_trip",
    "C20_only_descriptions",
    "C20_illegal_rejected"
   ],
   "note": "Python float() is a parameter. Text before the first and after the last terminal is ignored by the code."
  },
  {
   "property": "C21",
   "status": "proved",
   "theorems": [
    "C21_envelope_extremes"
   ],
   "note": "Zero is always part of an envelope, as in the code."
  },
  {
   "property": "C22",
   "status": "proved",
   "theorems": [
    "C22_coincident_effects"
   ],
   "note": ""
  },
  {
   "property": "C23",
   "status": "proved",
   "theorems": [
    "C23_augment_is_concatenation",
    "C23_combine_is_concatenation",
    "C23_merge_order",
    "C23_augment_succeeds_iff",
    "C23_augment_commutative",
    "C23_augment_idempotent",
    "C23_augment_associative",
    "C23_objects_are_values",
    "C23_operands_unchanged",
    "C23_update_is_local"
   ],
   "note": "Operands unchanged: proved on a heap model with the in-place writes of zero_like."
  },
  {
   "property": "C24",
   "status": "proved",
   "theorems": [
    "C24_sum_bounds_combinations",
    "C24_sum_commutative",
    "C24_sum_associative"
   ],
   "note": ""
  },
  {
   "property": "C25",
   "status": "partial",
   "theorems": [
    "C25_reaction_extremes",
    "C25_history_zeroed_partial",
    "C25_history_refuted"
   ],
   "note": "The history is zeroed only if the last operand's count differs; counts 2,3,2 refute the claim."
  },
  {
   "property": "C26",
   "status": "proved",
   "theorems": [
    "C26_additive_envelope",
    "C26_exists"
   ],
   "note": "argsort is any function that sorts."
  },
  {
   "property": "C27",
   "status": "proved",
   "theorems": [
    "C27_sign_selective_envelope",
    "C27_masks_identify",
    "C27_exists"
   ],
   "note": ""
  },
  {
   "property": "C28",
   "status": "proved",
   "theorems": [
    "C28_maximum",
    "C28_minimum",
    "C28_senses"
   ],
   "note": "Best among all factors between the two given ones, in particular among all subsets."
  },
  {
   "property": "C29",
   "status": "proved",
   "theorems": [
    "C29_combination_is_analysis",
    "C29_factor_mapping",
    "C29_settlement_refuted",
    "C29_imposed_curvature_refuted"
   ],
   "note": "Moments and shears of any cases; rotations and deflections when no member is released or no case imposes a curvature. Both exclusions are shown necessary by refutations."
  },
  {
   "property": "C30",
   "status": "proved",
   "theorems": [
    "C30_unique_names",
    "C30_order_kept",
    "C30_caller_edits",
    "C30_add",
    "C30_set",
    "C30_append",
    "C30_extend",
    "C30_add_load",
    "C30_add_udl",
    "C30_to_LM",
    "C30_extend_refuted",
    "C30_add_trap_refuted",
    "C30_add_span_udl_refuted"
   ],
   "note": "Edits through the LoadCase objects of the collection itself are outside the claim. extend, add_trap and add_span_udl can raise after changing the collection (refuted)."
  },
  {
   "property": "C31",
   "status": "proved",
   "theorems": [
    "C31_segments_tile",
    "C31_full_load",
    "C31_fixed_end_forces",
    "C31_span_cases"
   ],
   "note": ""
  },
  {
   "property": "C32",
   "status": "partial",
   "theorems": [
    "C32_segment_load_partial",
    "C32_segment_accepted",
    "C32_segment_end_refuted",
    "C32_lane_interval"
   ],
   "note": "Proved for lane loads. For segment loads the right end has a wider tolerance than documented (refuted at 1e-9)."
  },
  {
   "property": "C33",
   "status": "proved",
   "theorems": [
    "C33_pattern_cases",
    "C33_set_loads",
    "C33_unset_loads",
    "C33_pattern_envelope",
    "C33_pattern_envelope_only"
   ],
   "note": ""
  },
  {
   "property": "C34",
   "status": "partial",
   "theorems": [
    "C34_axle_offsets",
    "C34_reversed",
    "C34_reversed_in_place_twice",
    "C34_reversed_in_place_refuted",
    "C34_train",
    "C34_train_rejects",
    "C34_single_gap_refuted"
   ],
   "note": "Trains of vehicles not reversed in place and without zero spacings; both exclusions are shown necessary."
  },
  {
   "property": "C35",
   "status": "proved",
   "theorems": [
    "C35_constructed",
    "C35_axles",
    "C35_whole_vehicle"
   ],
   "note": ""
  },
  {
   "property": "C36",
   "status": "partial",
   "theorems": [
    "C36_traverse",
    "C36_completes",
    "C36_first_failure",
    "C36_backwards",
    "C36_missing",
    "C36_zero_step",
    "C36_reused_analysis_refuted"
   ],
   "note": "Decks without elastic foundation. The loads of the last position stay in the analysis object, which matters when it is reused (refuted)."
  },
  {
   "property": "C37",
   "status": "proved",
   "theorems": [
    "C37_traverse",
    "C37_completes",
    "C37_lane",
    "C37_clearances_rejected",
    "C37_clearances_accepted"
   ],
   "note": "Up to 1e-9 at the ends of the clearance zone; finite clearances."
  },
  {
   "property": "C38",
   "status": "proved",
   "theorems": [
    "C38_vehicle",
    "C38_load_model"
   ],
   "note": "Decks without elastic foundation."
  },
  {
   "property": "C39",
   "status": "partial",
   "theorems": [
    "C39_constructed",
    "C39_superposition",
    "C39_default",
    "C39_effect_unique",
    "C39_creates",
    "C39_reads",
    "C39_recreated_refuted",
    "C39_float_restraints",
    "C39_names"
   ],
   "note": "Beams without foundations or settlements; restraint codes -1, 0 or positive for the reactions."
  },
  {
   "property": "C40",
   "status": "partial",
   "theorems": [
    "C40_accepted_iff",
    "C40_rejected_unchanged",
    "C40_constructor",
    "C40_every_history",
    "C40_contiguous",
    "C40_length",
    "C40_validated",
    "C40_evaluates",
    "C40_total",
    "C40_breakpoints",
    "C40_positive_rigidity",
    "C40_gentle",
    "C40_gap_refuted",
    "C40_poly_refuted"
   ],
   "note": "Pieces are contiguous within the code's own tolerance; evaluation and breakpoints for segments that meet exactly (with a gap inside the tolerance evaluation fails: refuted). polyfit is an arbitrary function."
  },
  {
   "property": "C41",
   "status": "proved",
   "theorems": [
    "C41_condensed",
    "C41_mesh_state",
    "C41_recovered",
    "C41_total",
    "C41_symmetric",
    "C41_energy",
    "C41_least_energy",
    "C41_positive",
    "C41_mesh_size"
   ],
   "note": ""
  },
  {
   "property": "C42",
   "status": "proved",
   "theorems": [
    "C42_shape",
    "C42_stiffness",
    "C42_foundation",
    "C42_mass",
    "C42_symmetric",
    "C42_positive",
    "C42_bending"
   ],
   "note": ""
  },
  {
   "property": "C43",
   "status": "partial",
   "theorems": [
    "C43_real",
    "C43_distinct",
    "C43_modes",
    "C43_normal",
    "C43_count",
    "C43_ascending",
    "C43_complete",
    "C43_least",
    "C43_nodes",
    "C43_shape",
    "C43_accepted",
    "C43_ignores",
    "C43_foundation_refuted"
   ],
   "note": "Frequencies are the square roots of Rayleigh quotients of piecewise cubic motions; scipy.linalg.eigh enters through its documented contract. Refuted for beams on a Winkler foundation, which the analysis ignores."
  },
  {
   "property": "C44",
   "status": "proved",
   "theorems": [
    "C44_factor",
    "C44_reaches_limit",
    "C44_steps",
    "C44_ratios",
    "C44_course",
    "C44_recording",
    "C44_events",
    "C44_moving"
   ],
   "note": ""
  },
  {
   "property": "C45",
   "status": "partial",
   "theorems": [
    "C45_accepted",
    "C45_sections_refused",
    "C45_mesh",
    "C45_supports",
    "C45_capacities",
    "C45_rigidity",
    "C45_first_element",
    "C45_rigidity_refuted",
    "C45_point_load",
    "C45_uniform_load",
    "C45_resultant",
    "C45_axles",
    "C45_other_loads_ignored"
   ],
   "note": "Rigidity refuted for the first element of every span but the first, which has that of the span before; other load types and springs are ignored."
  },
  {
   "property": "C46",
   "status": "partial",
   "theorems": [
    "C46_simply_supported",
    "C46_analysed_span",
    "C46_span_balance",
    "C46_left_cantilever",
    "C46_right_cantilever",
    "C46_self_equilibrium",
    "C46_parabola",
    "C46_straight",
    "C46_continuous",
    "C46_drawn",
    "C46_compound_joins",
    "C46_compound_slope_refuted",
    "C46_unstressed_span_refuted",
    "C46_no_tendon_refuted",
    "C46_refused_partial",
    "C46_tip_unchecked_refuted"
   ],
   "note": "Every stressed span (its neighbours may be unstressed), joints of the profile inside the span; up to the actions below 1e-9 that the code neglects. The documented slope matching holds except at the right contraflexure of the compound parabola (refuted)."
  },
  {
   "property": "C47",
   "status": "proved",
   "theorems": [
    "C47_texts",
    "C47_labels",
    "C47_given",
    "C47_spelling",
    "C47_named",
    "C47_accepted",
    "C47_unknown",
    "C47_set",
    "C47_history"
   ],
   "note": "ASCII names."
  },
  {
   "property": "C48",
   "status": "partial",
   "theorems": [
    "C48_fixed_vehicles",
    "C48_m1600",
    "C48_s1600",
    "C48_la_rail",
    "C48_300la",
    "C48_t44",
    "C48_ms18",
    "C48_hl93_truck",
    "C48_cooper",
    "C48_eurocode",
    "C48_hb",
    "C48_abag_bdouble",
    "C48_abag_semitrailer",
    "C48_abag_weight_refuted",
    "C48_permit",
    "C48_abag_index"
   ],
   "note": "The documented gross weights of the two ABAG trucks are refuted."
  },
  {
   "property": "C49",
   "status": "partial",
   "theorems": [
    "C49_end_moments_cancel",
    "C49_released_end",
    "C49_member_balance_partial",
    "C49_diagrams"
   ],
   "note": "Missing: moment balance of pin-pin members (false, see C04_pin_pin_refuted). The diagrams of every member without foundation are in equilibrium with its loads and end moments."
  },
  {
   "property": "C50",
   "status": "proved",
   "theorems": [
    "C50_station_grid",
    "C50_foundation_stations",
    "C50_stations_shared",
    "C50_station_places"
   ],
   "note": "The closing zeros are part of member_curves (C49_diagrams)."
  },
  {
   "property": "C51",
   "status": "partial",
   "theorems": [
    "C51_at_station",
    "C51_interpolates",
    "C51_between",
    "C51_outside",
    "C51_inside_member",
    "C51_left_end_reads_zero",
    "C51_left_end_refuted"
   ],
   "note": "Everything except the left end of the beam, where the closing zero is read instead of the end value (refuted)."
  },
  {
   "property": "C52",
   "status": "partial",
   "theorems": [
    "C52_imposed_curvature_restrained",
    "C52_no_forces_partial",
    "C52_no_diagrams_partial",
    "C52_one_span",
    "C52_pin_pin_refuted"
   ],
   "note": "No end forces, reactions, shear or moment on any determinate beam without pin-pin members; false with pin-pin members (refuted). Fixed-end moments for prismatic members, quadratic curvature."
  },
  {
   "property": "C53",
   "status": "partial",
   "theorems": [
    "C53_trapezoid_overhang_partial",
    "C53_trapezoid_off_span",
    "C53_partial_udl_forces_partial",
    "C53_partial_udl_off_span_refuted",
    "C53_partial_udl_diagram_refuted"
   ],
   "note": "Trapezoids proved; partial UDL forces proved; partial UDL diagrams and off-span partial UDLs violate the property."
  },
  {
   "property": "C54",
   "status": "proved",
   "theorems": [
    "C54_recovered_deflections",
    "C54_deflection_curve"
   ],
   "note": "Members without foundation."
  },
  {
   "property": "C55",
   "status": "proved",
   "theorems": [
    "C55_sections",
    "C55_section_shears"
   ],
   "note": ""
  },
  {
   "property": "C56",
   "status": "proved",
   "theorems": [
    "C56_ratios",
    "C56_scaled",
    "C56_incompatible",
    "C56_shaped"
   ],
   "note": ""
  },
  {
   "property": "C57",
   "status": "proved",
   "theorems": [
    "C57_cut",
    "C57_names",
    "C57_cut_unique",
    "C57_reduced",
    "C57_unknown",
    "C57_extremes",
    "C57_analysed"
   ],
   "note": ""
  },
  {
   "property": "C58",
   "status": "proved",
   "theorems": [
    "C58_static",
    "C58_moving",
    "C58_virtual_work",
    "C58_upper_bound"
   ],
   "note": ""
  },
  {
   "property": "C59",
   "status": "partial",
   "theorems": [
    "C59_collapse_shown",
    "C59_collapse_found",
    "C59_two_hinges",
    "C59_collapse_refuted"
   ],
   "note": "The rank test enters as exact (contract as hypothesis). Refuted: two hinges away from each other count as a mechanism also when the beam cannot move. Converse for hinges apart from each other; hinges within a cluster are represented by one of them."
  },
  {
   "property": "C60",
   "status": "partial",
   "theorems": [
    "C60_hinge_keeps_moment",
    "C60_capacity_refuted"
   ],
   "note": "The value is kept; that it is within the capacity is refuted: the increment in which the hinge forms may overshoot by any amount."
  },
  {
   "property": "C61",
   "status": "partial",
   "theorems": [
    "C61_loads_on_mesh",
    "C61_snapping_refuted",
    "C61_balance"
   ],
   "note": "For loads clear of the snapping tolerance at mesh nodes; inside it the property is refuted."
  },
  {
   "property": "C62",
   "status": "proved",
   "theorems": [
    "C62_results",
    "C62_jumps",
    "C62_settlement_refuted"
   ],
   "note": "The refuted theorem records what the tables then show for a uniformly settling beam."
  },
  {
   "property": "C63",
   "status": "partial",
   "theorems": [
    "C63_determinate_forces_partial",
    "C52_pin_pin_refuted"
   ],
   "note": "All beams without pin-pin members; an imposed curvature on a pin-pin member refutes the general claim."
  },
  {
   "property": "C64",
   "status": "partial",
   "theorems": [
    "C64_exact_partial",
    "C64_only_partial",
    "C64_tables_partial",
    "C04_pin_pin_refuted",
    "C07_moment_load_refuted"
   ],
   "note": "Prismatic members of types 1 to 3 with imposed curvature up to quadratic. Pin-pin members and concentrated moments on shear-flexible members violate the claim."
  },
  {
   "property": "C65",
   "status": "partial",
   "theorems": [
    "C65_extra_node_partial",
    "C65_reactions_partial"
   ],
   "note": "Prismatic members as in C64; no pin-pin members, no concentrated moments on shear-flexible members."
  },
  {
   "property": "C66",
   "status": "partial",
   "theorems": [
    "C66_mirror_partial",
    "C66_reactions_partial"
   ],
   "note": "Prismatic members as in C64; no pin-pin members, no concentrated moments on shear-flexible members."
  },
  {
   "property": "C67",
   "status": "partial",
   "theorems": [
    "C67_supports_partial",
    "C67_hinges",
    "C67_other_negative_refuted",
    "C67_spring_with_clamp_refuted"
   ],
   "note": "Supports proved for the documented restraint codes, except the rotation of nodes on vertical springs; the code does not draw the rest (refuted)."
  },
  {
   "property": "C68",
   "status": "partial",
   "theorems": [
    "C68_source",
    "C68_loads",
    "C68_on_the_span_partial",
    "C68_skipped",
    "C68_draws",
    "C68_overhang_refuted",
    "C68_span_zero_refuted"
   ],
   "note": "Drawn and analysed action agree on every span; overhanging partial loads and loads on span 0 are drawn off the span (refuted)."
  },
  {
   "property": "C69",
   "status": "partial",
   "theorems": [
    "C69_reactions_partial",
    "C69_small_reactions_refuted"
   ],
   "note": "Reactions not above 1e-6 are left out by the code (refuted)."
  },
  {
   "property": "C70",
   "status": "partial",
   "theorems": [
    "C70_source",
    "C70_names",
    "C70_pictures",
    "C70_sense_refuted",
    "C70_letters_partial",
    "C70_letters_refuted"
   ],
   "note": "The sense of distributed loads is not drawn and letters run out after 26 nodes (both refuted)."
  },
  {
   "property": "C71",
   "status": "partial",
   "theorems": [
    "C71_helpers_partial",
    "C71_trap_without_start_refuted"
   ],
   "note": "add_trap with a length but no start ignores the length (refuted)."
  },
  {
   "property": "C72",
   "status": "proved",
   "theorems": [
    "C72_frame",
    "C72_lists",
    "C72_add",
    "C72_constructed",
    "C72_unshared",
    "C72_shared_refuted"
   ],
   "note": "Rows of a load list are values; independence of objects that share a list is refuted."
  },
  {
   "property": "C73",
   "status": "partial",
   "theorems": [
    "C73_rebuild",
    "C73_results",
    "C73_stations",
    "C73_default_stations_refuted",
    "C73_added_span_refuted"
   ],
   "note": "Proved for objects whose lists are complete; the default number of stations and added spans violate the claim (refuted)."
  },
  {
   "property": "C74",
   "status": "partial",
   "theorems": [
    "C74_raises_partial",
    "C74_rejected_span_refuted"
   ],
   "note": "All calls except add_span with an invalid member type, for which the claim is refuted."
  },
  {
   "property": "C75",
   "status": "partial",
   "theorems": [
    "C75_template_partial",
    "C75_foundation_lost",
    "C75_foundation_refuted"
   ],
   "note": "Proved for templates without elastic foundation; the moduli are not passed on (refuted)."
  },
  {
   "property": "C76",
   "status": "partial",
   "theorems": [
    "C76_kept",
    "C76_best_partial",
    "C76_stale_refuted",
    "C76_grown",
    "C76_unbound",
    "C76_as_case",
    "C76_edits",
    "C76_given"
   ],
   "note": "A target combination stays optimal while its collection is not edited; refuted after a case is given other loads."
  },
  {
   "property": "C77",
   "status": "partial",
   "theorems": [
    "C77_station",
    "C77_coincident",
    "C77_bounds",
    "C77_merged",
    "C77_left_end",
    "C77_left_end_refuted",
    "C77_merge_counts",
    "C77_other_beam_refuted",
    "C77_own",
    "C77_own_none"
   ],
   "note": "Analyses on common stations; the reading at the left end and the merging of envelopes of different beams violate the claim (refuted)."
  },
  {
   "property": "C78",
   "status": "proved",
   "theorems": [
    "C78_envelope",
    "C78_fails",
    "C78_empty",
    "C78_bounds_combinations",
    "C78_combination"
   ],
   "note": ""
  },
  {
   "property": "C79",
   "status": "proved",
   "theorems": [
    "C79_sense",
    "C79_one_force",
    "C79_forces"
   ],
   "note": "Members without foundation, no settlements; sections described from the left end on; forces at every node but the last."
  },
  {
   "property": "C80",
   "status": "proved",
   "theorems": [
    "C80_annotations",
    "C80_document"
   ],
   "note": "Texts of numbers and units are parameters."
  },
  {
   "property": "C81",
   "status": "partial",
   "theorems": [
    "C81_constructor_partial",
    "C81_analysis_partial",
    "C81_checked_partial",
    "C81_readings_partial",
    "C81_left_rotation_refuted",
    "C81_check_refuted",
    "C81_section_length_refuted"
   ],
   "note": "Proved for members without foundation whose rigidities are constant or vary by one polynomial along the member, stability check aside. Missing: sections of several pieces and foundations. Refuted: the rotation read at the left end, the stability check and the length check of a section depend on the units."
  },
  {
   "property": "C82",
   "status": "partial",
   "theorems": [
    "C82_first_order_partial",
    "C82_second_order_partial",
    "C82_shapes_partial"
   ],
   "note": "Proved for prismatic members fixed at one end at least. Missing: varying sections and foundations (approximate stiffnesses), pin-pin members and moments on shear-flexible members (analysed wrongly)."
  },
  {
   "property": "C83",
   "status": "partial",
   "theorems": [
    "C83_continuous_partial",
    "C83_traverse_partial",
    "C83_end_reaction_refuted"
   ],
   "note": "Proved for decks held vertically at both ends whose spans have any section without shear flexibility, or constant rigidities with it. Missing: varying sections with shear flexibility, foundations. Reactions of the two ends are refuted: they jump when an axle comes onto the deck."
  },
  {
   "property": "C84",
   "status": "partial",
   "theorems": [
    "C84_results",
    "C84_frame",
    "C84_envelope",
    "C84_envelope_frame",
    "C84_unknown",
    "C84_reactions",
    "C84_own_header",
    "C84_no_results",
    "C84_delimiter_refuted"
   ],
   "note": "Proved for the default delimiter and for a delimiter given with a header. Refuted part: with another delimiter alone the header keeps its commas."
  },
  {
   "property": "C85",
   "status": "partial",
   "theorems": [
    "C85_reaction_partial",
    "C85_point_load_partial",
    "C85_influence_partial",
    "C85_unsettled",
    "C85_shape"
   ],
   "note": "Proved for prismatic members, with or without shear flexibility, fixed at one end at least. Missing: varying sections, foundations; pin-pin members and moments on shear-flexible members (analysed wrongly)."
  },
  {
   "property": "C86",
   "status": "partial",
   "theorems": [
    "C86_set_backend",
    "C86_default",
    "C86_diagram",
    "C86_overlay",
    "C86_unanalysed",
    "C86_plotly_missing",
    "C86_results",
    "C86_panels_refuted",
    "C86_envelope",
    "C86_between",
    "C86_coincidents",
    "C86_static",
    "C86_plotted_results",
    "C86_shear_points_refuted",
    "C86_histories",
    "C86_bars",
    "C86_other_positions_refuted",
    "C86_no_supports_refuted",
    "C86_plastic",
    "C86_plastic_overlay_refuted"
   ],
   "note": "Lines, marks and labels given to the plotting library; pens, titles and layout are not modelled. Refuted parts: plots of another traverse's envelope, of beams without rigid supports, plastic moments drawn twice on the same axes."
  },
  {
   "property": "C87",
   "status": "proved",
   "theorems": [
    "C87_frames",
    "C87_needs_traverse",
    "C87_last_band"
   ],
   "note": "Lines and limits of every frame; the movie itself is not modelled."
  },
  {
   "property": "C88",
   "status": "partial",
   "theorems": [
    "C88_same_loading",
    "C88_unplaced_refuted"
   ],
   "note": "Reordering for all beams; all rewritings of rows on members without foundation; on foundations, sums of loads at the same place and loads over the whole member (cutting a partial load there meets the tolerances of the mesh). Refuted part: rows of an unknown type or on a member that does not exist are ignored."
  },
  {
   "property": "C89",
   "status": "partial",
   "theorems": [
    "C89_regions_partial",
    "C89_loaded_partial",
    "C89_spans",
    "C89_segments",
    "C89_rows",
    "C89_named_spans_refuted",
    "C89_open_trapezoid_refuted"
   ],
   "note": "Refuted parts: named spans are ignored when the case has distributed load; a trapezoid with a start and no length is not drawn."
  },
  {
   "property": "C90",
   "status": "partial",
   "theorems": [
    "C90_positions",
    "C90_run_keeps",
    "C90_kept",
    "C90_attached_new",
    "C90_attached_set",
    "C90_joined",
    "C90_link_kept",
    "C90_link_cut",
    "C90_later_loads_refuted"
   ],
   "note": "Refuted part: a load added to the beam analysis after a vehicle run is not included in later runs. All else is proved."
  },
  {
   "property": "C91",
   "status": "partial",
   "theorems": [
    "C91_deformed",
    "C91_moving_flat",
    "C91_history",
    "C91_state",
    "C91_results_fit",
    "C91_triangles_refuted",
    "C91_axles_refuted"
   ],
   "note": "Refuted parts: triangles at unrestrained joints; axles without collapse. All else is proved."
  },
  {
   "property": "C92",
   "status": "partial",
   "theorems": [
    "C92_static",
    "C92_stable",
    "C92_supports",
    "C92_lines",
    "C92_reaction_lines_refuted",
    "C92_wrong_reaction_refuted",
    "C92_modal_refuted",
    "C92_plastic_refuted",
    "C92_drawn_refuted"
   ],
   "note": "Refuted parts: reaction influence lines, vibrations, plastic analysis and drawings only know -1. The static analysis and the influence lines of shear and moment are proved."
  },
  {
   "property": "C93",
   "status": "partial",
   "theorems": [
    "C93_plots",
    "C93_curves",
    "C93_described",
    "C93_risers",
    "C93_jumps",
    "C93_marks",
    "C93_depth",
    "C93_uniform",
    "C93_plain_line_refuted",
    "C93_round",
    "C93_reactions",
    "C93_vehicle"
   ],
   "note": "Refuted part: a plain line in the schematic does not mean one rigidity, short strips fall between the samples. Everything else of the statement is proved."
  },
  {
   "property": "C94",
   "status": "partial",
   "theorems": [
    "C94_equation_partial",
    "C94_simple_spans",
    "C94_two_spans"
   ],
   "note": "Missing as in C64: pin-pin members and concentrated moments on shear-flexible members (analysed wrongly), imposed curvatures beyond quadratic."
  },
  {
   "property": "C95",
   "status": "proved",
   "theorems": [
    "C95_exist",
    "C95_solver",
    "C95_stiffer",
    "C95_interlaced",
    "C95_similar",
    "C95_reversed",
    "C95_finer"
   ],
   "note": "For correct eigenvalue routines (eigh_sound); C95_exist shows each beam has one."
  },
  {
   "property": "C96",
   "status": "partial",
   "theorems": [
    "C96_tendon",
    "C96_tendon_drawn",
    "C96_modes",
    "C96_default_modes",
    "C96_modal_text",
    "C96_ratios",
    "C96_ratios_refuted",
    "C96_axles",
    "C96_responses",
    "C96_supports",
    "C96_fixed"
   ],
   "note": "Proved but for bridges without reported reactions, whose ratios are not drawn (C96_ratios_refuted). Modes are given by non-negative indices; number formatting is not modelled."
  },
  {
   "property": "C97",
   "status": "partial",
   "theorems": [
    "C97_draws",
    "C97_forces",
    "C97_distributed",
    "C97_sense_partial",
    "C97_moments",
    "C97_dimensions",
    "C97_extents",
    "C97_letters",
    "C97_foundations",
    "C97_limits",
    "C97_outline",
    "C97_no_force_refuted",
    "C97_sense_refuted",
    "C97_label_refuted",
    "C97_label_place_refuted",
    "C97_metres_refuted",
    "C97_limits_refuted"
   ],
   "note": "Proved but for the refuted cases: loads that change sense, metres in every unit system, extents without supports, the label of an upward load, a zero force. Limits need a beam longer than 1e-10 (the guard of the code). The shapes of support symbols are in C98; fonts and colours are not modelled."
  },
  {
   "property": "C98",
   "status": "partial",
   "theorems": [
    "C98_symbols_partial",
    "C98_hinges",
    "C98_limits_partial",
    "C98_unanalysed",
    "C98_draws",
    "C98_units",
    "C98_reactions",
    "C98_view_partial",
    "C98_clear",
    "C98_torsion_refuted",
    "C98_limits_refuted",
    "C98_view_refuted"
   ],
   "note": "Proved but for the refuted cases: the symbol of a rotational spring alone, clamps without drawn loads, arcs of moment reactions out of view. Colours, line widths, fonts and drawing order are not modelled."
  },
  {
   "property": "C99",
   "status": "partial",
   "theorems": [
    "C99_backend",
    "C99_text",
    "C99_saved",
    "C99_figure",
    "C99_draws",
    "C99_refused",
    "C99_asked_partial",
    "C99_case_refuted",
    "C99_names_refuted",
    "C99_history",
    "C99_save_tikz"
   ],
   "note": "Proved but for the file name: targets whose extension is not .tex or .pdf in lower case are written under another name (refuted). Writes that fail half-way and texts that cannot be encoded are not modelled; that the PDF is new when an old one was there is left to pdflatex."
  },
  {
   "property": "C100",
   "status": "partial",
   "theorems": [
    "C100_envelope",
    "C100_again",
    "C100_left",
    "C100_stopped",
    "C100_consistent_partial",
    "C100_foundation_refuted",
    "C100_sections_refuted",
    "C100_last_set"
   ],
   "note": "The agreement of results and loads is proved for objects without elastic foundations and without shear points; with either it is refuted."
  },
  {
   "property": "C101",
   "status": "partial",
   "theorems": [
    "C101_placed",
    "C101_balance_partial",
    "C101_lifted_tip_refuted"
   ],
   "note": "Balance holds with the unreported forces at such degrees of freedom added, and is refuted without them; without such degrees of freedom it is C09/C10."
  },
  {
   "property": "C102",
   "status": "partial",
   "theorems": [
    "C102_joint_partial"
   ],
   "note": "Displacements, reactions and spring forces for scalar sections with or without shear flexibility. Missing: member tables, varying sections, foundations."
  }
 ]
}