{"id": "C01", "title": "Fixed-end forces balance the applied load", "statement": "For every load that a load-matrix row can describe (UDL, point load, partial UDL, trapezoidal, moment, end moments, imposed curvature) placed on the member, the fixed-end forces the load reports satisfy vertical equilibrium (Va+Vb = total load) and moment equilibrium about the left end (load first moment = Vb*L + Ma + Mb with the library's sign convention).", "quantifier": "all load magnitudes, positions, covers (including loads clipped at the span end) and member lengths L>0", "why_tests_cant": "each load type is a multivariate polynomial/rational formula; a unit test evaluates it at a few points and cannot exclude a wrong term that vanishes there", "anchors": ["src/pycba/load.py:LoadUDL.get_cnl", "src/pycba/load.py:LoadPL.get_cnl", "src/pycba/load.py:LoadPUDL.get_cnl", "src/pycba/load.py:LoadTrapez.get_cnl", "src/pycba/load.py:LoadML.get_cnl", "src/pycba/load.py:LoadMaMb.get_cnl", "src/pycba/load.py:LoadIC.get_cnl"]}
{"id": "C02", "title": "Fixed-end moments hold both ends clamped", "statement": "The fixed-end moments reported for a load are exactly those for which the member, simply supported and carrying the load plus these two end moments, has zero slope at both ends (and hence is the clamped-clamped solution).", "quantifier": "all load magnitudes, positions and covers on the member and all lengths L>0, for each transverse load type", "why_tests_cant": "clamped compatibility is an identity between two independently written closed forms per load type; sampling cannot establish it for all positions", "anchors": ["src/pycba/load.py:get_cnl", "src/pycba/load.py:get_mbr_results"]}
{"id": "C03", "title": "Load-effect diagrams are derivatives of one another", "statement": "In the interior of the member, the simple-span results of a load satisfy dM/dx = V, dR/dx = M, dD/dx = R wherever these are differentiable, V falls at the rate of the applied load intensity (and jumps by the point load), and M and D vanish at both supports.", "quantifier": "all positions x in the member other than load discontinuities, all load parameters, all L>0", "why_tests_cant": "the relation is between four functions at every abscissa; tests compare a handful of ordinates", "anchors": ["src/pycba/load.py:LoadUDL.get_mbr_results", "src/pycba/load.py:LoadPL.get_mbr_results", "src/pycba/load.py:LoadPUDL.get_mbr_results", "src/pycba/load.py:LoadTrapez.get_mbr_results", "src/pycba/load.py:LoadMaMb.get_mbr_results", "src/pycba/load.py:LoadML.get_mbr_results"]}
{"id": "C04", "title": "Moment releases keep the member in equilibrium", "statement": "For a member released at one end (FP or PF) or both ends (PP), the released end forces of any load carry no moment at the released end(s) and still balance the same total load and first moment as the fixed-fixed member.", "quantifier": "all fixed-end force quadruples in equilibrium with a load, all L>0, all four member types", "why_tests_cant": "tests use symmetric loads, for which a sign error in the released shears cancels", "anchors": ["src/pycba/load.py:Load.get_ref", "src/pycba/beam.py:Beam._ref_nonprismatic", "src/pycba/beam.py:Beam._ref_timoshenko"]}
{"id": "C05", "title": "Released members are the statically condensed fixed member", "statement": "The stiffness matrix of an FP or PF member equals the fixed-fixed stiffness with the released rotation condensed out, the PP stiffness is zero, and the released end forces are those of the fixed member after the released rotation has been let go.", "quantifier": "all EI>0, L>0, loads, and nodal displacements", "why_tests_cant": "an identity of matrix-valued rational functions", "anchors": ["src/pycba/beam.py:Beam.k_FF", "src/pycba/beam.py:Beam.k_FP", "src/pycba/beam.py:Beam.k_PF", "src/pycba/beam.py:Beam.k_PP", "src/pycba/beam.py:Beam._condense", "src/pycba/load.py:Load.get_ref"]}
{"id": "C06", "title": "Member stiffness is symmetric, self-equilibrated, free of rigid-body force, and stores non-negative energy", "statement": "For every member type and member formulation (prismatic, shear-deformable, variable rigidity), the member stiffness matrix is symmetric; rigid translation and rigid rotation produce no end force; its end forces are in equilibrium; and the strain energy of any displacement is >= 0, and zero for a fixed-fixed member only under rigid motion.", "quantifier": "all rigidities >0, L>0, and all nodal displacement vectors", "why_tests_cant": "quantifies over all displacement vectors and stiffness values", "anchors": ["src/pycba/beam.py:Beam.get_span_k", "src/pycba/beam.py:Beam.k_FF", "src/pycba/beam.py:Beam.k_FF_timo", "src/pycba/beam.py:Beam.k_nonprismatic", "src/pycba/beam.py:Beam.k_timoshenko"]}
{"id": "C07", "title": "Shear-deformable member is the inverse of its flexibility and tends to Euler-Bernoulli", "statement": "The closed-form Timoshenko stiffness equals the matrix obtained from the shear-augmented end-rotation flexibility, for all rigidities, and the closed-form Timoshenko fixed-end moments are the flexibility solution of the released span's end rotations; both converge to the Euler-Bernoulli values as GAv grows without bound.", "quantifier": "all EI>0, GAv>0, L>0 and all loads", "why_tests_cant": "identity of rational functions and a limit", "anchors": ["src/pycba/beam.py:Beam.k_FF_timo", "src/pycba/beam.py:Beam._timo_flexibility", "src/pycba/beam.py:Beam.k_timoshenko", "src/pycba/beam.py:Beam._ref_timoshenko"]}
{"id": "C08", "title": "A constant section description equals the scalar rigidity", "statement": "Describing a member by a variable-rigidity section whose pieces all have the same constant value gives the same stiffness as the scalar rigidity, whatever the number and position of the pieces.", "quantifier": "all constant values >0, all subdivisions of [0,L] into constant pieces, all member types", "why_tests_cant": "ranges over subdivisions of unbounded length", "anchors": ["src/pycba/beam.py:Beam._flexibility", "src/pycba/beam.py:Beam._gauss_nodes", "src/pycba/beam.py:Beam.k_theta", "src/pycba/beam.py:Beam.k_nonprismatic"]}
{"id": "C09", "title": "Analysis satisfies the boundary conditions and nodal equilibrium", "statement": "Whenever analyze() succeeds, every DOF with a prescribed displacement has exactly that displacement, every other fixed DOF has zero displacement, and at every remaining DOF the internal member forces plus spring force balance the applied nodal load.", "quantifier": "all beams (any number of members, any types), restraint vectors, prescribed displacements and load matrices", "why_tests_cant": "correctness of the elimination loop for any subset and order of constrained DOFs is an induction over the DOFs", "anchors": ["src/pycba/analysis.py:BeamAnalysis.analyze", "src/pycba/analysis.py:BeamAnalysis._apply_bc", "src/pycba/analysis.py:BeamAnalysis._solver"]}
{"id": "C10", "title": "Reactions balance the applied load", "statement": "When prescribed displacements are given only at restrained DOFs, the sum of all vertical support reactions and spring forces reported by an analysis equals the total applied load, and their moments (with the moment reactions) about the left end equal the first moment of the applied load.", "quantifier": "all beams, supports and load matrices for which analysis succeeds", "why_tests_cant": "global equilibrium must hold for any number of members, releases and loads", "anchors": ["src/pycba/analysis.py:BeamAnalysis._reactions", "src/pycba/analysis.py:BeamAnalysis._forces", "src/pycba/analysis.py:BeamAnalysis._assemble"]}
{"id": "C11", "title": "Superposition of load matrices", "statement": "With no prescribed displacements (or all zero), analysing add_LM(A, B) gives displacements, reactions, spring forces and member end forces equal to the sum of those for A and B, and analysing factor_LM(A, g) gives g times those for A; the load order does not matter.", "quantifier": "all load matrices A and B accepted by the analysis, all factors g (including 0 and negative), all stable beams", "why_tests_cant": "linearity over all load matrices", "anchors": ["src/pycba/load.py:add_LM", "src/pycba/load.py:factor_LM", "src/pycba/analysis.py:BeamAnalysis.analyze"]}
{"id": "C12", "title": "Combined effect of loads and settlements", "statement": "The analysis result is affine in the prescribed displacements and linear in the pair (load matrix, prescribed displacements): the result with loads and settlements is the sum of the result with loads only (same restrained DOFs held at zero) and the result with settlements only.", "quantifier": "all stable beams, load matrices, settlement vectors with the same pattern of prescribed DOFs", "why_tests_cant": "quantifies over all right-hand sides", "anchors": ["src/pycba/analysis.py:BeamAnalysis._apply_bc"]}
{"id": "C13", "title": "A successful analysis is the only one, and an unstable one is reported", "statement": "If the restrained stiffness matrix is non-singular, analyze() returns the unique displacement vector meeting the boundary conditions and nodal equilibrium; if a mechanism exists it raises ValueError and never returns a displacement vector.", "quantifier": "all stiffness matrices, restraint and prescribed-displacement vectors, with check_stability on or off", "why_tests_cant": "non-singularity over all beams", "anchors": ["src/pycba/analysis.py:BeamAnalysis._solver", "src/pycba/analysis.py:BeamAnalysis._check_stability", "src/pycba/analysis.py:BeamAnalysis.is_stable"]}
{"id": "C14", "title": "Stability check is never stale", "statement": "Across any sequence of set_loads, add_*, add_span, restraints assignment, prescribed_displacements assignment, is_stable() and analyze() calls, analyze() with the default stability check succeeds only when the structure as it is now passes the stability check, and load changes alone never trigger a re-check.", "quantifier": "all finite histories of API calls on one analysis object", "why_tests_cant": "quantifies over histories", "anchors": ["src/pycba/analysis.py:BeamAnalysis.analyze", "src/pycba/analysis.py:BeamAnalysis.is_stable", "src/pycba/beam.py:Beam.structure_version"]}
{"id": "C15", "title": "Reciprocity of displacements (Maxwell-Betti)", "statement": "On a given beam, the work done by the nodal loads of one load matrix on the displacements of another equals the work done the other way round; with unit loads, deflection at i due to a load at j equals deflection at j due to the same load at i.", "quantifier": "all stable beams with symmetric member stiffness, all pairs of load matrices", "why_tests_cant": "a symmetric bilinear identity on all pairs of loadings", "anchors": ["src/pycba/analysis.py:BeamAnalysis.analyze", "src/pycba/inf_lines.py:InfluenceLines"]}
{"id": "C16", "title": "Positions along the beam map to one span and back", "statement": "For any global position on the beam the span lookup returns an existing span and a local coordinate that is inside the span and adds up to the position; positions on an internal support belong to the span on the right; positions off the beam are reported as off the beam.", "quantifier": "all beams with positive span lengths, all real positions", "why_tests_cant": "ranges over all span counts and positions including exact boundaries", "anchors": ["src/pycba/beam.py:Beam.get_local_span_coords"]}
{"id": "C17", "title": "Load matrix parsing and factoring agree", "statement": "Parsing a factored load matrix gives the parsed loads with their magnitudes multiplied by the factor and their positions and covers unchanged, in the same order; factoring by 1 leaves the loads unchanged; factoring twice multiplies the factors; factoring distributes over concatenation.", "quantifier": "all well-formed load matrices with load types 1-6 and all factors", "why_tests_cant": "ranges over all load matrices", "anchors": ["src/pycba/load.py:parse_LM", "src/pycba/load.py:factor_LM", "src/pycba/load.py:add_LM"]}
{"id": "C18", "title": "Model validation rejects exactly the inconsistent models", "statement": "analyze() rejects a model for inconsistency exactly when some DOF has a spring, a prescribed displacement and a non-zero nodal load at the same time; constructing a beam raises exactly when the restraint vector, displacement vector, rigidity vector or member type is inconsistent with the members.", "quantifier": "all constructor arguments and all DOFs", "why_tests_cant": "ranges over all argument combinations", "anchors": ["src/pycba/analysis.py:BeamAnalysis._validate", "src/pycba/beam.py:Beam.__init__", "src/pycba/beam.py:Beam._broadcast_GAv", "src/pycba/beam.py:Beam._broadcast_kf", "src/pycba/types.py:MemberType.coerce"]}
{"id": "C19", "title": "Named supports mean the same as the restraint vector", "statement": "A list of support names or DOF pairs lowers to a restraint vector with two entries per node in the same order; each recognised name (any letter case, surrounding blanks ignored) gives the documented restraint pair; unknown names, hinges and wrong counts are rejected.", "quantifier": "all support lists", "why_tests_cant": "ranges over all lists and strings", "anchors": ["src/pycba/utils.py:supports_to_R", "src/pycba/utils.py:_support_pair"]}
{"id": "C20", "title": "Beam string round trip", "statement": "For every beam described as alternating terminals and span lengths with legal terminals, parsing its string form yields exactly its span lengths, the restraint pair of every node, and a fixed-pinned member to the left of every hinge and fixed-fixed members elsewhere; hinges at an extremity, internal free or encastre terminals and fewer than two terminals are rejected.", "quantifier": "all beam descriptions of any number of spans", "why_tests_cant": "ranges over all strings of unbounded length", "anchors": ["src/pycba/utils.py:parse_beam_string"]}
{"id": "C21", "title": "Envelope bounds every analysis and is attained", "statement": "At each station the envelope maximum (minimum) of moment and shear is >= (<=) zero and >= (<=) the value of every enveloped analysis, and is either zero or equal to the value of one of them; reaction extremes likewise.", "quantifier": "all non-empty lists of results on the same stations", "why_tests_cant": "ranges over all numbers and orders of analyses", "anchors": ["src/pycba/results.py:Envelopes._get_envelopes_VM", "src/pycba/results.py:Envelopes._get_envelope_R"]}
{"id": "C22", "title": "Coincident effects come from the governing analysis", "statement": "Wherever the envelope maximum or minimum is non-zero, the reported coincident shear (moment) is the shear (moment) of an enveloped analysis that attains that extreme at that station.", "quantifier": "all lists of results, all stations", "why_tests_cant": "history-dependent selection over any sequence of results, including ties", "anchors": ["src/pycba/results.py:Envelopes._get_envelopes_VM", "src/pycba/results.py:Envelopes.augment"]}
{"id": "C23", "title": "Merging envelopes equals enveloping all the analyses", "statement": "Merging the envelopes of two result sets (augment, |, combine) gives the same moment and shear extremes, coincident effects and reaction extremes as enveloping the concatenated result set; the merge of extremes is associative, commutative and idempotent, and combine/|/+ leave their operands unchanged.", "quantifier": "all pairs and sequences of compatible result sets", "why_tests_cant": "algebraic law over unbounded sequences", "anchors": ["src/pycba/results.py:Envelopes.augment", "src/pycba/results.py:Envelopes.combine", "src/pycba/results.py:Envelopes.__or__", "src/pycba/results.py:Envelopes.zero_like"]}
{"id": "C24", "title": "Summed envelopes bound every combination of independent analyses", "statement": "The element-wise sum of envelopes bounds the sum of any choice of one analysis from each summed envelope, and is commutative and associative on the extremes.", "quantifier": "all sequences of compatible envelopes and all choices of analyses", "why_tests_cant": "ranges over all choices", "anchors": ["src/pycba/results.py:Envelopes.sum", "src/pycba/results.py:Envelopes.combine"]}
{"id": "C25", "title": "Reaction history is zeroed when result counts differ", "statement": "After merging or summing envelopes whose numbers of analyses are not all the same, the per-analysis reaction history is all zeros while the reaction extremes are still the extremes of all inputs, whatever the order of merging.", "quantifier": "all sequences of envelopes and merge orders", "why_tests_cant": "order-dependent behaviour over sequences of merges", "anchors": ["src/pycba/results.py:Envelopes.augment", "src/pycba/results.py:Envelopes.sum", "src/pycba/results.py:Envelopes.combine"]}
{"id": "C26", "title": "n-case additive envelope is optimal", "statement": "The additive envelope with n cases bounds the summed effect of every choice of n different load cases at each station and is attained by some such choice.", "quantifier": "all response matrices, all n between 1 and the number of cases, all n-subsets", "why_tests_cant": "optimality over exponentially many subsets", "anchors": ["src/pycba/load_cases.py:additive_envelope"]}
{"id": "C27", "title": "Sign-selective envelope is optimal over all subsets and its masks identify the governing subset", "statement": "At each station the sign-selective maximum (minimum) is the largest (smallest) summed effect over all subsets of load cases, including the empty one, and the reported position mask is that of a subset attaining it.", "quantifier": "all response matrices and all subsets of load cases", "why_tests_cant": "optimality over exponentially many subsets", "anchors": ["src/pycba/load_cases.py:sign_selective_envelope"]}
{"id": "C28", "title": "Target combination is optimal at its section", "statement": "The combination built for a maximum (minimum) at a target position includes exactly the load cases with positive (negative) response there, and no other subset of load cases gives a larger (smaller) summed response there.", "quantifier": "all response matrices and target positions, all subsets", "why_tests_cant": "optimality over exponentially many subsets", "anchors": ["src/pycba/load_cases.py:_make_target_combination", "src/pycba/load_cases.py:_response_at"]}
{"id": "C29", "title": "Factored combination of results equals analysis of the factored loads", "statement": "Combining case responses by factors equals analysing the combined factored load matrix, for beams without prescribed displacements (rotations and deflections: also without imposed curvatures on released members).", "quantifier": "all sets of load cases, factor vectors or mappings, stable beams", "why_tests_cant": "linearity over all case sets", "anchors": ["src/pycba/load_cases.py:LoadCases.combine", "src/pycba/load_cases.py:LoadCases.combined_loads", "src/pycba/load_cases.py:LoadCases.analyze_combination"]}
{"id": "C30", "title": "Load-case collections keep unique names and own their data", "statement": "Under any sequence of add, set, append and extend operations names stay unique, insertion order is kept, add, set and append that raise leave the collection as it was (extend keeps the cases appended before the clash), each stores the values its arguments have at the call, and later changes by the caller to a load list it passed in do not change the stored case.", "quantifier": "all operation sequences", "why_tests_cant": "quantifies over histories and aliasing", "anchors": ["src/pycba/load_cases.py:LoadCases.add", "src/pycba/load_cases.py:LoadCases.set", "src/pycba/load_cases.py:LoadCases.append", "src/pycba/load_cases.py:LoadCases.extend", "src/pycba/load_cases.py:LoadCase.add_load"]}
{"id": "C31", "title": "Patterned UDL segments tile every span", "statement": "The patterned-UDL load cases are one per segment with distinct power-of-two masks; the segments of a span are disjoint, in order, and cover the span exactly, so that applying all cases together gives the full-span UDL on every loaded span.", "quantifier": "all span lists, segment counts and intensities", "why_tests_cant": "ranges over all segment counts and lengths", "anchors": ["src/pycba/load_cases.py:make_patterned_udl", "src/pycba/load_cases.py:_make_segment_udl", "src/pycba/load_cases.py:make_span_udl_cases"]}
{"id": "C32", "title": "A UDL between global positions loads exactly that interval", "statement": "The load rows generated for a uniform load between two global positions (lane load, segment load) load every point of the interval within the beam once with the given intensity and no other point, up to the documented tolerance.", "quantifier": "all beams, intervals, intensities", "why_tests_cant": "ranges over all interval/span configurations", "anchors": ["src/pycba/bridge.py:BridgeAnalysis._interval_udl_LM", "src/pycba/load_cases.py:_make_segment_udl"]}
{"id": "C33", "title": "Load patterns apply maximum factors exactly to the named spans", "statement": "For an N-span beam the pattern set contains the N-1 adjacent-span hogging cases, the odd-span, the even-span and the all-span cases; in each, every span carries the maximum-factored dead and live load if named by the case and the minimum-factored load otherwise.", "quantifier": "all N>=1, dead and live load matrices, and factors", "why_tests_cant": "ranges over all span counts and load matrices", "anchors": ["src/pycba/pattern.py:LoadPattern.to_load_cases", "src/pycba/load_cases.py:_choose_max_by_span"]}
{"id": "C34", "title": "Axle geometry of vehicles, reversed vehicles and trains", "statement": "A vehicle's axle offsets are the partial sums of its spacings; reversing it twice gives the original; the reversed vehicle has the mirrored offsets and weights; a train's axles are those of its vehicles placed one after another with the given gaps, its weight and length are the corresponding sums.", "quantifier": "all vehicles and trains of any length", "why_tests_cant": "ranges over vehicles of unbounded size", "anchors": ["src/pycba/vehicle.py:Vehicle.__init__", "src/pycba/vehicle.py:Vehicle.reverse", "src/pycba/vehicle.py:make_train"]}
{"id": "C35", "title": "Vehicle placement loads exactly the axles on the deck", "statement": "Placing a vehicle at a position produces one point load per axle that is on the deck, at that axle's position and with its weight, and none for axles off the deck; the sum of the generated loads is the weight on the deck.", "quantifier": "all vehicles, beams and positions", "why_tests_cant": "ranges over all vehicle/beam/position combinations including boundaries", "anchors": ["src/pycba/bridge.py:BridgeAnalysis._axle_LM"]}
{"id": "C36", "title": "A traverse analyses each position once and does not accumulate", "statement": "run_vehicle analyses positions start, start+step, ... up to the default or given end, each with only the static loads and the axles at that position; the last position is within half a step of the end and the number of results is the number of positions.", "quantifier": "all starts, ends, steps and vehicles", "why_tests_cant": "quantifies over traverse lengths and state carried between steps", "anchors": ["src/pycba/bridge.py:BridgeAnalysis.run_vehicle", "src/pycba/bridge.py:BridgeAnalysis._single_analysis"]}
{"id": "C37", "title": "Lane load with clearances", "statement": "With clearances the uniform lane load covers exactly the deck outside the vehicle plus front and back clearance; without clearances it covers the whole deck.", "quantifier": "all vehicle positions, lengths, clearances and decks", "why_tests_cant": "ranges over all relative positions", "anchors": ["src/pycba/bridge.py:BridgeAnalysis.run_load_model", "src/pycba/bridge.py:BridgeAnalysis._validate_clearances"]}
{"id": "C38", "title": "Critical values are the extremes of the traverse", "statement": "After a traverse, the critical moments, shears and reactions are the extremes over all positions and stations (for reactions also zero); each is attained at the reported station, with the reported companion effect, by the analysis of one of the reported positions, and the reported positions are those whose own extreme is close to the critical value.", "quantifier": "all traverses of all vehicles over all decks", "why_tests_cant": "ranges over all envelopes and positions", "anchors": ["src/pycba/bridge.py:BridgeAnalysis.critical_values"]}
{"id": "C39", "title": "Influence lines predict load effects by superposition", "statement": "The response to any set of point loads at the influence-line positions equals the sum of each load times the influence ordinate at its position.", "quantifier": "all stable beams, positions, loads", "why_tests_cant": "linearity over all load sets", "anchors": ["src/pycba/inf_lines.py:InfluenceLines.create_ils", "src/pycba/inf_lines.py:InfluenceLines.get_il"]}
{"id": "C40", "title": "Section builder keeps a contiguous positive profile and rejects bad segments without side effects", "statement": "Any sequence of add_segment calls yields pieces that are contiguous, in order and positive at their ends; a rejected segment leaves the section unchanged; the length is the distance between first and last coordinates; evaluation within constant and linear pieces is positive.", "quantifier": "all sequences of add_segment calls", "why_tests_cant": "quantifies over histories", "anchors": ["src/pycba/section.py:SectionEI.add_segment", "src/pycba/section.py:SectionEI.__call__", "src/pycba/section.py:SectionEI.length", "src/pycba/section.py:SectionEI.breakpoints"]}
{"id": "C41", "title": "Foundation super-element is the exact condensation of its mesh", "statement": "The condensed stiffness and end forces of a Winkler-foundation member give the same end forces as solving the full subdivided mesh with interior nodes free, for every end displacement; the condensed stiffness is symmetric.", "quantifier": "all meshes, rigidities, moduli, loads and end displacements", "why_tests_cant": "ranges over mesh sizes and displacements", "anchors": ["src/pycba/foundation.py:FoundationElement"]}
{"id": "C42", "title": "Consistent mass and foundation matrices are the shape-function integrals", "statement": "The element stiffness, mass and foundation matrices equal the integrals of products of the cubic shape functions (or their second derivatives), are symmetric, and give positive kinetic/foundation energy for every non-zero motion.", "quantifier": "all element lengths, rigidities, masses, moduli and motions", "why_tests_cant": "identity of integrals for all parameters", "anchors": ["src/pycba/modal.py:_k_ebeam", "src/pycba/modal.py:_m_consistent", "src/pycba/foundation.py:_k_found", "src/pycba/foundation.py:_k_ebeam"]}
{"id": "C43", "title": "Natural frequencies are real and modes of different frequency are mass-orthogonal", "statement": "Every eigenvalue of the modal problem is non-negative (zero only for a mechanism) and mode shapes with different eigenvalues are orthogonal with respect to mass and stiffness.", "quantifier": "all prismatic beams, masses, meshes", "why_tests_cant": "spectral property for all sizes", "anchors": ["src/pycba/modal.py:solve_modal"]}
{"id": "C44", "title": "Plastic analysis bookkeeping", "statement": "In a nonlinear analysis every stiffness ratio stays within [q,1] and is the degraded one where the last moment is the largest so far, elastic elsewhere; the load factor never exceeds its maximum and strictly increases each accepted step, and without collapse the analysis ends at the maximum or after the allowed number of steps; a yield and a hinge event are recorded when, and only when, a node first reaches its yield moment and its capacity, at most once per node and kind, in chronological order with yield no later than the hinge; what is recorded does not influence the outcome; a moving-load analysis completes with the same bookkeeping.", "quantifier": "all beams with positive capacities, increment sequences, load histories and moment histories", "why_tests_cant": "quantifies over runs of unbounded length", "anchors": ["src/pycba/nonlinear.py:NonlinearBeamAnalysis.analyze", "src/pycba/nonlinear.py:NonlinearBeamAnalysis._update_R", "src/pycba/nonlinear.py:NonlinearBeamAnalysis.analyze_moving"]}
{"id": "C45", "title": "Nonlinear mesh loads and stiffness represent the beam", "statement": "The mesh of the nonlinear analysis covers the beam with a node at every support, rigid restraints and capacities are those of the given spans, every element uses the rigidity of the span it lies in, and the nodal forces do the work of the applied loads: a point load that of the deflection under it, a uniform load that of the element chords, all loads together the resultant force and moment.", "quantifier": "all spans, meshes and loads", "why_tests_cant": "ranges over all meshes", "anchors": ["src/pycba/nonlinear.py:_build_mesh", "src/pycba/nonlinear.py:NonlinearBeamAnalysis._build_force_vector", "src/pycba/nonlinear.py:NonlinearBeamAnalysis._add_point_load", "src/pycba/nonlinear.py:NonlinearBeamAnalysis.__init__"]}
{"id": "C46", "title": "Prestress equivalent loads balance the cable profile", "statement": "For a simply supported span the equivalent loads of any supported cable profile produce a bending moment equal to minus force times eccentricity at every section, and are self-equilibrating; the profile is continuous with the documented slope matching.", "quantifier": "all profiles, forces, spans and sections", "why_tests_cant": "identity over all sections and profile parameters", "anchors": ["src/pycba/prestress.py:equivalent_loads", "src/pycba/prestress.py:Parabola.segments", "src/pycba/prestress.py:CompoundParabola.segments", "src/pycba/prestress.py:Harp", "src/pycba/prestress.py:DoubleHarp"]}
{"id": "C47", "title": "Unit-system resolution", "statement": "Resolving a unit argument returns the given system, the named system irrespective of letter case and separator style, or the current default; an unknown name raises and leaves the default unchanged; set_units followed by resolve(None) returns the set system.", "quantifier": "all names and all sequences of set/resolve calls", "why_tests_cant": "quantifies over strings and histories", "anchors": ["src/pycba/units.py:set_units", "src/pycba/units.py:resolve", "src/pycba/units.py:_normalise"]}
{"id": "C48", "title": "Library vehicles have the documented weights and spacings", "statement": "Every library vehicle is valid (one more axle than spacings, positive weights and spacings, documented gross weight) and variable-spacing vehicles accept exactly the documented range and place the axles accordingly.", "quantifier": "all library vehicles and all parameter values", "why_tests_cant": "ranges over continuous spacing parameters", "anchors": ["src/pycba/vehicle.py:VehicleLibrary"]}
{"id": "C49", "title": "Moment continuity and member equilibrium in the recovered diagrams", "statement": "In a successful analysis, at every node with no moment restraint, rotational spring or prescribed rotation the end moments of the two meeting members cancel; a released end carries no moment; within each member the recovered shear and moment diagrams are in equilibrium with the span loads and end values.", "quantifier": "all stable beams, loads", "why_tests_cant": "ranges over all structures and loads", "anchors": ["src/pycba/results.py:BeamResults._member_analysis", "src/pycba/results.py:BeamResults._member_values"]}
{"id": "C50", "title": "Station grid of the results", "statement": "Every member without foundation contributes npts+3 stations (plus two per shear point strictly inside), starting and ending at the member ends in increasing order; a member on a foundation with n sub-elements contributes n*(max(2, round(npts/n))+3) stations; all analyses of beams with the same members share the same station array, whatever their loads and supports; the first and last station of each member carry zero moment and shear.", "quantifier": "all npts, lengths, shear-point sets", "why_tests_cant": "ranges over all grids", "anchors": ["src/pycba/results.py:BeamResults._member_values", "src/pycba/bridge.py:resolve_shear_points"]}
{"id": "C51", "title": "Reading a result at a coordinate", "statement": "The value returned at a coordinate lies between the values at the neighbouring stations, equals the station value at a station coordinate strictly inside a member, and at the ends of the beam returns the actual end value of the effect.", "quantifier": "all coordinates and results", "why_tests_cant": "ranges over all coordinates, including duplicated station coordinates", "anchors": ["src/pycba/results.py:BeamResults.at", "src/pycba/results.py:Envelopes.at", "src/pycba/load_cases.py:_response_at"]}
{"id": "C52", "title": "Imposed curvature on a simple span causes no force", "statement": "An imposed-curvature load on a statically determinate beam causes no reactions and no bending moment; its fixed-end moments are those that restrain the free end rotations, exact for curvature fields up to quadratic.", "quantifier": "all curvature coefficients, lengths and rigidities", "why_tests_cant": "identity over polynomial coefficients", "anchors": ["src/pycba/load.py:LoadIC"]}
{"id": "C53", "title": "Off-span loads are ignored", "statement": "The part of a partial or trapezoidal load beyond the end of its span has no effect on the analysis or on the recovered diagrams.", "quantifier": "all positions, covers and lengths", "why_tests_cant": "ranges over all overhangs, including loads entirely off the span", "anchors": ["src/pycba/load.py:LoadPUDL", "src/pycba/load.py:LoadTrapez._resolve", "src/pycba/analysis.py:BeamAnalysis.add_pudl"]}
{"id": "C54", "title": "Recovered rotations and deflections", "statement": "In the results of a successful analysis, the rotations of each member are the trapezoidal integrals of the curvature M/EI (plus imposed curvature) belonging to the reported moments, and the deflections those of rotation plus shear strain -V/GAv; the deflection starts at the displacement of the left node, a member without left release starts with the rotation of that node, and a released member with variable section, shear flexibility or imposed curvature ends at the displacement of the right node.", "quantifier": "all beams, loads, station counts and shear points", "why_tests_cant": "ranges over all structures, loads and grids", "anchors": ["src/pycba/results.py:BeamResults._member_values"]}
{"id": "C55", "title": "Shear sections of a bridge analysis", "statement": "The sections for which critical shears are reported are the requested coordinates and the points at the requested distance from a vertical support that lie strictly inside the deck, each once and in order; each becomes a station of its member, and the shears reported for it are the envelope values at the nearest stations on either side, with the nearest support.", "quantifier": "all decks, point lists and distances", "why_tests_cant": "ranges over all point lists, support arrangements and boundary cases", "anchors": ["src/pycba/bridge.py:resolve_shear_points", "src/pycba/bridge.py:BridgeAnalysis.critical_values"]}
{"id": "C56", "title": "Envelope ratios", "statement": "The ratios of two envelopes of the same bridge are the ratios of the magnitudes of the corresponding ordinates and reactions, and zero where the reference is within 1e-3 of zero; envelopes of different sizes are refused.", "quantifier": "all pairs of envelopes", "why_tests_cant": "ranges over all envelopes and the tolerance boundary", "anchors": ["src/pycba/bridge.py:BridgeAnalysis.envelopes_ratios"]}
{"id": "C57", "title": "Per-span values of an envelope", "statement": "Envelopes.per_span cuts a station-indexed attribute into the values of each span, in order and without loss, and reduces each to its greatest or least value as asked for ('auto': least for names ending in 'min'); for moments and shears these are the extremes, zero included, over all analyses and all stations of the span; any other reduction name is refused.", "quantifier": "all sets of analyses of the same beam, attributes and reduction names", "why_tests_cant": "ranges over all station counts per member, including members with shear points", "anchors": ["src/pycba/results.py:Envelopes.per_span"]}
{"id": "C58", "title": "Plastic moments are in equilibrium", "statement": "After every increment of a nonlinear analysis, and at its end, the nodal moments are in equilibrium with the current load factor times the load (for a moving load: with the axles at the current position), displacements respect the restraints, and so the load never does more work on a mechanism than the moments can absorb.", "quantifier": "all beams, loads, capacities, increment sequences and moving-load positions", "why_tests_cant": "ranges over all increment sequences and meshes", "anchors": ["src/pycba/nonlinear.py:NonlinearBeamAnalysis.analyze", "src/pycba/nonlinear.py:NonlinearBeamAnalysis.analyze_moving", "src/pycba/nonlinear.py:NonlinearBeamAnalysis._extract_moments"]}
{"id": "C59", "title": "Collapse verdict", "statement": "A nonlinear analysis reports collapse exactly when the hinges that formed (or the exhausted stiffness) turn the beam into a mechanism.", "quantifier": "all beams, loads and hinge patterns", "why_tests_cant": "ranges over all hinge patterns", "anchors": ["src/pycba/nonlinear.py:NonlinearBeamAnalysis._is_mechanism", "src/pycba/nonlinear.py:NonlinearBeamAnalysis._cluster_hinges", "src/pycba/nonlinear.py:NonlinearBeamAnalysis.analyze"]}
{"id": "C60", "title": "Moments at plastic hinges", "statement": "With no hardening (q = 0) a nodal moment that has reached its plastic capacity keeps its value for the rest of the loading, and no nodal moment exceeds the capacity.", "quantifier": "all beams, loads and increment sequences", "why_tests_cant": "ranges over all increment sequences", "anchors": ["src/pycba/nonlinear.py:NonlinearBeamAnalysis._update_R", "src/pycba/nonlinear.py:NonlinearBeamAnalysis.analyze"]}
{"id": "C61", "title": "Foundation members in equilibrium with loads and subgrade", "statement": "The loads of a member on an elastic foundation act unchanged, in value and position, and the end forces of the member balance them together with the subgrade reaction kf times the deflection, in force and moment.", "quantifier": "all lengths, rigidities, subgrade moduli and supported loads, all analyses", "why_tests_cant": "ranges over all load positions relative to an automatic internal mesh", "anchors": ["src/pycba/foundation.py:FoundationElement._subelement_loads", "src/pycba/foundation.py:FoundationElement._rfull", "src/pycba/foundation.py:FoundationElement.ref"]}
{"id": "C62", "title": "Results along a foundation member", "statement": "The results of a member on an elastic foundation are those of its sub-elements one after the other: stations evenly spaced over each, shear and moment in equilibrium with the loads of the sub-element and its bending end forces, slopes and deflections recovered from the internal displacements of the solution.", "quantifier": "all analyses with foundation members, all numbers of stations", "why_tests_cant": "ranges over all beams, loads and meshes", "anchors": ["src/pycba/foundation.py:FoundationElement.recover", "src/pycba/foundation.py:_eb_member_values", "src/pycba/foundation.py:_concat_results"]}
{"id": "C63", "title": "Forces in a statically determinate beam do not depend on stiffness", "statement": "On a statically determinate beam the member end forces and the reported reactions follow from the layout, the supports and the loads alone: two beams that differ only in rigidities (constant, sectional or shear-flexible), spring stiffnesses, settlements or imposed curvatures get the same ones.", "quantifier": "all statically determinate beams with any number of spans, all loads, all stiffnesses and settlements", "why_tests_cant": "compares pairs of analyses over all stiffness data", "anchors": ["src/pycba/analysis.py:BeamAnalysis.analyze", "src/pycba/load.py:LoadIC", "src/pycba/beam.py:Beam.get_span_k"]}
{"id": "C64", "title": "An analysis is the exact solution of the beam problem", "statement": "For a beam of prismatic members the nodal displacements and member end forces returned by an analysis are those of the continuous beam problem: every cut of every member is in equilibrium with its loads, the rotation is the integral of moment over EI plus any imposed curvature, the deflection is the integral of the rotation less the shear angle, the ends meet the nodes (except at releases) and the supports and springs hold. No other displacements and end forces solve that problem, and the tabulated shears and moments sample its curves.", "quantifier": "all prismatic beams with any number of spans, all member types, rigidities (with or without shear flexibility), supports, springs, settlements and loads", "why_tests_cant": "a test compares with a few textbook solutions; the claim is that the finite element answer has no discretisation error for any input", "anchors": ["src/pycba/analysis.py:BeamAnalysis.analyze", "src/pycba/beam.py:Beam.get_span_k", "src/pycba/beam.py:Beam.get_ref", "src/pycba/load.py:Load.get_cnl", "src/pycba/results.py:BeamResults"]}
{"id": "C65", "title": "An extra node in a span changes nothing", "statement": "Dividing a span in two at a free node, with the loads divided accordingly, leaves the displacements of the other nodes, the member end forces and the reactions unchanged, and the new node moves as the undivided span did at that place.", "quantifier": "all prismatic beams, spans, division points, ways of dividing the loads, supports and settlements", "why_tests_cant": "compares pairs of analyses over all beams and all division points", "anchors": ["src/pycba/analysis.py:BeamAnalysis.analyze", "src/pycba/beam.py:Beam.get_span_k", "src/pycba/beam.py:Beam.get_ref", "src/pycba/load.py:Load.get_cnl"]}
{"id": "C66", "title": "A beam seen from its other side gives mirrored results", "statement": "Reversing the order of spans, supports and loads (moments and prescribed rotations changing sense, left and right releases changing places) gives the same deflections, end shears and reactions at the mirrored places, and rotations and end moments of opposite sense.", "quantifier": "all prismatic beams, supports, settlements and loads", "why_tests_cant": "compares pairs of analyses over all beams; left and right ends go through different formulas in the code", "anchors": ["src/pycba/analysis.py:BeamAnalysis.analyze", "src/pycba/beam.py:Beam.get_span_k", "src/pycba/beam.py:Beam.get_ref", "src/pycba/load.py:Load.get_cnl"]}
{"id": "C67", "title": "The schematic shows the supports and hinges of the beam", "statement": "For a beam given with the documented restraint codes, the schematic shows one symbol at every supported node, from left to right, of the kind that fits the node's restraints (clamp, pin, roller, spring, guide, torsion spring; the horizontal restraint goes to the clamps or else to the first simple support), and a hinge at an interior node exactly when a member end there is released.", "quantifier": "all beams (any number of spans), restraint vectors and member types", "why_tests_cant": "any number of nodes; the choice between pin and roller depends on all nodes", "anchors": ["src/pycba/render.py:BeamPlotter._infer_supports", "src/pycba/render.py:BeamPlotter._infer_hinges"]}
{"id": "C68", "title": "The schematic shows the loads that are analysed", "statement": "The loads drawn on every span (own loads, a load matrix, a load case or a combination) have the same distributed intensity, forces and moments at the same places as those an analysis applies to that span; loads lying on their span are drawn on it, and drawing succeeds for all loads given on spans of the beam.", "quantifier": "all beams and load matrices", "why_tests_cant": "any number and mix of loads, two independent code paths that must agree", "anchors": ["src/pycba/render.py:BeamPlotter._infer_loads", "src/pycba/render.py:BeamPlotter._resolve_lm", "src/pycba/load.py:parse_LM"]}
{"id": "C69", "title": "Reactions by node are the reactions of the analysis", "statement": "After an analysis, the per-node tables of vertical and moment reactions list every support reaction and spring force of the analysis at the node where it acts, and nothing else.", "quantifier": "all beams and analyses", "why_tests_cant": "reactions and spring forces are stored in two compacted vectors whose order depends on every restraint", "anchors": ["src/pycba/analysis.py:BeamAnalysis._reactions_by_node"]}
{"id": "C70", "title": "The TikZ source is well named and draws the beam", "statement": "For loads given on spans of the beam the TikZ source is produced; no two of its points and nodes have the same name; it draws every node at its coordinate, every span between its nodes, every support symbol at its node, every load at the place where it acts with its sense, and letters the supports A, B, C, ... by node.", "quantifier": "all beams, loads, numbers of spans and rendering options, any printing of numbers", "why_tests_cant": "name clashes appear only for particular numbers of nodes and loads", "anchors": ["src/pycba/render.py:BeamPlotter.render_tikz", "src/pycba/render.py:BeamPlotter._node_name", "src/pycba/render.py:BeamPlotter._loads_tikz", "src/pycba/render.py:BeamPlotter._support_tikz", "src/pycba/render.py:BeamPlotter._hinges_tikz"]}
{"id": "C71", "title": "Each load helper adds the documented load", "statement": "add_udl, add_pl, add_pudl, add_ml, add_ic and add_trap append to the loads of the analysis exactly one load, on the given span, whose intensity, forces and moments are those documented.", "quantifier": "all analyses and arguments on spans of the beam", "why_tests_cant": "ranges over all magnitudes, positions and existing loads", "anchors": ["src/pycba/analysis.py:BeamAnalysis.add_udl", "src/pycba/analysis.py:BeamAnalysis.add_pl", "src/pycba/analysis.py:BeamAnalysis.add_pudl", "src/pycba/analysis.py:BeamAnalysis.add_ml", "src/pycba/analysis.py:BeamAnalysis.add_ic", "src/pycba/analysis.py:BeamAnalysis.add_trap"]}
{"id": "C72", "title": "Analysis objects do not interfere", "statement": "A call on one analysis object changes no other object, except that a load added to an object is also added to the load list it was given and so to every object given the same list; objects made without a list, or with lists of their own, are independent. The wish that objects sharing a list are independent too is refuted.", "quantifier": "all programs that create and use any number of analysis objects and load lists, with calls that raise", "why_tests_cant": "ranges over programs and over which objects share a list", "anchors": ["src/pycba/analysis.py:BeamAnalysis.__init__", "src/pycba/analysis.py:BeamAnalysis.set_loads", "src/pycba/analysis.py:BeamAnalysis.add_udl", "src/pycba/beam.py:Beam.loads", "src/pycba/beam.py:Beam.add_load"]}
{"id": "C73", "title": "Results depend on the present data only", "statement": "However an analysis object came to its members, restraints, prescribed displacements and loads, analyze() gives the results or the exception of a new object made from that data with the same number of stations; results change only by a successful analyze() of the same object. The number of stations is the one last given, not the documented default (refuted), and a span added after construction is never analysed (refuted).", "quantifier": "all programs with any number of objects, all station counts, with or without the stability check", "why_tests_cant": "quantifies over histories of calls", "anchors": ["src/pycba/analysis.py:BeamAnalysis.analyze", "src/pycba/analysis.py:BeamAnalysis.__init__", "src/pycba/analysis.py:BeamAnalysis.beam_results", "src/pycba/beam.py:Beam.add_span", "src/pycba/beam.py:Beam.restraints", "src/pycba/beam.py:Beam.prescribed_displacements"]}
{"id": "C74", "title": "A call that raises changes nothing", "statement": "A call that raises leaves the members, restraints, prescribed displacements, loads and results of every object as they were. Refuted for add_span with an invalid member type, which leaves the length and rigidity behind so that the next span is misplaced.", "quantifier": "all programs and all calls that raise", "why_tests_cant": "quantifies over histories and failures", "anchors": ["src/pycba/beam.py:Beam.add_span", "src/pycba/beam.py:Beam.prescribed_displacements", "src/pycba/analysis.py:BeamAnalysis.analyze", "src/pycba/analysis.py:BeamAnalysis.is_stable", "src/pycba/analysis.py:BeamAnalysis.add_trap"]}
{"id": "C75", "title": "Load cases on an existing analysis object", "statement": "Load cases analysed with an analysis object as the template beam give the results, or the exception, that the object itself gives with the loads of the case in place of its own, whatever calls brought the object to its present state. Refuted for members on an elastic foundation: their moduli are not passed on to the analysis of the case.", "quantifier": "all programs that make and change the template object, all load matrices, all station counts", "why_tests_cant": "quantifies over histories of calls and all load cases", "anchors": ["src/pycba/load_cases.py:build_pycba_model", "src/pycba/load_cases.py:analyse_load_case", "src/pycba/load_cases.py:_template_npts", "src/pycba/analysis.py:BeamAnalysis.__init__"]}
{"id": "C76", "title": "Combinations bound to a collection", "statement": "No call changes an existing load combination, and a collection is changed only by calls made on it, which keep its beam and its cases in order. A combination from target_combination() is the most adverse choice of factors at its coordinate for as long as its collection is not edited; after a case is added every use of it raises; after a case is given other loads it silently keeps the factors found for the old ones (refuted). A combination made directly raises unless a collection is given. The response of a combination is the response of the single load case it can be turned into.", "quantifier": "all programs that make and edit collections and combinations, all targets, all factors between the two given", "why_tests_cant": "quantifies over histories of calls and over all choices of factors", "anchors": ["src/pycba/load_cases.py:LoadCombination", "src/pycba/load_cases.py:LoadCases.target_combination", "src/pycba/load_cases.py:LoadCases.add", "src/pycba/load_cases.py:LoadCases.set", "src/pycba/load_cases.py:LoadCases.add_load", "src/pycba/load_cases.py:LoadCases.factors"]}
{"id": "C77", "title": "Reading an envelope at a coordinate", "statement": "Envelopes.at(x) gives, at a station, the extremes (zero included) of what the results of the enveloped analyses read there, with coincident values of an analysis that attains the extreme; anywhere else it bounds them; merged envelopes read the extremes over both sets. At the left end of the beam it always reads zero, also where the moment at a fixed end is not (refuted), and envelopes of different beams are merged without the documented ValueError when the numbers of stations and reactions agree (refuted).", "quantifier": "all sets of analyses on common stations, all coordinates", "why_tests_cant": "quantifies over all result sets and coordinates", "anchors": ["src/pycba/results.py:Envelopes.at", "src/pycba/results.py:Envelopes.augment", "src/pycba/results.py:Envelopes.__init__"]}
{"id": "C78", "title": "Envelope of a collection of load cases", "statement": "LoadCases.envelope() is the envelope of the separate analyses of its cases, on their common stations; it raises what the first case that cannot be analysed raises, and IndexError for an empty collection; it bounds the moments and shears of every combination with non-negative factors that add up to at most one. LoadCombination.envelope() is the envelope of its one analysis.", "quantifier": "all beams with spans of positive length, all collections, all such factors, all station counts", "why_tests_cant": "quantifies over all load cases and all factor vectors", "anchors": ["src/pycba/load_cases.py:LoadCases.envelope", "src/pycba/load_cases.py:LoadCombination.envelope", "src/pycba/load_cases.py:LoadCases.combine"]}
{"id": "C79", "title": "Stiffening never increases the deflection under a nodal load", "statement": "Raising flexural or shear rigidities, dropping shear flexibility, removing member releases, stiffening elastic supports or holding further degrees of freedom never increases the deflection of a node under one force at that node, nor the total work of several forces at nodes; and a force never moves its node against itself.", "quantifier": "all beams without foundation and settlement, members prismatic, tapered, stepped or shear-flexible, all such stiffened versions, all sets of forces at the starts of spans, whenever both analyses succeed", "why_tests_cant": "a monotonicity statement over all pairs of beams and all loadings", "anchors": ["src/pycba/analysis.py:BeamAnalysis.analyze", "src/pycba/beam.py:Beam.get_span_k", "src/pycba/beam.py:Beam.get_ref"]}
{"id": "C80", "title": "Annotations of the TikZ source", "statement": "The TikZ source gives the span lengths and load dimensions when dimensions are asked for and load values with their units when values are asked for, faces clamps outwards, draws distributed loads with heights in proportion to their intensities and labels varying ones with both end values, marks hinges, and is one closed picture, inside a complete document when it is to stand alone.", "quantifier": "all beams and loads that can be drawn, all options, all number formats and unit texts", "why_tests_cant": "quantifies over all beams, load lists and options at once", "anchors": ["src/pycba/render.py:BeamPlotter.render_tikz", "src/pycba/render.py:BeamPlotter._tikz_loads"]}
{"id": "C81", "title": "Results do not depend on the units", "statement": "Describing the same beam in other units of length and force (spans, rigidities, springs, settlements, loads) gives the same analysis: the constructor and the analysis raise the same exceptions, and displacements, reactions, stations, moments, shears, rotations and deflections are the old ones converted to the new units.", "quantifier": "all pairs of positive conversion factors, all constructor arguments, beams, loads, shear points and numbers of stations", "why_tests_cant": "relates two runs for every beam and every choice of units; a test compares one beam in two units", "anchors": ["src/pycba/analysis.py:BeamAnalysis.__init__", "src/pycba/analysis.py:BeamAnalysis.analyze", "src/pycba/results.py:BeamResults", "src/pycba/units.py"]}
{"id": "C82", "title": "Deflections converge", "statement": "The recovered rotations and deflections approach the exact shape of the loaded member as more stations are asked for: the error at every station is at most a constant of the beam and its loads divided by the number of stations, and divided by its square for members without shear flexibility and concentrated moments.", "quantifier": "all beams of prismatic members under all loads, all exact shapes, all numbers of stations, shear points and options", "why_tests_cant": "a rate of convergence speaks of all numbers of stations at once, with one constant; a test compares a few", "anchors": ["src/pycba/results.py:BeamResults._member_values", "src/pycba/analysis.py:BeamAnalysis.analyze"]}
{"id": "C83", "title": "Steps of a traverse", "statement": "Positions between the steps of a vehicle traverse are not missed: on a deck held vertically at both ends, moving a vehicle changes every tabulated moment and every reaction of an inner support at most in proportion to its weight and the distance moved, so that the envelope of a traverse covers every position between its start and end up to an error proportional to the step. (The reaction of an end support jumps when an axle comes onto the deck.)", "quantifier": "all decks of prismatic spans, all vehicles, positions, static loads, stations and steps, with one constant per deck", "why_tests_cant": "the claim bounds the results at infinitely many positions between the analysed ones, for all vehicles and all steps with one constant", "anchors": ["src/pycba/bridge.py:BridgeAnalysis.run_vehicle", "src/pycba/bridge.py:BridgeAnalysis.static_vehicle", "src/pycba/load.py:LoadPL.get_cnl", "src/pycba/results.py:Envelopes"]}
{"id": "C84", "title": "Exported tables", "statement": "The CSV text written by to_csv reads back, field by field, as the table of the results: one named column per effect (x, M, V, R, D, or x and the envelope attributes asked for, in their order) and one row per station with the values of that station; to_dataframe has the same columns, each name once; an attribute the envelope does not have is refused; before an analysis nothing is written.", "quantifier": "all analyses and envelopes, all lists of attributes, all number formats that are legible for the numbers concerned, delimiters and headers given by the caller", "why_tests_cant": "the round trip is claimed for tables of any size and content and every choice of columns", "anchors": ["src/pycba/results.py:BeamResults.to_csv", "src/pycba/results.py:BeamResults.to_dataframe", "src/pycba/results.py:Envelopes.to_csv", "src/pycba/results.py:Envelopes.to_dataframe", "src/pycba/analysis.py:BeamAnalysis.to_csv"]}
{"id": "C85", "title": "Reactions and deflected shapes", "statement": "Displace a support of the unloaded beam by delta (prescribed displacement): the reaction there under any loads, times delta, equals the work of these loads on the shape the beam takes. For a point load it is the load times the deflection under it, so the influence line of a reaction or reaction moment is the deflected shape for a unit displacement or rotation of the support, times the load value used to create it.", "quantifier": "all beams of prismatic members, supports (rigid and sprung), loads, displacements, positions and influence-line objects", "why_tests_cant": "relates two analyses of every beam, for every support and every position of the load; tests compare a few ordinates with tables", "anchors": ["src/pycba/inf_lines.py:InfluenceLines.get_il", "src/pycba/inf_lines.py:InfluenceLines.create_ils", "src/pycba/analysis.py:BeamAnalysis.analyze", "src/pycba/beam.py:Beam.prescribed_displacements"]}
{"id": "C86", "title": "Drawn diagrams", "statement": "What is drawn is what was computed: each diagram shows the effect of the analysis at every station, moments hanging below the line, shears and deflections (in display units) above it, with the label of its unit system, on either backend, alone, in the figure of all results, or over other diagrams of its kind however often; envelopes show both extremes with every analysis between them and the coincident values; the plot of a vehicle at one position shows the effects of the static loads and the axles on the deck and marks these axles; after a traverse the histories of all reactions are drawn against the positions with their extremes marked; plastic moments hang below the line. The default backend is always one that is known and available; nothing is drawn before an analysis.", "quantifier": "all analyses, envelopes, bridges, vehicles, positions, unit systems, sequences of calls of set_backend and of overlaid plots", "why_tests_cant": "figures are checked by eye or by their type; the claim ties every line to the results for all models and sequences of calls", "anchors": ["src/pycba/analysis.py:BeamAnalysis.plot_results", "src/pycba/analysis.py:BeamAnalysis.plot_bmd", "src/pycba/results.py:Envelopes.plot", "src/pycba/results.py:Envelopes.plot_coincidents", "src/pycba/plotting.py:set_backend", "src/pycba/bridge.py:BridgeAnalysis.plot_static", "src/pycba/bridge.py:BridgeAnalysis.plot_envelopes", "src/pycba/nonlinear.py:NonlinearResult.plot_moments"]}
{"id": "C87", "title": "Animated traverses", "statement": "Where run_vehicle completes, animate shows one frame per position, in order: the moments and shears of the vehicle there over the band between the greatest and least values so far, everything within the limits of the axes, which are the same in all frames. The band of the last frame is the envelope that run_vehicle returns, except that the envelope includes zero.", "quantifier": "all bridges, vehicles, steps, ranges and unit systems", "why_tests_cant": "the claim covers every station of every frame of every traverse", "anchors": ["src/pycba/bridge.py:BridgeAnalysis.animate", "src/pycba/bridge.py:BridgeAnalysis.run_vehicle"]}
{"id": "C88", "title": "One loading, many descriptions", "statement": "Load matrices that describe the same loading give exactly the same displacements, reactions and tables: the rows in any order, a load divided into rows of the same place whose magnitudes add up, a uniform load given over the whole member, as a partial load or as a ramp between equal values, the omitted entries of a ramp written out, a partial load or a ramp cut into pieces that meet, further entries after those of the type. Every row acts on the beam or is refused.", "quantifier": "all beams, loads, positions, sequences of such rewritings, shear points and numbers of stations", "why_tests_cant": "infinitely many ways to describe a loading; each must give every entry of every result unchanged on every beam", "anchors": ["src/pycba/load.py:parse_LM", "src/pycba/load.py:LoadUDL", "src/pycba/load.py:LoadPUDL", "src/pycba/load.py:LoadTrapez", "src/pycba/beam.py:Beam.get_ref", "src/pycba/results.py:BeamResults._member_values"]}
{"id": "C89", "title": "Drawn load patterns", "statement": "The plot of load cases shows one row per case, in order, with its name or number. A case with distributed load is shown loaded exactly where its rows put distributed load; a case with concentrated loads only shows the spans it names, or those that have a load when it names none. The cases of a patterned uniform load show segments that lie next to one another and fill every span.", "quantifier": "all beams, lists of load cases and load matrices, all segment counts", "why_tests_cant": "infinitely many load matrices; the picture has to agree with the load of each of them at every point of the beam", "anchors": ["src/pycba/load_cases.py:plot_load_patterns", "src/pycba/load_cases.py:_load_case_loaded_regions", "src/pycba/load_cases.py:_load_case_loaded_spans", "src/pycba/load_cases.py:make_patterned_udl"]}
{"id": "C90", "title": "Which loads a vehicle run includes", "statement": "In any program with several beam analyses, bridge analyses and load lists, every vehicle position is analysed with the static loads of the bridge analysis and the loads of the vehicle (and lane) at that position, and nothing of earlier positions or runs. The static loads are the loads of the beam analysis when it was attached; no vehicle run changes them. A load added to the beam analysis joins them until the first position has been analysed, and no later.", "quantifier": "all sequences of calls on all numbers of objects and lists, including calls that raise", "why_tests_cant": "unbounded histories with aliasing between load lists; each history would be a separate test", "anchors": ["src/pycba/bridge.py:BridgeAnalysis.__init__", "src/pycba/bridge.py:BridgeAnalysis.add_bridge", "src/pycba/bridge.py:BridgeAnalysis.set_bridge", "src/pycba/bridge.py:BridgeAnalysis._single_analysis", "src/pycba/bridge.py:BridgeAnalysis.run_load_model", "src/pycba/beam.py:Beam.add_load"]}
{"id": "C91", "title": "What the pictures of a plastic analysis show", "statement": "The deformed shape drawn for a static plastic analysis is the deflections it computed, times the factor asked for or, by default, a positive factor that makes the largest one 12 % of the beam length; a marker stands on the curve at each node with a plastic hinge, once. The hinge history shows every event once, at its place and its load factor (or front axle position), in the series of its kind. The beam state shows every event at its place and, for a vehicle, exactly the axles standing on the beam at the final position.", "quantifier": "all beams, meshes, loads, vehicles, steps, scales and unit systems", "why_tests_cant": "the pictures depend on the whole course of an analysis; tests look at none of the drawn values", "anchors": ["src/pycba/nonlinear.py:NonlinearResult.plot_collapse", "src/pycba/nonlinear.py:NonlinearResult.plot_hinge_history", "src/pycba/nonlinear.py:NonlinearResult.plot_beam_state", "src/pycba/nonlinear.py:NonlinearResult._draw_beam"]}
{"id": "C92", "title": "A negative restraint value means the same whatever the number", "statement": "A restraint value below zero holds its degree of freedom rigidly, whichever negative number is given: replacing negative values by other negative values changes neither results, reactions, refusals nor the stability verdict of a static analysis, nor the influence lines of shear and moment, nor those of reactions, natural frequencies, plastic analyses and drawings.", "quantifier": "all beams, loads, restraint lists and all choices of negative values", "why_tests_cant": "the setter accepts every number and each analysis compares it in its own way; a test fixes one value, usually -1", "anchors": ["src/pycba/beam.py:Beam.restraints", "src/pycba/analysis.py:BeamAnalysis._apply_bc", "src/pycba/analysis.py:BeamAnalysis._reactions", "src/pycba/inf_lines.py:InfluenceLines.get_il", "src/pycba/modal.py:solve_modal", "src/pycba/nonlinear.py:NonlinearBeamAnalysis", "src/pycba/render.py:_infer_supports"]}
{"id": "C93", "title": "What the pictures of sections, rigidities, reactions and vehicles show", "statement": "The plot of a variable section has a curve on the graph of every described piece from end to end, a vertical line exactly where the value jumps and a mark at every change; the beam in the schematic is drawn with a depth following the cube root of its rigidity, and as a plain line exactly when the rigidity is the same everywhere; the reaction picture has one arrow per reaction at its joint, pointing as the force acts, longer for larger ones, labelled to four figures; the vehicle picture has one arrow per axle at its position, taller for heavier axles, labelled with the weight.", "quantifier": "all sequences of segments and resolutions, all beams of positive rigidity, all reactions and all vehicles", "why_tests_cant": "pictures are checked by eye or only for not failing; each value drawn depends on the whole description", "anchors": ["src/pycba/section.py:SectionEI.plot", "src/pycba/render.py:BeamPlotter._ei_depth_profile", "src/pycba/render.py:BeamPlotter.render_reactions_mpl", "src/pycba/render.py:_round_sig", "src/pycba/vehicle.py:Vehicle.plot_vehicle"]}
{"id": "C94", "title": "The equation of three moments", "statement": "At every inner joint that may rotate freely and transmits moment, the bending moments an analysis finds at the joint and at the far ends of the two members satisfy Clapeyron's equation of three moments: their combination with the spans over the rigidities equals the difference of the rotations the two spans would have there as simple spans under the same loads, plus the kink of the settled supports (with the additional terms of shear flexibility). For a beam of two spans under uniform and point loads this gives the support moment in closed form.", "quantifier": "all beams of prismatic members, all loads, settlements and joints", "why_tests_cant": "the relation couples the stiffness, the fixed-end forces, the assembly and the solution; a test only checks it for one beam", "anchors": ["src/pycba/analysis.py:BeamAnalysis.analyze", "src/pycba/beam.py:Beam.get_span_k", "src/pycba/beam.py:Beam.get_ref", "src/pycba/load.py:LoadUDL.get_cnl", "src/pycba/load.py:LoadPL.get_cnl"]}
{"id": "C95", "title": "How natural frequencies compare", "statement": "Mode by mode, the reported natural frequencies do not depend on the eigenvalue routine; a beam with stiffer or lighter spans or stronger supports has none lower; making k further support directions rigid raises them, but none above the frequency k modes higher; scaling rigidity, mass and length scales them with the root of rigidity over mass and the inverse square of length; describing the beam from the other end does not change them; and dividing each sub-element into equal parts raises none.", "quantifier": "all beams that modal analysis accepts, all modes, meshes, scale factors and correct eigenvalue routines", "why_tests_cant": "a comparison of two runs for every pair of beams, through an eigenvalue problem of any size; a test compares two numbers", "anchors": ["src/pycba/modal.py:solve_modal", "src/pycba/modal.py:_k_ebeam", "src/pycba/modal.py:_m_consistent"]}
{"id": "C96", "title": "What the pictures of tendons, modes, ratios and responses show", "statement": "The tendon picture shows the centre line, a mark at every node that is not free, the tendon of each stressed span in its place at its eccentricity, and the equivalent loads, whenever those can be found; the mode picture shows the asked modes (by default the first three) in their shapes, labelled with number and frequency; the ratio picture shows the ratios of two envelopes with one bar per reaction; the response picture shows one named line per load case, both envelopes, the span limits and the span numbers at mid-span; the axle summary expands to the axles of the vehicle; the text summaries count modes and supports.", "quantifier": "all beams, tendons, modal results, envelopes, response matrices and vehicles", "why_tests_cant": "a statement about every drawn point for every input; image comparisons check one picture", "anchors": ["src/pycba/prestress.py:plot_tendon", "src/pycba/modal.py:ModalResults.plot_modes", "src/pycba/modal.py:ModalResults.plot_results", "src/pycba/modal.py:ModalResults.__repr__", "src/pycba/bridge.py:BridgeAnalysis.plot_ratios", "src/pycba/bridge.py:BridgeAnalysis._vehicle_spec", "src/pycba/load_cases.py:plot_response_envelope", "src/pycba/beam.py:Beam._n_supports", "src/pycba/beam.py:Beam.no_fixed_restraints"]}
{"id": "C97", "title": "What the matplotlib schematic of a beam shows", "statement": "The schematic of a beam is drawn whenever its loads lie on their spans and its units are known. It shows each force as a vertical arrow onto the beam from the side the force comes from, each distributed load over its loaded length at heights that order as the intensities, and each moment as an arc whose arrowhead turns in the sense of the moment, each with its magnitude and unit if values are asked for. Dimensions are the span lengths, extents are those of exactly the loads that leave a part of their span free, each support has its letter, springs stand under exactly the members on a foundation, and all of it lies within the limits of the axes.", "quantifier": "all beams, load lists, unit systems, options and number formats", "why_tests_cant": "a statement about every drawn point for every load list; image comparisons check one picture", "anchors": ["src/pycba/render.py:BeamPlotter.render_mpl", "src/pycba/render.py:BeamPlotter._draw_point_mpl", "src/pycba/render.py:BeamPlotter._draw_dist_mpl", "src/pycba/render.py:BeamPlotter._draw_moment_mpl", "src/pycba/render.py:BeamPlotter._draw_dimensions_mpl"]}
{"id": "C98", "title": "What the support symbols and the picture of the reactions show", "statement": "Every supported node of a beam has, from left to right, the symbol of its kind: a pin stands on the ground, a roller on two wheels, a clamp is a wall hatched on its outer side, a spring stands on the ground, a guide is two level lines; a stem with a spiral stands on exactly the vertically held nodes with a rotational spring, and a disc on exactly the interior nodes where a member end is released. All symbols lie within the axes. The picture of the reactions is nothing before an analysis and always drawn after one: one arrow below its node for each reported vertical reaction above 1e-6, in its sense, with its magnitude to four figures and unit, longer for a greater force, and one arc for each moment reaction that turns in its sense; all are in view, the arrows below every support symbol.", "quantifier": "all beams, analyses, load lists, unit systems, options and number formats", "why_tests_cant": "a statement about every drawn point for every restraint pattern and every analysed beam; image comparisons check one picture", "anchors": ["src/pycba/render.py:BeamPlotter._draw_support_mpl", "src/pycba/render.py:BeamPlotter._ground_mpl", "src/pycba/render.py:BeamPlotter._spring_mpl", "src/pycba/render.py:BeamPlotter._draw_hinge_mpl", "src/pycba/render.py:BeamPlotter.render_reactions_mpl", "src/pycba/analysis.py:BeamAnalysis.plot_reactions"]}
{"id": "C99", "title": "The files that plot() and save_tikz() write", "statement": "plot() uses TikZ if asked to, or if the target is named .tex in any case, and matplotlib otherwise; matplotlib gives the axes with the schematic of the given loads and options added. With TikZ and no target it returns what to_tikz() returns and no file changes. With a target, the .tex file of that name holds the complete document around that picture, whatever standalone says, and no other file changes; if a PDF is asked for or the target is named .pdf, pdflatex has then run on that document without error and the PDF returned exists. A call that is refused leaves every file as it was; one that only fails to compile leaves the document behind. After any series of calls a file holds what the last call that writes it wrote. The file asked for is the file written.", "quantifier": "all beams, loads, targets, options, disks, file permissions, behaviours of matplotlib and pdflatex, and all series of calls", "why_tests_cant": "every history of calls and every point of failure; a test sees one disk and one LaTeX installation", "anchors": ["src/pycba/beam.py:Beam.plot", "src/pycba/beam.py:Beam.to_tikz", "src/pycba/beam.py:Beam.save_tikz", "src/pycba/analysis.py:BeamAnalysis.plot_beam", "src/pycba/render.py:BeamPlotter.save_tikz"]}
{"id": "C100", "title": "What analysing a load pattern leaves in the analysis object", "statement": "LoadPattern.analyze() returns the envelope of the arrangements on the beam as it was given, although it writes each arrangement into the analysis object before the next one; a second run, or another pattern on the same object, gives the envelope it would give alone. A completed run leaves the beam as it was but for its loads: every span carries its dead and live loads with the maximum factors, and the results left are those of these loads. A run stopped by an exception leaves the object as it was or with one arrangement and its results. After any series of calls the results held are those that analysing the object again would give, and the loads and factors of the pattern are those set last.", "quantifier": "all analysis objects made by any series of calls, all load patterns and factors, numbers of stations, and all series of calls on a pattern", "why_tests_cant": "every history of calls and every arrangement at which an analysis can fail; a test sees one beam and one run", "anchors": ["src/pycba/pattern.py:LoadPattern.analyze", "src/pycba/pattern.py:LoadPattern.set_dead_loads", "src/pycba/pattern.py:LoadPattern.set_live_loads", "src/pycba/load_cases.py:build_pycba_model"]}
{"id": "C101", "title": "Displacements prescribed where no rigid support is", "statement": "A displacement given in D is met at its degree of freedom, whatever restraint is there. The reported reactions and spring forces hold every node and balance the loads and their moment, also when D prescribes displacements at free or sprung degrees of freedom.", "quantifier": "all beams, loads, restraints and prescribed displacements", "why_tests_cant": "holds for all combinations of restraints and prescribed displacements; a test has one", "anchors": ["src/pycba/analysis.py:BeamAnalysis._apply_bc", "src/pycba/analysis.py:BeamAnalysis._reactions", "src/pycba/beam.py:Beam.prescribed_displacements"]}
{"id": "C102", "title": "A point load at a joint may be given on either member", "statement": "A point load at the joint of two members gives the same displacements and the same reactions and spring forces whether it is given at the end of the left member or at the start of the right one, with any other loads on the beam and any releases of the two members.", "quantifier": "all beams, joints, loads, supports and member types", "why_tests_cant": "holds for every joint, release and combination of loads; a test has one", "anchors": ["src/pycba/load.py:LoadPL", "src/pycba/analysis.py:BeamAnalysis.analyze", "src/pycba/beam.py:Beam.get_ref"]}
