(** C67-C71: the schematic of a beam, its reactions by node and the load helpers
    ([RenderSpec] says what should be shown). *)
From Coq Require Import ZArith Ascii String.
From Verif Require Import Base LoadModel LoadSpec ElementModel BeamModel BeamSpec AnalysisModel AnalysisSpec AnalysisFacts3
  ResultsModel ResultsSpec BridgeSpec UnitsModel RenderModel RenderSpec RenderFacts2 RenderFacts4 RenderFacts5.
Open Scope R_scope.

(** C67: supports.  Full claim: the symbols show every restraint of every node.  Missing:
    restraint codes that are held by the analysis but not documented, and the rotational
    restraint of nodes on vertical springs; both are not shown (see below). *)
Theorem C67_supports_partial : forall b s p, deck b -> documented b -> beam_plotter b s = Ok p -> shows_supports b (pl_supports p).
Proof. exact supports_drawn. Qed.
Print Assumptions C67_supports_partial.

(** C67: an interior node carries a hinge exactly when a member end there is released. *)
Theorem C67_hinges : forall b s p, deck b -> beam_plotter b s = Ok p -> forall h, In h (pl_hinges p) <->
  exists i, (0 < i < b_nspans b)%nat /\ (loose_right b (i - 1) \/ loose_left b i) /\ h = {| h_x := node_at b i; h_node := i |}.
Proof. exact hinges_drawn. Qed.
Print Assumptions C67_hinges.

(** Any negative restraint holds a node, but only -1 is drawn. *)
Theorem C67_other_negative_refuted : exists c b p, beam_init c = Ok b /\ vert b 0 < 0 /\ beam_plotter b OwnLoads = Ok p /\
  forall s, In s (pl_supports p) -> s_node s <> 0%nat.
Proof. exact minus_two. Qed.
Print Assumptions C67_other_negative_refuted.

(** A vertical spring hides whether the node may rotate. *)
Theorem C67_spring_with_clamp_refuted : exists c1 c2 b1 b2 p1 p2, beam_init c1 = Ok b1 /\ beam_init c2 = Ok b2 /\ documented b1 /\ documented b2 /\
  rot b1 0 < 0 /\ rot b2 0 = 0 /\ beam_plotter b1 OwnLoads = Ok p1 /\ beam_plotter b2 OwnLoads = Ok p2 /\
  pl_supports p1 = pl_supports p2 /\ pl_hinges p1 = pl_hinges p2.
Proof. exact spring_hides_clamp. Qed.
Print Assumptions C67_spring_with_clamp_refuted.

Example C67_nonvacuous : deck sample_beam /\ documented sample_beam /\ exists p, beam_plotter sample_beam (GivenRows sample_rows) = Ok p.
Proof.
  exact (conj deck_sample (conj sample_documented (match sample_draws sample_rows sample_parsed eq_refl sample_on with ex_intro p (conj H _) => ex_intro _ p H end))).
Qed.

(** C68: the loads used are those asked for... *)
Theorem C68_source : forall b s p, beam_plotter b s = Ok p ->
  match s with
  | OwnLoads => pl_LM p = b_LM b
  | GivenRows lm => pl_LM p = lm
  | GivenCase r => r = Ok (pl_LM p)
  | GivenCombination r => r = Some (Ok (pl_LM p))
  end.
Proof. exact source_used. Qed.
Print Assumptions C68_source.

(** ...and what is drawn on a span is the action that an analysis under them puts on it... *)
Theorem C68_loads : forall b s p ls m, deck b -> beam_plotter b s = Ok p -> parsed_loads (set_loads b (pl_LM p)) = Ok ls -> (m < b_nspans b)%nat ->
  shows_action b m (pl_loads p) (actions (span_length b m) (loads_of ls m)).
Proof. exact loads_drawn. Qed.
Print Assumptions C68_loads.

(** ...within the span, if the loads are.  Full claim: for all loads the analysis accepts. *)
Theorem C68_on_the_span_partial : forall b s p ls, deck b -> beam_plotter b s = Ok p -> parse_LM (pl_LM p) = Ok ls -> Forall (fits b) ls -> placed b (pl_loads p).
Proof. exact all_placed. Qed.
Print Assumptions C68_on_the_span_partial.

(** The imposed curvatures (load type 6), which have no symbol, and no other loads are listed
    as skipped, in the order in which they are given. *)
Theorem C68_skipped : forall b s p, beam_plotter b s = Ok p ->
  dr_skip (pl_loads p) = flat_map (fun r => match r with Row sp 6 args => [((sp - 1)%Z, LIC args None)] | _ => [] end) (pl_LM p).
Proof. exact skipped_listed. Qed.
Print Assumptions C68_skipped.

(** Loads on the spans of the beam can always be drawn. *)
Theorem C68_draws : forall b s lm ls, deck b -> List.length (b_R b) = (2 * (b_nspans b + 1))%nat -> resolve_lm b s = Ok lm -> parse_LM lm = Ok ls -> on_spans b ls ->
  exists p, beam_plotter b s = Ok p /\ pl_LM p = lm.
Proof. exact draws. Qed.
Print Assumptions C68_draws.

(** A partial UDL that runs past its span is drawn over the next one. *)
Theorem C68_overhang_refuted : exists lm p q, beam_plotter sample_beam (GivenRows lm) = Ok p /\ In q (dr_dist (pl_loads p)) /\ d_span q = 0%Z /\ node_at sample_beam 1 < d_x1 q.
Proof. exact overhang_drawn. Qed.
Print Assumptions C68_overhang_refuted.

(** A load on "span 0" acts nowhere but is drawn past the right end of the beam. *)
Theorem C68_span_zero_refuted : exists lm ls p q, parsed_loads (set_loads sample_beam lm) = Ok ls /\ (forall m, loads_of ls m = []) /\
  beam_plotter sample_beam (GivenRows lm) = Ok p /\ In q (dr_dist (pl_loads p)) /\ d_w0 q = 10 /\ d_x0 q = b_length sample_beam.
Proof. exact span_zero_drawn. Qed.
Print Assumptions C68_span_zero_refuted.

Example C68_nonvacuous : parse_LM sample_rows = Ok sample_parsed /\ parsed_loads (set_loads sample_beam sample_rows) = Ok sample_parsed /\
  on_spans sample_beam sample_parsed /\ Forall (fits sample_beam) sample_parsed /\ beam_init sample_ctor = Ok sample_beam.
Proof. exact (conj eq_refl (conj eq_refl (conj sample_on (conj sample_fits eq_refl)))). Qed.

(** C69: the reactions by node are the reactions of the analysis.  Full claim: all that are
    not zero.  Missing: those not above 1e-6, which are left out whatever the units. *)
Theorem C69_reactions_partial : forall gl ill a npts check a' o,
  analyze_core gl ill a npts check = (a', Ok o) -> List.length (b_R (an_beam a)) = an_ndof a ->
  exists V M, reactions_by_node (an_beam a) o = Ok (V, M) /\
    (forall n v, In (n, v) V <-> (n <= an_n a)%nat /\ v = reported (an_beam a) o (2 * n) /\ / 10^6 < Rabs v) /\
    (forall n v, In (n, v) M <-> (n <= an_n a)%nat /\ v = reported (an_beam a) o (2 * n + 1) /\ / 10^6 < Rabs v).
Proof. exact reactions_listed. Qed.
Print Assumptions C69_reactions_partial.

(** A loaded beam without reactions: any loads become one when scaled down. *)
Theorem C69_small_reactions_refuted : exists A o, run sample_gl (fun _ _ => false) sample A false = Ok o /\
  reactions_by_node sample_beam o = Ok ([], []) /\ rsum 3 (fun j => reported sample_beam o (2 * j)) <> 0.
Proof. exact reaction_hidden. Qed.
Print Assumptions C69_small_reactions_refuted.

Example C69_nonvacuous : (exists o, run sample_gl (fun _ _ => false) sample sample_A false = Ok o) /\ List.length (b_R (an_beam sample)) = an_ndof sample.
Proof. exact (conj (sample_runs _ _ sample_A_wf) eq_refl). Qed.

(** C70: the TikZ source is produced for loads on the spans of the beam... *)
Theorem C70_source : forall fmt uni b s p ls scale dims labels show us, deck b -> beam_plotter b s = Ok p -> parse_LM (pl_LM p) = Ok ls -> on_spans b ls ->
  exists lines, tikz_lines fmt uni p scale dims labels show us = Ok lines.
Proof. exact drawable. Qed.
Print Assumptions C70_source.

(** ...names no two things alike... *)
Theorem C70_names : forall fmt uni p scale dims labels show us ls, tikz_lines fmt uni p scale dims labels show us = Ok ls -> NoDup (flat_map declared ls).
Proof. exact unique_names. Qed.
Print Assumptions C70_names.

(** ...draws nodes, spans, supports and loads where they are... *)
Theorem C70_pictures : forall fmt uni b s p scale dims labels show us ls, deck b -> beam_plotter b s = Ok p -> tikz_lines fmt uni p scale dims labels show us = Ok ls ->
  exists name, pictures fmt name b p ls.
Proof. exact (fun fmt uni b s p scale dims labels show us ls K H T => ex_intro _ _ (pictured fmt uni b s p scale dims labels show us ls K H T)). Qed.
Print Assumptions C70_pictures.

(** ...but draws an upward distributed load like a downward one... *)
Theorem C70_sense_refuted : exists p p', beam_plotter sample_beam (GivenRows [Row 1 1 [10]]) = Ok p /\ beam_plotter sample_beam (GivenRows [Row 1 1 [-10]]) = Ok p' /\
  forall fmt uni scale dims labels show us, exists ls,
    tikz_lines fmt uni p scale dims labels show us = Ok ls /\ tikz_lines fmt uni p' scale dims labels show us = Ok ls.
Proof. exact sense_example. Qed.
Print Assumptions C70_sense_refuted.

(** ...and letters the supports A, B, C... by node.  Full claim: all supports. *)
Theorem C70_letters_partial : forall fmt uni b s p scale dims show us ls x, deck b -> beam_plotter b s = Ok p -> tikz_lines fmt uni p scale dims true show us = Ok ls -> In x (pl_supports p) ->
  (s_node x < 26)%nat ->
  exists r, In (tab ++ "\notation{1}{" ++ String (ascii_of_nat (97 + s_node x)) "" ++ "}{$" ++ String (ascii_of_nat (65 + s_node x)) "" ++ "$}" ++ r)%string ls.
Proof. exact capitals. Qed.
Print Assumptions C70_letters_partial.

(** The support at the 28th node is labelled with a backslash, which LaTeX rejects. *)
Theorem C70_letters_refuted : exists c b p, beam_init c = Ok b /\ documented b /\ beam_plotter b OwnLoads = Ok p /\
  forall fmt uni scale dims show us, exists ls r, tikz_lines fmt uni p scale dims true show us = Ok ls /\
    In (tab ++ "\notation{1}{p27}{$\$}" ++ r)%string ls.
Proof. exact letters_run_out. Qed.
Print Assumptions C70_letters_refuted.

Example C70_nonvacuous : exists p, beam_plotter sample_beam (GivenRows sample_rows) = Ok p /\ pl_LM p = sample_rows /\
  parse_LM sample_rows = Ok sample_parsed /\ on_spans sample_beam sample_parsed.
Proof.
  exact (match sample_draws sample_rows sample_parsed eq_refl sample_on with ex_intro p (conj H E) => ex_intro _ p (conj H (conj E (conj eq_refl sample_on))) end).
Qed.

(** C71: add_udl(), add_pl(), ... add to the loads of the analysis one load, on the given
    span, with the documented action.  Full claim: for all arguments they accept.  Missing:
    add_trap() with a length and no start, which is spread over the whole span. *)
Theorem C71_helpers_partial : forall a h a' ls, add_helper a h = Ok a' -> parsed_loads (an_beam a) = Ok ls ->
  (1 <= helper_span h <= Z.of_nat (List.length (b_EIs (an_beam a))))%Z ->
  (match h with AddTrap _ _ _ None (Some _) => False | _ => True end) ->
  exists ld, parsed_loads (an_beam a') = Ok (ls ++ [((helper_span h - 1)%Z, ld)])%list /\
    (forall L, 0 < L -> exists A, meant L h = Some A /\ forces A = forces (action_of L ld) /\ moments A = moments (action_of L ld) /\
       forall t, intensity A t = intensity (action_of L ld) t) /\
    (forall i k, h = AddIC i k -> exists e, nth_error (b_EIs (an_beam a)) (Z.to_nat (i - 1)) = Some e /\ ld = LIC k (Some e)).
Proof. exact helper_spec. Qed.
Print Assumptions C71_helpers_partial.

(** A trapezoid over the first 1 m still loads the beam at 3 m. *)
Theorem C71_trap_without_start_refuted : exists a' ld, add_helper sample (AddTrap 1 10 20 None (Some 1)) = Ok a' /\ parsed_loads (an_beam a') = Ok [(0%Z, ld)] /\
  intensity (action_of 4 ld) 3 = 35/2.
Proof. exact trap_spread. Qed.
Print Assumptions C71_trap_without_start_refuted.

Example C71_nonvacuous : exists a', add_helper sample (AddTrap 2 1 3 (Some 2) (Some 3)) = Ok a' /\ parsed_loads (an_beam sample) = Ok [].
Proof. exact (ex_intro _ _ (conj eq_refl eq_refl)). Qed.
