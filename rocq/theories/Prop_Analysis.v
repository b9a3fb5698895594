(** Property theorems about the analysis of a beam (C09 to C16, C18 to C20, C49).
    [gl] is the quadrature rule, [ill] the eigenvalue test of the stability check: both
    arbitrary. *)
From Coq Require Import Permutation Ascii String.
From Verif Require Import Base BaseFacts LoadModel LoadSpec LMFacts ElementModel ElementSpec ConstSectFacts
  UtilsModel UtilsSpec UtilsFacts BeamModel BeamSpec AnalysisModel AnalysisSpec SuperFacts MechFacts HistoryFacts AnalysisFacts3.
Open Scope R_scope.

(** C09: boundary conditions and equilibrium of every other DOF ([equilibrium]). *)
Theorem C09_supports_and_equilibrium : forall gl ill a npts check a' o,
  analyze_core gl ill a npts check = (a', Ok o) ->
  equilibrium gl (an_beam a) (an_n a) (o_d o).
Proof. exact analyze_equilibrium. Qed.
Print Assumptions C09_supports_and_equilibrium.

(** The reported reactions and spring forces hold every node, restrained or not. *)
Theorem C09_reactions_hold_the_nodes : forall gl ill a npts check a' o,
  analyze_core gl ill a npts check = (a', Ok o) -> settles_supports (an_beam a) ->
  exists ef, (forall m, (m < an_n a)%nat -> member_state gl (an_beam a) (o_d o) m (ef m)) /\
    forall i, (i < an_ndof a)%nat -> reported (an_beam a) o i = nodal_sum (an_n a) ef i.
Proof. exact analyze_reactions. Qed.
Print Assumptions C09_reactions_hold_the_nodes.

(** A constructed two-span beam (encastre, roller, spring) is analysed successfully. *)
Example C09_nonvacuous : forall ill, analysis_init sample_ctor = Ok sample /\
  settles_supports (set_loads sample_beam sample_A) /\
  exists o, run sample_gl ill sample sample_A false = Ok o.
Proof. exact (fun ill => conj sample_init (conj (sample_settles sample_A) (sample_runs ill _ sample_A_wf))). Qed.

(** C10: vertical balance, for every member type. *)
Theorem C10_reactions_balance_load : forall gl ill a npts check a' o W,
  gauss_rule gl -> members (an_beam a) (an_n a) sound_member ->
  loads_on_members (an_beam a) (an_n a) -> settles_supports (an_beam a) ->
  analyze_core gl ill a npts check = (a', Ok o) -> beam_load (an_beam a) (an_n a) W ->
  rsum (an_n a + 1) (fun j => reported (an_beam a) o (2 * j)) = W.
Proof. exact analyze_total. Qed.
Print Assumptions C10_reactions_balance_load.

(** C10: moment balance about the left end.  Missing: beams with pin-pin members, for which it
    is false (see C10_pin_pin_moment_refuted). *)
Theorem C10_reactions_balance_moment_partial : forall gl ill a npts check a' o W, gauss_rule gl ->
  members (an_beam a) (an_n a) (fun mb => sound_member mb /\ mb_type mb <> 4%nat) ->
  loads_on_members (an_beam a) (an_n a) -> settles_supports (an_beam a) ->
  analyze_core gl ill a npts check = (a', Ok o) -> beam_moment (an_beam a) (an_n a) W ->
  rsum (an_n a + 1) (fun j => node_x (an_beam a) j * reported (an_beam a) o (2 * j)
                              + reported (an_beam a) o (2 * j + 1)) = W.
Proof. exact analyze_moment. Qed.
Print Assumptions C10_reactions_balance_moment_partial.

Theorem C10_pin_pin_moment_refuted : exists c a o W,
  analysis_init c = Ok a /\ members (an_beam a) (an_n a) sound_member /\
  loads_on_members (an_beam a) (an_n a) /\ settles_supports (an_beam a) /\
  snd (analyze_core sample_gl (fun _ _ => false) a None true) = Ok o /\
  beam_moment (an_beam a) (an_n a) W /\
  rsum (an_n a + 1) (fun j => node_x (an_beam a) j * reported (an_beam a) o (2 * j)
                              + reported (an_beam a) o (2 * j + 1)) <> W.
Proof. exact pp_moment. Qed.
Print Assumptions C10_pin_pin_moment_refuted.

Example C10_nonvacuous : gauss_rule sample_gl /\ loads_on_members (set_loads sample_beam sample_A) 2 /\
  settles_supports (set_loads sample_beam sample_A) /\ beam_load (set_loads sample_beam sample_A) 2 40.
Proof. exact (conj gauss2_rule (conj sample_A_on (conj (sample_settles _) sample_A_load))). Qed.

(** C11: superposition. *)
Theorem C11_loads_add : forall gl ill a A B check oA oB, no_settlement (an_beam a) ->
  run gl ill a A check = Ok oA -> run gl ill a B check = Ok oB ->
  exists o, run gl ill a (add_LM A B) check = Ok o /\ combination (an_ndof a) 1 oA 1 oB o /\
    forall m, (m < an_n a)%nat -> ends_comb 1 (member_forces gl (set_loads (an_beam a) A) (o_d oA) m)
      1 (member_forces gl (set_loads (an_beam a) B) (o_d oB) m)
      (member_forces gl (set_loads (an_beam a) (add_LM A B)) (o_d o) m).
Proof. exact run_add. Qed.
Print Assumptions C11_loads_add.

Theorem C11_loads_scale : forall gl ill a A A' g check oA,
  no_settlement (an_beam a) -> Forall wf_row A -> factor_LM A g = Ok A' ->
  run gl ill a A check = Ok oA ->
  exists o, run gl ill a A' check = Ok o /\ combination (an_ndof a) g oA 0 oA o /\
    forall m, (m < an_n a)%nat -> ends_comb g (member_forces gl (set_loads (an_beam a) A) (o_d oA) m)
      0 (member_forces gl (set_loads (an_beam a) A) (o_d oA) m)
      (member_forces gl (set_loads (an_beam a) A') (o_d o) m).
Proof. exact run_factor. Qed.
Print Assumptions C11_loads_scale.

Theorem C11_load_order : forall gl ill a A A' check oA, Permutation A A' -> run gl ill a A check = Ok oA ->
  exists o, run gl ill a A' check = Ok o /\ combination (an_ndof a) 1 oA 0 oA o /\
    forall m, (m < an_n a)%nat -> ends_comb 1 (member_forces gl (set_loads (an_beam a) A) (o_d oA) m)
      0 (member_forces gl (set_loads (an_beam a) A) (o_d oA) m)
      (member_forces gl (set_loads (an_beam a) A') (o_d o) m).
Proof. exact run_perm. Qed.
Print Assumptions C11_load_order.

Example C11_nonvacuous : forall ill, no_settlement (an_beam sample) /\ Forall wf_row sample_A /\
  (exists o, run sample_gl ill sample sample_A false = Ok o) /\
  (exists o, run sample_gl ill sample sample_B false = Ok o).
Proof.
  intros ill. split; [exact sample_unsettled|]. split; [constructor; [cbn; auto|constructor]|].
  split; [exact (sample_runs ill _ sample_A_wf)|exact (sample_runs ill _ sample_B_wf)].
Qed.

(** C12: linearity in the pair (loads, settlements). *)
Theorem C12_loads_and_settlements_add : forall gl ill a A D1 B D2 D check o1 o2, settle_comb 1 D1 1 D2 D ->
  run_settled gl ill a A D1 check = Ok o1 -> run_settled gl ill a B D2 check = Ok o2 ->
  exists o, run_settled gl ill a (add_LM A B) D check = Ok o /\ combination (an_ndof a) 1 o1 1 o2 o /\
    forall m, (m < an_n a)%nat -> ends_comb 1 (member_forces gl (set_loads (an_beam a) A) (o_d o1) m)
      1 (member_forces gl (set_loads (an_beam a) B) (o_d o2) m)
      (member_forces gl (set_loads (an_beam a) (add_LM A B)) (o_d o) m).
Proof. exact settled_add. Qed.
Print Assumptions C12_loads_and_settlements_add.

Theorem C12_loads_and_settlements_scale : forall gl ill a A A' g D D' check o,
  Forall wf_row A -> factor_LM A g = Ok A' -> settle_comb g D 0 D D' ->
  run_settled gl ill a A D check = Ok o ->
  exists o', run_settled gl ill a A' D' check = Ok o' /\ combination (an_ndof a) g o 0 o o'.
Proof. exact settled_factor. Qed.
Print Assumptions C12_loads_and_settlements_scale.

Theorem C12_loads_plus_settlements : forall gl ill a A D check o, run_settled gl ill a A D check = Ok o ->
  exists o1 o2, run_settled gl ill a A (zeroed D) check = Ok o1 /\ run_settled gl ill a [] D check = Ok o2 /\
    combination (an_ndof a) 1 o1 1 o2 o.
Proof. exact settled_split. Qed.
Print Assumptions C12_loads_plus_settlements.

Example C12_nonvacuous : forall ill, exists o,
  run_settled sample_gl ill sample sample_A [Some (1/100); None; Some (-2); None; None; None] false = Ok o.
Proof. exact sample_settled_runs. Qed.

(** C13: the result is the only equilibrium state. *)
Theorem C13_unique : forall gl ill a npts check a' o d,
  analyze_core gl ill a npts check = (a', Ok o) ->
  equilibrium gl (an_beam a) (an_n a) (o_d o) /\
  (equilibrium gl (an_beam a) (an_n a) d -> forall i, (i < an_ndof a)%nat -> d i = o_d o i).
Proof. exact analyze_unique. Qed.
Print Assumptions C13_unique.

(** A mechanism is always reported, whatever the eigenvalue test says and even with the
    stability check switched off. *)
Theorem C13_mechanism_raises : forall gl ill a npts check y,
  well_formed gl (an_beam a) (an_n a) -> mechanism gl (an_beam a) (an_n a) y ->
  snd (analyze_core gl ill a npts check) = Err ValueError.
Proof. exact analyze_mechanism. Qed.
Print Assumptions C13_mechanism_raises.

(** Without a mechanism the analysis (unchecked: the eigenvalue test is a heuristic) succeeds. *)
Theorem C13_no_mechanism_solves : forall gl ill a npts, gauss_rule gl ->
  well_formed gl (an_beam a) (an_n a) -> members (an_beam a) (an_n a) sound_member ->
  ~ inconsistent gl (an_beam a) (an_n a) -> (forall y, ~ mechanism gl (an_beam a) (an_n a) y) ->
  exists o, snd (analyze_core gl ill a npts false) = Ok o.
Proof. exact analyze_solves. Qed.
Print Assumptions C13_no_mechanism_solves.

(** Continuous beams: any two supports that block the rigid motions suffice. *)
Theorem C13_continuous_beams_are_stable : forall gl b n, gauss_rule gl ->
  members b n (fun mb => sound_member mb /\ mb_type mb = 1%nat) ->
  (forall m, (m < n)%nat -> exists mb k, member_at b m = Ok mb /\ span_k gl mb = Ok k) ->
  (exists i j, (i <= n)%nat /\ (j <= n)%nat /\ supported b (2 * i) /\
     (supported b (2 * j + 1) \/ i <> j /\ supported b (2 * j))) ->
  forall y, ~ mechanism gl b n y.
Proof. exact continuous_stable. Qed.
Print Assumptions C13_continuous_beams_are_stable.

Example C13_nonvacuous : (forall gl, well_formed gl (an_beam loose) 1 /\ exists y, mechanism gl (an_beam loose) 1 y) /\
  (forall ill, exists o, run sample_gl ill sample sample_A false = Ok o).
Proof.
  split; [intros gl; destruct (loose_mechanism gl) as [W M]; split; [exact W|eexists; exact M]|].
  exact (fun ill => sample_runs ill _ sample_A_wf).
Qed.

(** C14: over any history the memory of past checks is invisible... *)
Theorem C14_cache_is_transparent : forall gl ill c a ops npts check, analysis_init c = Ok a ->
  snd (analyze_core gl ill (history gl ill a ops) npts check)
  = snd (analyze_core gl ill (forget (history gl ill a ops)) npts check).
Proof. exact cache_transparent. Qed.
Print Assumptions C14_cache_is_transparent.

(** ...a checked analysis succeeds only on a structure that is_stable() accepts now... *)
Theorem C14_never_stale : forall gl ill c a ops npts a' o, analysis_init c = Ok a ->
  analyze_core gl ill (history gl ill a ops) npts true = (a', Ok o) ->
  snd (is_stable gl ill (history gl ill a ops)) = Ok true.
Proof. exact never_stale. Qed.
Print Assumptions C14_never_stale.

(** ...and after a check, load changes and analyses never consult the test again: any other
    test [ill'] would do. *)
Theorem C14_loads_never_recheck : forall gl ill a0 ops ill' npts,
  (snd (is_stable gl ill a0) = Ok true -> Forall load_only ops ->
   let a := history gl ill (fst (is_stable gl ill a0)) ops in
   snd (analyze_core gl ill' a npts true) = snd (analyze_core gl ill' a npts false)) /\
  (forall np o, snd (analyze_core gl ill a0 np true) = Ok o -> Forall load_only ops ->
   let a := history gl ill (fst (analyze_core gl ill a0 np true)) ops in
   snd (analyze_core gl ill' a npts true) = snd (analyze_core gl ill' a npts false)).
Proof. exact loads_never_recheck. Qed.
Print Assumptions C14_loads_never_recheck.

(** Editing the restraint list in place (the getter returns the live list) escapes the
    version count. *)
Theorem C14_in_place_edit_refuted : exists ill c a r o,
  analysis_init c = Ok a /\ snd (is_stable sample_gl ill a) = Ok true /\
  snd (is_stable sample_gl ill (edit_restraints (fst (is_stable sample_gl ill a)) r)) = Ok false /\
  snd (analyze_core sample_gl ill (edit_restraints (fst (is_stable sample_gl ill a)) r) None true) = Ok o.
Proof. exact stale_after_edit. Qed.
Print Assumptions C14_in_place_edit_refuted.

Example C14_nonvacuous : exists o, analysis_init sample_ctor = Ok sample /\
  snd (analyze_core sample_gl (fun _ _ => false)
    (history sample_gl (fun _ _ => false) sample [OIsStable; OSetLoads sample_A; OAnalyze None true]) None true) = Ok o.
Proof. exact sample_history. Qed.

(** C15: reciprocity. *)
Theorem C15_betti : forall gl ill a A B check oA oB WAB WBA, gauss_rule gl -> no_settlement (an_beam a) ->
  members (an_beam a) (an_n a) sound_member ->
  run gl ill a A check = Ok oA -> run gl ill a B check = Ok oB ->
  load_work gl (set_loads (an_beam a) A) (an_n a) (o_d oB) WAB ->
  load_work gl (set_loads (an_beam a) B) (an_n a) (o_d oA) WBA -> WAB = WBA.
Proof. exact betti. Qed.
Print Assumptions C15_betti.

Theorem C15_maxwell : forall gl ill a P i j check oi oj, gauss_rule gl -> no_settlement (an_beam a) ->
  members (an_beam a) (an_n a) (fun mb => sound_member mb /\ scalar_member mb) ->
  (i < an_n a)%nat -> (j < an_n a)%nat ->
  run gl ill a (node_force P i) check = Ok oi -> run gl ill a (node_force P j) check = Ok oj ->
  P <> 0 -> o_d oi (2 * j)%nat = o_d oj (2 * i)%nat.
Proof. exact maxwell. Qed.
Print Assumptions C15_maxwell.

Example C15_nonvacuous : forall ill j, (j < 2)%nat -> no_settlement (an_beam sample) /\
  exists o, run sample_gl ill sample (node_force 1 j) false = Ok o.
Proof. exact (fun ill j Hj => conj sample_unsettled (sample_runs ill _ (sample_node_wf 1 j Hj))). Qed.

(** C16: the span lookup (spans counted from 0). *)
Theorem C16_span_lookup : forall c b pos, beam_init c = Ok b -> (1 <= b_nspans b)%nat ->
  (forall m, (m < b_nspans b)%nat -> 0 < nth m (b_lengths b) 0) ->
  (0 <= pos <= node_at b (b_nspans b) ->
     exists i x, get_local_span_coords b pos = Ok (Z.of_nat i, x) /\ (i < b_nspans b)%nat /\
       pos = node_at b i + x /\ 0 <= x /\
       (x < nth i (b_lengths b) 0 \/ x = nth i (b_lengths b) 0 /\ i = (b_nspans b - 1)%nat)) /\
  (pos < 0 \/ node_at b (b_nspans b) < pos -> get_local_span_coords b pos = Ok ((-1)%Z, 0)).
Proof. exact lookup_built. Qed.
Print Assumptions C16_span_lookup.

Example C16_nonvacuous : beam_init sample_ctor = Ok sample_beam /\
  forall m, (m < 2)%nat -> 0 < nth m (b_lengths sample_beam) 0.
Proof. split; [reflexivity|]. intros [|[|m]] H; cbn; lra || lia. Qed.

(** C18: analyze() on a mechanism-free beam fails exactly on inconsistent input... *)
Theorem C18_analyze_rejects_exactly : forall gl ill a npts, gauss_rule gl ->
  well_formed gl (an_beam a) (an_n a) -> members (an_beam a) (an_n a) sound_member ->
  (forall y, ~ mechanism gl (an_beam a) (an_n a) y) ->
  ((exists o, snd (analyze_core gl ill a npts false) = Ok o) <-> ~ inconsistent gl (an_beam a) (an_n a)) /\
  (inconsistent gl (an_beam a) (an_n a) <-> snd (analyze_core gl ill a npts false) = Err ValueError).
Proof. exact analyze_exactly. Qed.
Print Assumptions C18_analyze_rejects_exactly.

(** ...always rejects it (any members, check on or off)... *)
Theorem C18_inconsistent_rejected : forall gl ill a npts check,
  well_formed gl (an_beam a) (an_n a) -> inconsistent gl (an_beam a) (an_n a) ->
  snd (analyze_core gl ill a npts check) = Err ValueError.
Proof. exact inconsistent_rejected. Qed.
Print Assumptions C18_inconsistent_rejected.

(** ...and the constructor succeeds exactly on [valid_args], keeping the arguments.  Missing:
    a member-type list shorter than the span list (see below). *)
Theorem C18_constructor_exact_partial : forall c, (length (ct_L c) <= length (ct_types c))%nat ->
  ((exists b, beam_init c = Ok b) <-> exists r ts, valid_args c r ts) /\
  (forall e, beam_init c = Err e -> e = ValueError) /\
  (forall b, beam_init c = Ok b -> exists r ts, valid_args c r ts /\
      b_lengths b = ct_L c /\ b_EIs b = ei_list c /\ b_GAv b = gav_list c /\ b_kf b = kf_list c /\ b_types b = ts /\
      b_R b = r /\ b_D b = match ct_D c with Some d => d | None => repeat None (length r) end /\
      b_LM b = match ct_LM c with Some l => l | None => [] end).
Proof. exact ctor_exact. Qed.
Print Assumptions C18_constructor_exact_partial.

Theorem C18_short_types_refuted : exists c b, length (ct_L c) = 2%nat /\ length (ct_types c) = 1%nat /\
  beam_init c = Ok b /\ b_nspans b = 1%nat.
Proof. exact short_types_drop. Qed.
Print Assumptions C18_short_types_refuted.

Example C18_nonvacuous : (length (ct_L sample_ctor) <= length (ct_types sample_ctor))%nat /\
  beam_init sample_ctor = Ok sample_beam /\
  exists gl a, well_formed gl (an_beam a) (an_n a) /\ inconsistent gl (an_beam a) (an_n a).
Proof. split; [cbn; lia|]. split; [reflexivity|]. exists sample_gl, conflicting. exact conflicting_inconsistent. Qed.

(** C19: support lists. *)
Theorem C19_supports_lower : forall sup n r, supports_to_R sup n = Ok r <->
  (match n with Some k => length sup = k | None => True end) /\
  exists vs, Forall2 denotes sup vs /\ r = concat (map (fun v => [fst v; snd v]) vs).
Proof. exact supports_iff. Qed.
Print Assumptions C19_supports_lower.

Theorem C19_rejections : forall sup n e, supports_to_R sup n = Err e -> e = ValueError.
Proof. exact supports_err. Qed.
Print Assumptions C19_rejections.

Example C19_nonvacuous :
  denotes (SupName "  Pinned ") (-1, 0) /\ (forall p, ~ denotes (SupName "hinge") p).
Proof. exact support_examples. Qed.

(** C20: beam strings. *)
Theorem C20_round_trip : forall float d pre post Ls, plain pre -> plain post -> written d -> legal d ->
  Forall2 (fun q L => float (lower (fst q)) = Ok L) (snd d) Ls ->
  exists b, parse_beam_string float (pre ++ render d ++ post)%string = Ok b /\ bs_L b = Ls /\
    bs_R b = concat (map pair_of (all_terms d)) /\ bs_types b = map (fun q => type_left_of (snd q)) (snd d).
Proof. exact parse_ok. Qed.
Print Assumptions C20_round_trip.

(** Nothing else is accepted. *)
Theorem C20_only_descriptions : forall float s b, parse_beam_string float s = Ok b ->
  exists pre d post, s = (pre ++ render d ++ post)%string /\ plain pre /\ plain post /\ written d /\ legal d /\
    Forall2 (fun q L => float (lower (fst q)) = Ok L) (snd d) (bs_L b).
Proof. exact parse_only. Qed.
Print Assumptions C20_only_descriptions.

Theorem C20_illegal_rejected : forall float d pre post, plain pre -> plain post -> written d -> ~ legal d ->
  parse_beam_string float (pre ++ render d ++ post)%string = Err ValueError.
Proof. exact parse_reject. Qed.
Print Assumptions C20_illegal_rejected.

Example C20_nonvacuous : written ("E"%char, [("20"%string, "h"%char); ("30"%string, "R"%char); ("10"%string, "F"%char)]) /\
  legal ("E"%char, [("20"%string, "h"%char); ("30"%string, "R"%char); ("10"%string, "F"%char)]) /\
  render ("E"%char, [("20"%string, "h"%char); ("30"%string, "R"%char); ("10"%string, "F"%char)]) = "E20h30R10F"%string /\
  ~ legal ("H"%char, [("20"%string, "p"%char)]).
Proof. exact string_examples. Qed.

(** C49 (end forces; the recovered diagrams are in Prop_Results.v): moments cancel at a free
    rotation... *)
Theorem C49_end_moments_cancel : forall gl ill a npts check a' o j e1 e2,
  analyze_core gl ill a npts check = (a', Ok o) -> (j + 1 < an_n a)%nat ->
  restraint (an_beam a) (2 * (j + 1) + 1) = 0 -> prescribed (an_beam a) (2 * (j + 1) + 1) = None ->
  member_forces gl (an_beam a) (o_d o) j = Ok e1 -> member_forces gl (an_beam a) (o_d o) (j + 1) = Ok e2 ->
  e1 3%nat + e2 1%nat = 0.
Proof. exact ends_cancel. Qed.
Print Assumptions C49_end_moments_cancel.

(** ...released ends carry none... *)
Theorem C49_released_end : forall gl ill a npts check a' o m mb e p, gauss_rule gl ->
  analyze_core gl ill a npts check = (a', Ok o) -> (m < an_n a)%nat ->
  member_at (an_beam a) m = Ok mb -> sound_member mb -> loads_on_members (an_beam a) (an_n a) ->
  member_forces gl (an_beam a) (o_d o) m = Ok e -> released (mb_type mb) p -> e p = 0.
Proof. exact released_end_zero. Qed.
Print Assumptions C49_released_end.

(** ...and the end forces balance the span's loads.  Missing: moment balance of pin-pin
    members (false, see C04_pin_pin_refuted). *)
Theorem C49_member_balance_partial : forall gl ill a npts check a' o m mb e ls, gauss_rule gl ->
  analyze_core gl ill a npts check = (a', Ok o) -> (m < an_n a)%nat ->
  member_at (an_beam a) m = Ok mb -> sound_member mb -> loads_on_members (an_beam a) (an_n a) ->
  member_forces gl (an_beam a) (o_d o) m = Ok e -> parsed_loads (an_beam a) = Ok ls ->
  (forall W, span_resultant (mb_L mb) (loads_of ls m) (fun _ => 1) (fun _ => 0) W -> e 0%nat + e 2%nat = W) /\
  (mb_type mb <> 4%nat -> forall W, span_resultant (mb_L mb) (loads_of ls m) (fun x => x) (fun _ => 1) W ->
     e 1%nat + e 3%nat + mb_L mb * e 2%nat = W).
Proof. exact member_in_balance. Qed.
Print Assumptions C49_member_balance_partial.

Example C49_nonvacuous : forall ill, exists o,
  run sample_gl ill sample sample_A false = Ok o /\ restraint (set_loads sample_beam sample_A) 3 = 0 /\
  prescribed (set_loads sample_beam sample_A) 3 = None.
Proof.
  intros ill. destruct (sample_runs ill _ sample_A_wf) as (o & H). exists o. split; [exact H|]. split; reflexivity.
Qed.
