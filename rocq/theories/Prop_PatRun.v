(** C100: what analysing a load pattern returns and what it leaves in the analysis object. *)
From Coq Require Import String.
From Verif Require Import RenderModel.
From Verif Require Import Base Linalg SectionModel LoadModel LoadSpec FoundationModel ElementModel ElementSpec UtilsModel UtilsSpec BeamModel AnalysisModel AnalysisSpec ResultsModel ResultsSpec EnvelopeModel LoadCasesModel LoadCasesSpec
  LMFacts ConstSectFacts ReleaseFacts ResultsFacts BedFacts5 SessionModel SessionSpec SessionFacts SessionExample PatternModel PatternSpec PatRunModel PatRunSpec PatRunFacts.
Open Scope R_scope.
Local Notation length := List.length.
Local Open Scope list_scope.

(** C100: although each arrangement is written into the object before the next is analysed, the
    envelope is that of the arrangements on the beam as it was given... *)
Theorem C100_envelope : forall gl ill p o npts, snd (pattern_run gl ill p o npts) = pattern_analyze gl ill p (beam_of o) npts.
Proof. exact run_value. Qed.
Print Assumptions C100_envelope.

(** ...so a pattern analysed after another one (or twice) gives the envelope it would give on
    its own. *)
Theorem C100_again : forall gl ill p p' o npts, snd (pattern_run gl ill p' (fst (pattern_run gl ill p o npts)) npts) = snd (pattern_run gl ill p' o npts).
Proof. exact run_again. Qed.
Print Assumptions C100_again.

(** A completed run leaves the beam of the object as it was, except for its loads: every span
    carries its dead and its live loads with the maximum factors.  The results left are those
    of these loads, the last of the envelope. *)
Theorem C100_left : forall gl ill p o npts o' e g q, pattern_run gl ill p o npts = (o', Ok e) -> lp_dead p = Some g -> lp_live p = Some q -> Forall wf_row g -> Forall wf_row q ->
  exists lm pg pq ps br vs, an_beam (po_an o') = set_loads (an_beam (po_an o)) lm /\ an_npts (po_an o') = documented (asked npts o) /\
    parse_LM g = Ok pg /\ parse_LM q = Ok pq /\ parse_LM lm = Ok ps /\
    (forall i, (i < b_nspans (an_beam (po_an o)))%nat -> loads_of ps i = map (scale_load (lp_gmax p)) (loads_of pg i) ++ map (scale_load (lp_qmax p)) (loads_of pq i)) /\
    po_res o' = Some br /\ env_init (vs ++ [br]) = Ok e /\ analyse_loads gl ill (beam_of o) lm (asked npts o) = Ok br.
Proof. exact c_left. Qed.
Print Assumptions C100_left.

(** A run stopped by an exception leaves the object as it was, or with the loads of one
    arrangement and the results of these loads. *)
Theorem C100_stopped : forall gl ill p o npts o' e, pattern_run gl ill p o npts = (o', Err e) ->
  o' = o \/ exists cs c br, to_load_cases p (b_nspans (an_beam (po_an o))) = Ok cs /\ In c cs /\
    an_beam (po_an o') = set_loads (an_beam (po_an o)) (lc_loads (fst c)) /\ po_res o' = Some br /\ analyse_loads gl ill (beam_of o) (lc_loads (fst c)) (asked npts o) = Ok br.
Proof. exact c_failed. Qed.
Print Assumptions C100_stopped.

(** Whatever calls made the object, and whatever loads are set and patterns analysed after
    that, with or without success: the results it holds are those that analysing it as it is
    would give.  Full claim: every object; missing: one with members on an elastic
    foundation, or with shear points... *)
Theorem C100_consistent_partial : forall gl ill ks n so s cs, object (run_calls gl ill ks) n so -> po_an (snd s) = seen (run_calls gl ill ks) so -> complete (po_an (snd s)) ->
  Forall (eq None) (b_kf (an_beam (po_an (snd s)))) -> consistent gl ill (snd s) -> consistent gl ill (snd (pcalls gl ill s cs)).
Proof. exact c_consistent. Qed.
Print Assumptions C100_consistent_partial.
Example C100_consistent_nonvacuous : forall gl ill, exists so, object (run_calls gl ill one_object) 0 so /\ po_an held_ff = seen (run_calls gl ill one_object) so /\
  complete (po_an held_ff) /\ Forall (eq None) (b_kf (an_beam (po_an held_ff))) /\ consistent gl ill held_ff.
Proof. intros gl ill. exists {| so_an := ff; so_lm := 0; so_res := None |}. split; [reflexivity|]. split; [reflexivity|]. split; [repeat split|]. split; [repeat constructor|exact I]. Qed.

(** ...whose foundation the arrangements do not have: a beam that only its foundation holds up
    can be analysed with a load, and a pattern of the same load on it raises. *)
Theorem C100_foundation_refuted : forall gl ill, exists a br, analysis_init flat_ctor = Ok a /\ b_LM (an_beam a) = [Row 1 1 [2]] /\ snd (analyze gl ill a (fun _ => []) None false) = Ok br /\
  forall npts res, pattern_run gl ill two_down {| po_an := a; po_res := res |} npts = ({| po_an := a; po_res := res |}, Err ValueError).
Proof. exact bed_refuted. Qed.
Print Assumptions C100_foundation_refuted.

(** ...or whose shear points they do not have: analysing the object again adds stations there. *)
Theorem C100_sections_refuted : forall gl ill, gauss_rule gl -> exists o' e br, pattern_run gl ill up_down held_ff None = (o', Ok e) /\ po_res o' = Some br /\
  snd (analyze gl ill (po_an o') (fun _ => [2]) None true) <> Ok br.
Proof. exact sections_refuted. Qed.
Print Assumptions C100_sections_refuted.

(** The loads and factors of a pattern are those set last, whatever was analysed between. *)
Theorem C100_last_set : forall gl ill ks s, let p := fst (pcalls gl ill s ks) in
  (lp_dead p, lp_gmax p, lp_gmin p) = last_dead ks (fst s) /\ (lp_live p, lp_qmax p, lp_qmin p) = last_live ks (fst s).
Proof. exact last_sets. Qed.
Print Assumptions C100_last_set.

(** An encastre span carrying 2 per unit length of its own; the pattern has the same dead load
    with factors 3 and 1.  The object is left with 6 per unit length. *)
Example C100_nonvacuous : forall gl ill, gauss_rule gl -> exists o' e br, pattern_run gl ill up_down held_ff None = (o', Ok e) /\ e_nres e = 3%nat /\
  b_LM (an_beam (po_an o')) = [Row 1 1 [3 * 2]] /\ b_LM (an_beam ff) = [Row 1 1 [2]] /\ po_res o' = Some br /\
  In 6 (r_x (br_all br)) /\ read_at 6 (r_x (br_all br)) (r_M (br_all br)) = - 18 /\ consistent gl ill o'.
Proof. exact ff_runs. Qed.
