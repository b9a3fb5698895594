(** C75: load cases analysed on the beam of an existing analysis object. *)
From Verif Require Import RenderModel.
From Verif Require Import Base Linalg SectionModel LoadModel ElementModel BeamModel AnalysisModel AnalysisSpec ResultsModel ResultsFacts LoadCasesModel
  BedFacts5 SessionModel SessionSpec SessionFacts SessionExample TemplateFacts.
Open Scope R_scope.
Local Notation length := List.length.
Local Open Scope list_scope.

(** C75: whatever calls made the object used as template, a load case analysed on its beam
    gives the results (or the exception) that the object itself would give with the loads of
    the case in place of its own.  Full claim: every object; missing: one with members on an
    elastic foundation... *)
Theorem C75_template_partial : forall gl ill ks p o tn lm npts, object (run_calls gl ill ks) p o -> complete (seen (run_calls gl ill ks) o) ->
  Forall (eq None) (b_kf (an_beam (so_an o))) ->
  analyse_loads gl ill {| t_beam := an_beam (seen (run_calls gl ill ks) o); t_npts := tn |} lm npts =
  snd (analyze gl ill (with_beam (so_an o) (set_loads (an_beam (so_an o)) lm)) (fun _ => []) (Some (documented npts)) true).
Proof. exact program_template. Qed.
Print Assumptions C75_template_partial.
Example C75_nonvacuous : forall gl ill, let st := run_calls gl ill (one_object ++ [AddHelper 0 (AddPL 1 7 3); SetRestraints 0 [-1; -1; -1; 0]]) in
  exists o, object st 0 o /\ complete (seen st o) /\ Forall (eq None) (b_kf (an_beam (so_an o))) /\ loads_now st o = [Row 1 1 [2]; Row 1 2 [7; 3]].
Proof. intros gl ill st. eexists. split; [reflexivity|]. split; [repeat split|]. split; [repeat constructor|reflexivity]. Qed.

(** ...whose moduli are not passed on: the results of a load case do not depend on them... *)
Theorem C75_foundation_lost : forall gl ill b k tn lm npts,
  analyse_loads gl ill {| t_beam := on_bed b k; t_npts := tn |} lm npts = analyse_loads gl ill {| t_beam := b; t_npts := tn |} lm npts.
Proof. exact bed_lost. Qed.
Print Assumptions C75_foundation_lost.

(** ...so a beam that only its foundation holds up can be analysed with a load, and not with a
    load case made of the same load. *)
Theorem C75_foundation_refuted : forall gl ill tn, exists a br, analysis_init flat_ctor = Ok a /\ b_LM (an_beam a) = [Row 1 1 [2]] /\
  snd (analyze gl ill a (fun _ => []) None false) = Ok br /\
  forall npts, analyse_loads gl ill {| t_beam := an_beam a; t_npts := tn |} [Row 1 1 [2]] npts = Err ValueError.
Proof. exact flat_refuted. Qed.
Print Assumptions C75_foundation_refuted.
