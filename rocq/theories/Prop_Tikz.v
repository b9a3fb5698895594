(** C80: dimensions, values and units in the TikZ source ([TikzSpec]). *)
From Coq Require Import ZArith Ascii String.
From Verif Require Import Base SectionModel LoadModel LoadSpec ElementModel UtilsModel BeamModel BeamSpec AnalysisModel AnalysisSpec AnalysisFacts3
  ResultsModel ResultsSpec BridgeSpec UnitsModel RenderModel RenderSpec RenderFacts RenderFacts2 RenderFacts3 RenderFacts4 RenderFacts5 TikzSpec RenderFacts6.
Open Scope R_scope.

(** The picture gives the lengths and values asked for, faces clamps outwards, draws
    distributed loads as high as they are strong, and marks hinges. *)
Theorem C80_annotations : forall fmt uni b s p scale dims labels show us ls, deck b -> beam_plotter b s = Ok p ->
  tikz_lines fmt uni p scale dims labels show us = Ok ls -> exists name, pictures fmt name b p ls /\ annotated fmt name b p dims show us ls.
Proof.
  exact (fun fmt uni b s p scale dims labels show us ls K H T => ex_intro _ _ (conj (pictured fmt uni b s p scale dims labels show us ls K H T) (annotate fmt uni b s p scale dims labels show us ls K H T))).
Qed.
Print Assumptions C80_annotations.

(** The source is one picture of these lines, in a complete document if it is to stand alone. *)
Theorem C80_document : forall fmt uni p alone scale dims labels show us text, render_tikz fmt uni p alone scale dims labels show us = Ok text ->
  exists ls body, tikz_lines fmt uni p scale dims labels show us = Ok ls /\ body = String.concat newline ls /\ picture body /\
    (alone = false -> text = body) /\ (alone = true -> document text body).
Proof. exact source_text. Qed.
Print Assumptions C80_document.

Example C80_nonvacuous : forall fmt uni scale us, deck sample_beam /\ exists p ls text, beam_plotter sample_beam (GivenRows sample_rows) = Ok p /\
  tikz_lines fmt uni p scale true true true us = Ok ls /\ render_tikz fmt uni p true scale true true true us = Ok text.
Proof.
  intros fmt uni scale us. split; [exact deck_sample|]. destruct (sample_draws sample_rows sample_parsed eq_refl sample_on) as (p & H & E).
  destruct (drawable fmt uni sample_beam (GivenRows sample_rows) p sample_parsed scale true true true us deck_sample H) as (ls & T); [rewrite E; reflexivity|exact sample_on|].
  exists p, ls. unfold render_tikz. rewrite T. eexists. split; [exact H|]. split; reflexivity.
Qed.
