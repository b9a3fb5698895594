(** Statements about repeated plastic-moment plots and instances for C86 and C87. *)
From Coq Require Import String Ascii Lra Lia.
From Verif Require Import Base BaseFacts Linalg SectionModel LoadModel LoadSpec FoundationModel ElementModel UtilsModel BeamModel BeamSpec AnalysisModel AnalysisSpec UnitsModel ResultsModel ResultsSpec ResultsFacts ShapeFacts CombFacts
  EnvelopeModel EnvelopeSpec EnvelopeFacts EnvReadModel EnvReadSpec EnvReadFacts SpanSample EnvReadExample ExportModel ExportSpec ExportFacts VehicleModel VehicleSpec VehicleFacts BridgeModel BridgeSpec BridgeFacts BridgeFacts2 BridgeFacts3 BridgeFacts4 CritFacts InfModel ModalModel NonlinModel PlotModel PlotSpec PlotFacts PlotFacts2 PlotFacts3 PlotFacts4 PlotFacts5.
Open Scope R_scope.
Local Notation length := List.length.
Local Open Scope list_scope.

Lemma plastic_new us0 coords r units us : coords <> [] -> resolve us0 units = Ok us ->
  exists a, plot_moments us0 coords r None units = Ok a /\ ax_ylabel a = moment_axis us /\
    page a = beam_line (last coords 0) :: map (fun v => ("r"%string, below coords (nodal coords v))) (nr_mom_hist r ++ [nr_moments r]).
Proof.
  intros N U. destruct (plastic_any us0 coords r None units us N U) as (a & E & Y & _ & P). exists a. split; [exact E|]. split; [exact Y|]. rewrite P. reflexivity.
Qed.
Lemma plastic_twice us0 coords r r' units us a : coords <> [] -> resolve us0 units = Ok us -> plot_moments us0 coords r None units = Ok a ->
  exists a', plot_moments us0 coords r' (Some a) units = Ok a' /\ In ("r"%string, above coords (nodal coords (nr_moments r))) (page a') /\ In ("r"%string, above coords (nodal coords (nr_moments r'))) (page a').
Proof.
  intros N U E. destruct (plastic_any us0 coords r None units us N U) as (a0 & E0 & _ & I & P). rewrite E in E0. apply ok_inj in E0. subst a0.
  destruct (plastic_any us0 coords r' (Some a) units us N U) as (a' & E' & _ & _ & P'). exists a'. split; [exact E'|]. cbn [new_axes ax_inverted negb] in I. rewrite P', P. split; apply in_or_app; [left|right].
  - cbn [page new_axes ax_curves map app]. right. rewrite !map_app. apply in_or_app. right. left. cbn [fst snd]. unfold above. apply f_equal, f_equal. rewrite map_map. rewrite <- (map_id (nodal coords (nr_moments r))) at 2. apply map_ext. intros y. unfold height. cbn. lra.
  - right. rewrite map_app. apply in_or_app. right. left. unfold above. apply f_equal, f_equal. rewrite <- (map_id (nodal coords (nr_moments r'))) at 2. apply map_ext. intros y. unfold height. rewrite I. lra.
Qed.
Lemma results_sample (gl : nat -> list (R * R)) (ill : nat -> mat -> bool) : exists r, results_of 6 r.
Proof.
  destruct (own_sample gl ill) as (a & a' & r & E0 & E & P & S). exists r. exists gl, ill, a, (fun _ => []), None, true, a'. split; [exact E|]. split; [exact P|]. split; [exact S|].
  destruct (analyze_split _ _ _ _ _ _ _ _ E) as (o & Ho & _). destruct (analyze_core_state _ _ _ _ _ _ _ Ho) as (EB & _). rewrite EB. injection E0 as <-. cbn. ring.
Qed.
Lemma static_sample gl ill us0 : exists g' m s, plot_static gl ill us0 ff_bridge0 5 UNone = (g', Ok (m, s)) /\ ax_marks m = [5 - 0; 5 - (0 + 4)] /\ ax_marks s = [5 - 0; 5 - (0 + 4)].
Proof.
  destruct (axle_LM_spec (an_beam ff) truck 5 (bm_deck _ ff_bridge)) as (rows & ER & A).
  destruct (ff_lm_total gl ill (bg_static ff_bridge0 ++ rows) (bg_sps ff_bridge0)) as (r & Er); [apply Forall_app; split; [exact ff_static|eapply axle_rows_simple; exact A]|].
  destruct (static_drawn gl ill us0 ff_bridge0 ff truck 5 UNone us0 rows r eq_refl eq_refl ff_bridge eq_refl eq_refl A Er) as (g' & m & s & E & _ & _ & M1 & M2 & _). exists g', m, s. split; [exact E|].
  rewrite M1, M2. assert (Q : loading_axles (an_beam ff) truck 5 = [5 - 0; 5 - (0 + 4)]); [|auto]. unfold loading_axles, on_deck, axles_at, axles. rewrite ff_length. cbn [truck v_coords v_axw combine map fst snd filter]. unfold within.
  destruct (Rle_dec 0 (5 - 0)); [|lra]. destruct (Rle_dec (5 - 0) 6); [|lra]. destruct (Rle_dec 0 (5 - (0 + 4))); [|lra]. destruct (Rle_dec (5 - (0 + 4)) 6); [|lra]. destruct (Rle_dec 0 (5 - (0 + 4 + 6))); [lra|]. reflexivity.
Qed.
