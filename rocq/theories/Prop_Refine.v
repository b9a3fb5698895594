(** Property theorems: positions between the steps of a traverse (C83). *)
From Coq Require Import Lia ZArith.
From Verif Require Import Base Linalg SectionModel LoadModel LoadSpec FoundationModel ElementModel UtilsModel BeamModel BeamSpec AnalysisModel AnalysisSpec AnalysisFacts3 ResultsModel ResultsSpec ResultsFacts
  EnvelopeModel EnvelopeSpec VehicleModel VehicleSpec VehicleFacts BridgeModel BridgeSpec BridgeFacts BridgeFacts2 BridgeFacts3 BridgeFacts4 LoadEqSpec RefineSpec RefineFacts5 RefineExample.
Open Scope R_scope.

(** C83: on a deck held vertically at both ends there is one constant [C] such that moving a
    vehicle by [d] changes no tabulated moment and no reaction of an inner support by more than
    [C] times its weight times [d], whatever the vehicle, the static loads and the stations. A
    span may have any section without shear flexibility, or constant rigidities with it.
    Missing: spans with a varying section and shear flexibility, and elastic foundations. *)
Theorem C83_continuous_partial : forall gl ill a, bridge_model a -> members (an_beam a) (an_n a) plain_member -> ends_held (an_beam a) -> exists C, 0 <= C /\
  forall v static sps p p' r r', loaded_at gl ill a v static sps p r -> loaded_at gl ill a v static sps p' r' ->
    within_of (an_beam a) (C * total_weight v * Rabs (p - p')) r r'.
Proof. exact plain_positions. Qed.
Print Assumptions C83_continuous_partial.

(** C83: so the envelope of a traverse covers every position between its start and its end, also
    those between two steps, up to an error that is proportional to the step. *)
Theorem C83_traverse_partial : forall gl ill a, bridge_model a -> members (an_beam a) (an_n a) plain_member -> ends_held (an_beam a) -> exists C, 0 <= C /\
  forall g v step pstart pend sp dv g' e, bg_ba g = Some a -> bg_veh g = Some v -> 0 < step -> run_vehicle gl ill g step pstart pend sp dv = (g', Ok e) ->
  exists sps, shear_sections (an_beam a) sp dv sps (bg_spx g') /\
    forall p r, given 0 pstart <= p <= given (deck_length (an_beam a) + v_L v) pend -> loaded_at gl ill a v (bg_static g) sps p r ->
      covered (an_beam a) (C * total_weight v * (step / 2)) e r.
Proof. exact plain_traverse. Qed.
Print Assumptions C83_traverse_partial.

(** The restriction to inner supports is needed: the reaction of a held end jumps by the weight
    of the first axle when it comes onto the deck, however small the move. *)
Theorem C83_end_reaction_refuted : forall gl ill a v W rest static sps r r' p, bridge_model a -> members (an_beam a) (an_n a) plain_member ->
  axles v = (0, W) :: rest -> Forall (fun ax => 0 < fst ax) rest -> restraint (an_beam a) 0 < 0 -> p < 0 ->
  loaded_at gl ill a v static sps 0 r -> loaded_at gl ill a v static sps p r' -> reaction_of (an_beam a) 0 r - reaction_of (an_beam a) 0 r' = W.
Proof. intros. eapply plain_jump; eassumption. Qed.
Print Assumptions C83_end_reaction_refuted.

(** The truck over the beam fixed at both ends: run in steps of 4 m, read at 5 m. *)
Example C83_nonvacuous : forall gl ill, bridge_model ff /\ members (an_beam ff) (an_n ff) plain_member /\ ends_held (an_beam ff) /\
  (exists g' e, run_vehicle gl ill ff_bridge0 4 None None (SpPoints None) None = (g', Ok e)) /\
  (exists r, loaded_at gl ill ff truck [Row 1 1 [2]] (fun _ => []) 5 r) /\ (exists r, loaded_at gl ill ff truck [Row 1 1 [2]] (fun _ => []) 0 r) /\ (exists r, loaded_at gl ill ff truck [Row 1 1 [2]] (fun _ => []) (-1) r) /\
  axles truck = (0, 35) :: [(0 + 4, 145); (0 + 4 + 6, 140)] /\ 0 <= 5 <= deck_length (an_beam ff) + v_L truck.
Proof.
  intros gl ill. split; [exact ff_bridge|]. split; [|split; [|split; [exact (ff_run gl ill _ _)|]]].
  - intros m mb Hm E. destruct m as [|m]; [|cbn in Hm; lia]. cbv in E. injection E as <-. left. split; [reflexivity|exact I].
  - unfold ends_held, restraint. cbn. lra.
  - assert (L : forall p, exists r, loaded_at gl ill ff truck [Row 1 1 [2]] (fun _ => []) p r).
    { intros p. destruct (axles_spec (an_beam ff) truck p (bm_deck _ ff_bridge)) as (rows & _ & A & _).
      destruct (ff_lm_total gl ill ([Row 1 1 [2]] ++ rows) (fun _ => [])) as (r & Hr).
      - apply Forall_app. split; [exact ff_static|]. eapply axle_rows_simple; exact A.
      - exists r, rows. auto. }
    split; [apply L|]. split; [apply L|]. split; [apply L|]. split; [reflexivity|]. rewrite ff_length. cbn [truck v_L]. lra.
Qed.

(** The same truck over a deck that is flexible in shear. *)
Example C83_nonvacuous_shear : forall gl ill, bridge_model soft /\ members (an_beam soft) (an_n soft) plain_member /\ ends_held (an_beam soft) /\
  forall p, exists r, loaded_at gl ill soft truck [Row 1 1 [2]] (fun _ => []) p r.
Proof.
  intros gl ill. split; [exact soft_bridge|]. split; [|split; [|exact (soft_loaded gl ill)]].
  - intros m mb Hm E. destruct (soft_member m mb E) as [_ ->]. right. do 2 eexists. split; reflexivity.
  - unfold ends_held, restraint. cbn. lra.
Qed.
(** A span whose section changes in the middle is one the theorems speak about. *)
Definition stepped_span : member :=
  {| mb_L := 6; mb_EI := RSect {| s_x0 := 0; s_end := 6; s_pieces := [{| p_x0 := 0; p_x1 := 3; p_coeffs := [2]; p_degree := 0 |}; {| p_x0 := 3; p_x1 := 6; p_coeffs := [4]; p_degree := 0 |}];
       s_joins := [3]; s_kinks := [] |}; mb_GAv := None; mb_kf := None; mb_type := 1 |}.
Example C83_nonvacuous_stepped : plain_member stepped_span.
Proof. left. split; [reflexivity|]. cbn. unfold breakpoints. cbn. unfold Rltb, Rleb. repeat (destruct (Rlt_dec _ _) || destruct (Rle_dec _ _)); cbn; repeat apply Forall_cons; try apply Forall_nil; try lra. destruct (Rltb _ _); repeat apply Forall_cons; try apply Forall_nil; lra. Qed.
