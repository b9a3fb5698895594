(** Property theorems: factored combinations (C29) and superposition of the recovered diagrams (C11). *)
From Coq Require Import String.
From Verif Require Import Base Linalg SectionModel FlexModel LoadModel LoadSpec UtilsModel ElementModel ElementSpec BeamModel AnalysisModel AnalysisSpec
  AnalysisFacts3 ResultsModel ResultsFacts LoadCasesModel LoadCasesSpec LoadCasesFacts CaseExample CombCases CombExample ConstSectFacts.
Open Scope R_scope.
Local Notation length := List.length.
Local Open Scope list_scope.

(** C29: without settlements, the factored sum of the case responses is the response of the
    analysis of the factored loads: moments and shears for any cases, rotations and
    deflections when no member is released or no case has an imposed curvature. *)
Theorem C29_combination_is_analysis : forall gl ill t cs f resp rr xs y,
  no_settlement (t_beam t) -> (forall c, In c cs -> Forall wf_row (lc_loads c)) -> response_of resp = Some rr ->
  (rr = RespM \/ rr = RespV \/ Forall (eq 1%nat) (b_types (t_beam t)) \/ (forall c s k args, In c cs -> In (Row s k args) (lc_loads c) -> k <> 6%Z)) ->
  lcs_combine gl ill t cs f resp = Ok (xs, F1 y) ->
  exists br, analyze_combination gl ill t cs f None = Ok br /\ r_x (br_all br) = xs /\ pick rr (br_all br) = y.
Proof. exact combine_is_analysis. Qed.
Print Assumptions C29_combination_is_analysis.

(** Both use the same factors; a mapping gives each case the factor of the last entry naming
    it, or zero, and raises exactly when an entry names no case. *)
Theorem C29_factor_mapping : forall cs m, unique_names cs ->
  (forall out, lcs_factors cs (FMap m) = Ok (F1 out) -> length out = length cs /\ forall j, (j < length cs)%nat -> mapped_factor cs m j (nth j out 0)) /\
  ((exists e, lcs_factors cs (FMap m) = Err e) <-> exists k v, In (k, v) m /\ forall j, (j < length cs)%nat -> ~ names_case cs k j).
Proof. exact factors_of_mapping. Qed.
Print Assumptions C29_factor_mapping.

(** With a settlement the two differ: the settlement is factored by [combine] only. *)
Theorem C29_settlement_refuted : exists t cs f xs y br, (forall c, In c cs -> Forall wf_row (lc_loads c)) /\
  lcs_combine sample_gl (fun _ _ => false) t cs (FSeq f) "D" = Ok (xs, F1 y) /\
  analyze_combination sample_gl (fun _ _ => false) t cs (FSeq f) None = Ok br /\ r_D (br_all br) <> y.
Proof. exact settled_combination. Qed.
Print Assumptions C29_settlement_refuted.

(** Deflections of a released member with an imposed curvature in one of the cases differ
    too: the combined analysis recovers them by another method. *)
Theorem C29_imposed_curvature_refuted : exists t cs f xs y br, no_settlement (t_beam t) /\ (forall c, In c cs -> Forall wf_row (lc_loads c)) /\
  lcs_combine sample_gl (fun _ _ => false) t cs (FSeq f) "D" = Ok (xs, F1 y) /\
  analyze_combination sample_gl (fun _ _ => false) t cs (FSeq f) None = Ok br /\ r_D (br_all br) <> y.
Proof. exact imposed_combination. Qed.
Print Assumptions C29_imposed_curvature_refuted.

Example C29_nonvacuous : exists xs y, lcs_combine sample_gl (fun _ _ => false) ff_template two_cases (FMap [(KName "up", 2); (KIdx 0, -1)]%string) "M" = Ok (xs, F1 y) /\
  no_settlement (t_beam ff_template) /\ forall c, In c two_cases -> Forall wf_row (lc_loads c).
Proof. exact (two_combination sample_gl (fun _ _ => false) gauss2_rule). Qed.

(** C11 for the recovered diagrams of members without elastic foundation: stations, moments
    and shears, and rotations and deflections when no member is released or no curvature is
    imposed. *)
Theorem C11_diagrams_add : forall gl ill a sps npts check A B a1 r1 a2 r2,
  an_n a = b_nspans (an_beam a) -> members (an_beam a) (an_n a) (fun mb => mb_kf mb = None) -> no_settlement (an_beam a) ->
  analyze gl ill (with_beam a (set_loads (an_beam a) A)) sps npts check = (a1, Ok r1) ->
  analyze gl ill (with_beam a (set_loads (an_beam a) B)) sps npts check = (a2, Ok r2) ->
  exists a' r, analyze gl ill (with_beam a (set_loads (an_beam a) (add_LM A B))) sps npts check = (a', Ok r) /\
  r_x (br_all r) = r_x (br_all r1) /\
  lcomb 1 (r_M (br_all r1)) 1 (r_M (br_all r2)) (r_M (br_all r)) /\ lcomb 1 (r_V (br_all r1)) 1 (r_V (br_all r2)) (r_V (br_all r)) /\
  (members (an_beam a) (an_n a) (fun mb => mb_type mb = 1%nat) \/ (forall s t args, In (Row s t args) (A ++ B) -> t <> 6%Z) ->
   lcomb 1 (r_R (br_all r1)) 1 (r_R (br_all r2)) (r_R (br_all r)) /\ lcomb 1 (r_D (br_all r1)) 1 (r_D (br_all r2)) (r_D (br_all r))).
Proof. exact diagrams_add. Qed.
Print Assumptions C11_diagrams_add.

Theorem C11_diagrams_scale : forall gl ill a sps npts check A A' g a1 r1,
  an_n a = b_nspans (an_beam a) -> members (an_beam a) (an_n a) (fun mb => mb_kf mb = None) -> no_settlement (an_beam a) ->
  Forall wf_row A -> factor_LM A g = Ok A' ->
  analyze gl ill (with_beam a (set_loads (an_beam a) A)) sps npts check = (a1, Ok r1) ->
  exists a' r, analyze gl ill (with_beam a (set_loads (an_beam a) A')) sps npts check = (a', Ok r) /\
  r_x (br_all r) = r_x (br_all r1) /\ r_M (br_all r) = map (Rmult g) (r_M (br_all r1)) /\ r_V (br_all r) = map (Rmult g) (r_V (br_all r1)) /\
  (members (an_beam a) (an_n a) (fun mb => mb_type mb = 1%nat) \/ (forall s t args, In (Row s t args) A -> t <> 6%Z) ->
   r_R (br_all r) = map (Rmult g) (r_R (br_all r1)) /\ r_D (br_all r) = map (Rmult g) (r_D (br_all r1))).
Proof. exact diagrams_scale. Qed.
Print Assumptions C11_diagrams_scale.

Example C11_diagrams_nonvacuous : exists a1 r1, analyze sample_gl (fun _ _ => false) (with_beam (ffq 0) (set_loads (an_beam (ffq 0)) [Row 1 1 [2]])) (fun _ => []) None true = (a1, Ok r1) /\
  read_at 6 (r_x (br_all r1)) (r_M (br_all r1)) = -6 /\
  an_n (ffq 0) = b_nspans (an_beam (ffq 0)) /\ members (an_beam (ffq 0)) (an_n (ffq 0)) (fun mb => mb_kf mb = None) /\ no_settlement (an_beam (ffq 0)).
Proof. exact diagrams_example. Qed.
