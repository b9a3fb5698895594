(** Property theorems about the per-span values of an envelope (C57). *)
From Coq Require Import String Lia Lra.
From Verif Require Import Base BaseFacts SectionModel LoadModel ElementModel BeamModel AnalysisModel ResultsModel ResultsSpec ShapeFacts EnvelopeModel EnvelopeSpec BridgeSpec SpanModel SpanSpec SpanFacts.
Open Scope R_scope.
Local Notation length := List.length.
Local Open Scope list_scope.

(** C57: the values of an attribute are cut into those of each member, and reduced to the
    extreme asked for... *)
Theorem C57_cut : forall e r0 attr vs, station_attr e attr = Ok vs -> length vs = list_sum (map (fun m => length (r_x m)) (br_mem r0)) ->
  exists cs, per_span e r0 attr "none" = Ok (Chunks cs) /\ cut (br_mem r0) vs cs.
Proof. exact unreduced. Qed.
Print Assumptions C57_cut.
Theorem C57_names : forall e r0 attr vs, In (attr, vs) (named_arrays e) -> length vs = list_sum (map (fun m => length (r_x m)) (br_mem r0)) ->
  exists cs, per_span e r0 attr "none" = Ok (Chunks cs) /\ cut (br_mem r0) vs cs.
Proof. exact names_cut. Qed.
Print Assumptions C57_names.
Theorem C57_cut_unique : forall ms vs cs cs', cut ms vs cs -> cut ms vs cs' -> cs = cs'.
Proof. exact cut_unique. Qed.
Print Assumptions C57_cut_unique.
Theorem C57_reduced : forall e r0 attr vs reduce P, station_attr e attr = Ok vs -> length vs = list_sum (map (fun m => length (r_x m)) (br_mem r0)) ->
  Forall (fun m => r_x m <> []) (br_mem r0) -> stands_for attr reduce P ->
  exists cs out, per_span e r0 attr "none" = Ok (Chunks cs) /\ cut (br_mem r0) vs cs /\ per_span e r0 attr reduce = Ok (Values out) /\ Forall2 P cs out.
Proof. exact reduces_spec. Qed.
Print Assumptions C57_reduced.
Theorem C57_unknown : forall e r0 attr reduce, ~ In reduce ["auto"; "max"; "min"; "none"]%string -> per_span e r0 attr reduce = Err ValueError.
Proof. exact unknown_reduction. Qed.
Print Assumptions C57_unknown.

(** ...so that the per-span moments and shears of an envelope are the extremes, zero included,
    over the analyses and the stations of the span... *)
Theorem C57_extremes : forall cs s vr r0, hd_error vr = Some r0 -> Forall (fun r => spanwise cs r /\ length (br_R r) = s) vr ->
  exists e, env_init vr = Ok e /\
    reports e r0 "Mmax" (length cs) (fun i => largest (fun x => x) (member_values r_M i vr)) /\ reports e r0 "Mmin" (length cs) (fun i => smallest (fun x => x) (member_values r_M i vr)) /\
    reports e r0 "Vmax" (length cs) (fun i => largest (fun x => x) (member_values r_V i vr)) /\ reports e r0 "Vmin" (length cs) (fun i => smallest (fun x => x) (member_values r_V i vr)).
Proof. exact extremes. Qed.
Print Assumptions C57_extremes.

(** ...where the analyses are any that give their results member by member, as they all do. *)
Theorem C57_analysed : forall gl ill a sps npts check a' r, analyze gl ill a sps npts check = (a', Ok r) -> (0 < an_npts a')%nat -> sound_grid (an_beam a) ->
  exists cs, length cs = b_nspans (an_beam a) /\ spanwise cs r /\
    forall i mb, (i < b_nspans (an_beam a))%nat -> member_at (an_beam a) i = Ok mb -> nth i cs 0%nat = (an_npts a' + 3 + 2 * inside_points (mb_L mb) (sps i))%nat.
Proof. exact analysed_spanwise. Qed.
Print Assumptions C57_analysed.

(** Two analyses of two members with two and three stations. *)
Definition span_a : bres :=
  let m1 := {| r_x := [0; 1]; r_M := [2; -3]; r_V := [1; 1]; r_R := [0; 0]; r_D := [0; 0] |} in
  let m2 := {| r_x := [1; 2; 3]; r_M := [-1; 8; 0]; r_V := [0; -2; 0]; r_R := [0; 0; 0]; r_D := [0; 0; 0] |} in
  {| br_mem := [m1; m2]; br_all := mres_concat [m1; m2]; br_D := fun _ => 0; br_R := [4]; br_Rs := [] |}.
Definition span_b : bres :=
  let m1 := {| r_x := [0; 1]; r_M := [5; 1]; r_V := [0; 6]; r_R := [0; 0]; r_D := [0; 0] |} in
  let m2 := {| r_x := [1; 2; 3]; r_M := [3; -9; 0]; r_V := [7; 0; 0]; r_R := [0; 0; 0]; r_D := [0; 0; 0] |} in
  {| br_mem := [m1; m2]; br_all := mres_concat [m1; m2]; br_D := fun _ => 0; br_R := [-1]; br_Rs := [] |}.
Example C57_nonvacuous : Forall (fun r => spanwise [2%nat; 3%nat] r /\ length (br_R r) = 1%nat) [span_a; span_b] /\
  exists e vs, env_init [span_a; span_b] = Ok e /\ per_span e span_a "Mmax" "auto" = Ok (Values vs) /\ nth_error vs 1 = Some 8.
Proof.
  assert (F : Forall (fun r => spanwise [2%nat; 3%nat] r /\ length (br_R r) = 1%nat) [span_a; span_b]).
  { repeat constructor; cbn; auto with arith. }
  split; [exact F|]. destruct (C57_extremes [2%nat; 3%nat] 1 [span_a; span_b] span_a eq_refl F) as (e & E & (vs & V & L & X) & _). exists e, vs. split; [exact E|]. split; [exact V|].
  destruct (nth_error vs 1) as [v|] eqn:Ev; [|apply nth_error_None in Ev; rewrite L in Ev; cbn in Ev; lia]. f_equal. destruct (X 1%nat v Ev) as (_ & U & A). cbn in U, A.
  assert (8 <= v) by (apply U; tauto). destruct A as [A|(x & Hx & <-)]; [lra|]. decompose [or] Hx; subst; lra || contradiction.
Qed.
Example C57_analysed_nonvacuous : forall gl ill, exists a' r, analyze gl ill ResultsFacts.ff (fun _ => []) None false = (a', Ok r) /\ (0 < an_npts a')%nat /\ sound_grid (an_beam ResultsFacts.ff).
Proof.
  intros gl ill. destruct (ResultsFacts.ff_results gl ill (fun _ => [])) as (a' & r & e & E & N & _). exists a', r. split; [exact E|]. split; [lia|].
  intros i mb _ Hm. destruct (ResultsFacts.ff_member i mb Hm) as (_ & _ & _ & K & L & _). split; [lra|exact K].
Qed.
