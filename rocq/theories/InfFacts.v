From Coq Require Import Lia ZArith Sorted String.
From Verif Require Import Base BaseFacts Linalg SectionModel FlexModel LoadModel LoadSpec FoundationModel ElementModel ElementSpec UtilsModel BeamModel BeamSpec AnalysisModel AnalysisSpec
  BalanceFacts AnalysisFacts AnalysisFacts2 SuperFacts MechFacts AnalysisFacts3 HistoryFacts CtorFacts ResultsModel ResultsSpec ResultsFacts EnvelopeModel EnvelopeSpec EnvelopeFacts LoadCasesModel LoadCasesSpec LoadCasesFacts SegmentFacts
  ShapeFacts VehicleModel VehicleSpec VehicleFacts BridgeModel BridgeSpec BridgeFacts CritFacts BridgeFacts2 BridgeFacts3 BridgeFacts4 LMFacts CombFacts CombCases InfModel InfSpec.
Open Scope R_scope.
Local Notation length := List.length.
Local Open Scope list_scope.

Section IL.
Variables (gl : nat -> list (R * R)) (ill : nat -> mat -> bool).
Local Notation none := (fun _ : nat => @nil R).

(** ** Rows with the same meaning *)
Lemma same_parse a sps A A' : parse_LM A = parse_LM A' -> analysed_with gl ill a sps A = analysed_with gl ill a sps A'.
Proof.
  intros E. unfold analysed_with.
  assert (P : parsed_loads (set_loads (an_beam a) A) = parsed_loads (set_loads (an_beam a) A')).
  { unfold parsed_loads. cbn [set_loads with_LM b_LM]. rewrite E. reflexivity. }
  rewrite !(analyze_snd _ _ _ _ _ eq_refl).
  assert (C : snd (analyze_core gl ill (with_beam a (set_loads (an_beam a) A)) None true) = snd (analyze_core gl ill (with_beam a (set_loads (an_beam a) A')) None true)).
  { unfold analyze_core, an_forces. cbn [with_beam an_beam an_n an_checked an_npts an_out]. rewrite P.
    set (F := rbind (parsed_loads (set_loads (an_beam a) A')) _).
    match goal with |- snd (match rbind ?x ?k with _ => _ end) = snd (match rbind ?y ?k' with _ => _ end) => change x with F; change y with F end.
    destruct F as [f|e]; cbn [rbind]; [|reflexivity].
    match goal with |- snd (match rbind ?x ?k with _ => _ end) = snd (match rbind ?y ?k' with _ => _ end) => change y with x; destruct x; cbn [rbind]; [|reflexivity] end.
    match goal with |- snd (match rbind ?x ?k with _ => _ end) = snd (match rbind ?y ?k' with _ => _ end) => change y with x; destruct x; cbn [rbind]; [|reflexivity] end.
    change (b_version (set_loads (an_beam a) A')) with (b_version (set_loads (an_beam a) A)).
    change (b_R (set_loads (an_beam a) A')) with (b_R (set_loads (an_beam a) A)). change (b_D (set_loads (an_beam a) A')) with (b_D (set_loads (an_beam a) A)).
    set (c := if _ || _ then _ else _). change (an_ndof (with_beam a (set_loads (an_beam a) A'))) with (an_ndof (with_beam a (set_loads (an_beam a) A))) in *.
    destruct c; reflexivity. }
  rewrite C. destruct (snd (analyze_core gl ill (with_beam a (set_loads (an_beam a) A')) None true)) as [o|e]; [|reflexivity]. unfold beam_results. cbn [with_beam an_beam].
  assert (M : member_analysis gl (set_loads (an_beam a) A) (o_d o) (an_ndof (with_beam a (set_loads (an_beam a) A))) (an_npts (with_beam a (set_loads (an_beam a) A))) sps =
    member_analysis gl (set_loads (an_beam a) A') (o_d o) (an_ndof (with_beam a (set_loads (an_beam a) A'))) (an_npts (with_beam a (set_loads (an_beam a) A'))) sps).
  { unfold member_analysis, member_forces. rewrite P. reflexivity. }
  rewrite M. reflexivity.
Qed.

(** ** Linear readings *)
Record same_shape (r0 r : bres) : Prop := {
  sh_len : length (br_mem r) = length (br_mem r0);
  sh_mem : forall i m0 m, nth_error (br_mem r0) i = Some m0 -> nth_error (br_mem r) i = Some m ->
    r_x m = r_x m0 /\ length (r_M m) = length (r_M m0) /\ length (r_V m) = length (r_V m0);
  sh_R : length (br_R r) = length (br_R r0) }.
Lemma shape_refl r : same_shape r r.
Proof. constructor; auto. intros i m0 m H1 H2. rewrite H1 in H2. injection H2 as ->. auto. Qed.
Lemma shape_trans r0 r1 r2 : same_shape r0 r1 -> same_shape r1 r2 -> same_shape r0 r2.
Proof.
  intros [A B C] [A' B' C']. constructor; [congruence| |congruence]. intros i m0 m H0 H.
  destruct (nth_error (br_mem r1) i) as [m1|] eqn:E1.
  - destruct (B i m0 m1 H0 E1) as (X1 & X2 & X3), (B' i m1 m E1 H) as (Y1 & Y2 & Y3). split; [congruence|]. split; congruence.
  - exfalso. apply nth_error_None in E1. assert (i < length (br_mem r0))%nat by (apply nth_error_Some; congruence). lia.
Qed.
Lemma shape_sym r0 r1 : same_shape r0 r1 -> same_shape r1 r0.
Proof. intros [A B C]. constructor; [congruence| |congruence]. intros i m0 m H0 H. destruct (B i m m0 H H0) as (X & Y & Z). auto. Qed.
Lemma parts_shape c1 r1 c2 r2 r : parts_comb c1 r1 c2 r2 r -> same_shape r1 r.
Proof.
  intros ((A & B & C) & D). constructor.
  - congruence.
  - intros i m0 m H0 H. destruct (nth_error (br_mem r2) i) as [m2|] eqn:E2.
    + destruct (C i m0 m2 m H0 E2 H) as (X & M & V). split; [exact X|]. apply L3_len in M, V. destruct M, V. split; congruence.
    + exfalso. apply nth_error_None in E2. assert (i < length (br_mem r))%nat by (apply nth_error_Some; congruence). lia.
  - symmetry. apply D.
Qed.
Definition linear (l : bres -> R) : Prop := forall c1 r1 c2 r2 r, parts_comb c1 r1 c2 r2 r -> l r = c1 * l r1 + c2 * l r2.
Definition mem_read (f : mres -> list R) (i k : nat) (r : bres) : R := match nth_error (br_mem r) i with Some m => nth k (f m) 0 | None => 0 end.
Lemma mem_linear f i k : f = r_M \/ f = r_V -> linear (mem_read f i k).
Proof.
  intros Hf c1 r1 c2 r2 r ((A & B & C) & _). unfold mem_read.
  destruct (nth_error (br_mem r) i) as [m|] eqn:E.
  - assert (i < length (br_mem r))%nat by (apply nth_error_Some; congruence).
    destruct (nth_error (br_mem r1) i) as [m1|] eqn:E1; [|apply nth_error_None in E1; lia]. destruct (nth_error (br_mem r2) i) as [m2|] eqn:E2; [|apply nth_error_None in E2; lia].
    destruct (C i m1 m2 m E1 E2 E) as (_ & M & V). destruct Hf as [->| ->]; apply L3_nth; assumption.
  - apply nth_error_None in E. assert (E1 : nth_error (br_mem r1) i = None) by (apply nth_error_None; lia). assert (E2 : nth_error (br_mem r2) i = None) by (apply nth_error_None; lia).
    rewrite E1, E2. ring.
Qed.
Lemma R_linear k : linear (fun r => nth k (br_R r) 0).
Proof. intros c1 r1 c2 r2 r (_ & _ & _ & H). apply H. Qed.

(** ** Superposition *)
Section Super.
Variable a : analysis.
Let b := an_beam a.
Hypothesis EN : an_n a = b_nspans b.
Hypothesis KF : members b (an_n a) (fun mb => mb_kf mb = None).
Hypothesis ND : no_settlement b.
Local Notation run1 := (analysed_with gl ill a none).

Lemma run_pair lm r : run1 lm = Ok r -> exists a', solve_lm gl ill a none None true lm = (a', Ok r).
Proof. unfold analysed_with, solve_lm. destruct (analyze _ _ _ _ _ _) as [a' x]. cbn. intros ->. eauto. Qed.
Lemma pair_run lm a' r : solve_lm gl ill a none None true lm = (a', Ok r) -> run1 lm = Ok r.
Proof. unfold analysed_with, solve_lm. intros ->. reflexivity. Qed.

Lemma super_nil A rA : run1 A = Ok rA -> exists r, run1 [] = Ok r /\ parts_comb 0 rA 0 rA r.
Proof.
  intros HA. destruct (run_pair _ _ HA) as (a1 & H1). destruct (solve_parsed gl ill a none None true A a1 rA H1) as (p & Hp).
  destruct (results_parts gl ill a none None true EN KF 0 A rA 0 A rA [] a1 a1 H1 H1 (rel_nil gl a A p Hp)) as (a' & r & E & _ & P).
  - intros o1 o2 R1 R2. rewrite R1 in R2. injection R2 as <-. exact (run_nil gl ill a true ND A o1 R1).
  - exists r. split; [exact (pair_run _ _ _ E)|exact P].
Qed.
Lemma super_add A B rA rB : run1 A = Ok rA -> run1 B = Ok rB -> exists r, run1 (A ++ B) = Ok r /\ parts_comb 1 rA 1 rB r.
Proof.
  intros HA HB. destruct (run_pair _ _ HA) as (a1 & H1), (run_pair _ _ HB) as (a2 & H2).
  destruct (solve_parsed gl ill a none None true A a1 rA H1) as (p & Hp), (solve_parsed gl ill a none None true B a2 rB H2) as (q & Hq).
  destruct (results_parts gl ill a none None true EN KF 1 A rA 1 B rB (add_LM A B) a1 a2 H1 H2 (rel_add gl a A B p q Hp Hq)) as (a' & r & E & _ & P).
  - intros o1 o2 R1 R2. exact (run_add gl ill a A B true o1 o2 ND R1 R2).
  - exists r. split; [exact (pair_run _ _ _ E)|exact P].
Qed.
Lemma super_point i lv P x rA : lv <> 0 -> run1 [Row i 2 [lv; x; 0]] = Ok rA -> exists r, run1 [Row i 2 [P; x; 0]] = Ok r /\ parts_comb (P / lv) rA 0 rA r.
Proof.
  intros N HA. destruct (run_pair _ _ HA) as (a1 & H1). set (A := [Row i 2 [lv; x; 0]]) in *.
  destruct (solve_parsed gl ill a none None true A a1 rA H1) as (p & Hp).
  assert (W : Forall wf_row A) by (unfold A; constructor; [cbn; lia|constructor]).
  assert (F : factor_LM A (P / lv) = Ok [Row i 2 [P; x]]).
  { unfold A, factor_LM. cbn. replace (P / lv * lv) with P by (field; exact N). reflexivity. }
  destruct (results_parts gl ill a none None true EN KF (P / lv) A rA 0 A rA [Row i 2 [P; x]] a1 a1 H1 H1 (rel_factor gl a A _ (P / lv) p W F Hp)) as (a' & r & E & _ & Q).
  - intros o1 o2 R1 R2. rewrite R1 in R2. injection R2 as <-. exact (run_factor gl ill a A _ (P / lv) true o1 ND W F R1).
  - exists r. split; [|exact Q]. rewrite <- (pair_run _ _ _ E). apply same_parse. reflexivity.
Qed.

Lemma all_shape A r0 B r1 : run1 A = Ok r0 -> run1 B = Ok r1 -> same_shape r0 r1.
Proof.
  intros H0 H1. destruct (super_nil _ _ H0) as (n & E & Q), (super_nil _ _ H1) as (n' & E' & Q'). rewrite E in E'. apply ok_inj in E'. subst n'.
  apply (shape_trans r0 n); [exact (parts_shape _ _ _ _ _ Q)|]. apply shape_sym. exact (parts_shape _ _ _ _ _ Q').
Qed.
(** [rs j]: the results of the load [lv] at position [xs j]. *)
Definition unit_run (lv : R) (p : R) (r : bres) : Prop :=
  (exists lm, run1 lm = Ok r) /\ (0 <= p <= deck_length b -> exists rw, axle_row b (p, lv) rw /\ run1 [rw] = Ok r).
Lemma axle_row_load P Q p r r' : deck b -> axle_row b (p, P) r -> axle_row b (p, Q) r' -> exists i x, r = Row i 2 [P; x; 0] /\ r' = Row i 2 [Q; x; 0].
Proof.
  intros D (i & x & -> & Hi & Ep & Hx) H2. exists (Z.of_nat i + 1)%Z, x. split; [reflexivity|].
  apply (axle_row_unique b (p, Q) _ _ D H2). exists i, x. auto.
Qed.
Lemma superpose lv xs rs r0 : deck b -> lv <> 0 -> Forall2 (unit_run lv) xs rs -> (exists A, run1 A = Ok r0) ->
  forall loads rows, loads_at b xs loads rows ->
  exists r, run1 rows = Ok r /\ same_shape r0 r /\
    forall l, linear l -> lv * l r = lsum (map (fun jP => snd jP * nth (fst jP) (map l rs) 0) loads).
Proof.
  intros D N U (A & HA) loads rows F. pose proof (Forall2_len _ _ _ U) as EL. induction F as [|[j P] rw loads rows [Hj Ha] F IH].
  - destruct (super_nil A r0 HA) as (r & E & Q). exists r. split; [exact E|]. split; [exact (parts_shape _ _ _ _ _ Q)|]. intros l Hl. rewrite (Hl _ _ _ _ _ Q). unfold lsum. cbn. ring.
  - destruct IH as (rt & Et & St & Lt). cbn [fst snd] in *.
    assert (OD : 0 <= nth j xs 0 <= deck_length b).
    { destruct Ha as (i & x & _ & Hi & Ep & Hx & Hl). cbn [fst] in Ep. destruct (deck_bounds b i D Hi) as [B1 B2]. lra. }
    assert (U' : exists r1, nth_error rs j = Some r1 /\ unit_run lv (nth j xs 0) r1).
    { clear - U Hj. revert j Hj. induction U as [|p q l m A U IH]; intros [|j] Hj; cbn in Hj; try lia; [exists q; auto|]. apply IH. lia. }
    destruct U' as (r1 & E1 & _ & K). destruct (K OD) as (rw1 & Hr1 & R1). destruct (axle_row_load _ _ _ _ _ D Hr1 Ha) as (i & x & -> & ->).
    destruct (super_point i lv P x r1 N R1) as (r2 & R2 & Q2). destruct (super_add _ _ _ _ R2 Et) as (r & Er & Q). exists r. split; [exact Er|]. split.
    + exact (all_shape _ _ _ _ HA Er).
    + intros l Hl. cbn [map fst snd]. change (lsum (?x :: ?y)) with (x + lsum y). unfold lsum at 1. cbn [fold_right]. fold (lsum (map (fun jP : nat * R => snd jP * nth (fst jP) (map l rs) 0) loads)).
      rewrite <- (Lt l Hl), (Hl _ _ _ _ _ Q), (Hl _ _ _ _ _ Q2).
      assert (EN1 : nth j (map l rs) 0 = l r1) by (erewrite nth_error_nth; [reflexivity|]; rewrite nth_error_map, E1; reflexivity). rewrite EN1. field. exact N.
Qed.
End Super.
End IL.
