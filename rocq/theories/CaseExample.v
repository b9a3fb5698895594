(** Sample load cases on an encastre span. *)
From Coq Require Import Lia String.
From Coquelicot Require Import Coquelicot.
From Verif Require Import Base BaseFacts Linalg SectionModel FlexModel LoadModel LoadSpec LoadFacts DiagFacts ClampFacts FoundationModel
  ElementModel ElementSpec UtilsModel BeamModel AnalysisModel AnalysisSpec BalanceFacts AnalysisFacts AnalysisFacts2 MechFacts AnalysisFacts3 ReleaseFacts ResultsModel ResultsSpec ResultsFacts LoadCasesModel LoadCasesSpec LoadCasesFacts.
Open Scope R_scope.
Local Notation length := List.length.

Definition ffq_beam (q : R) : beam :=
  {| b_lengths := [6]; b_EIs := [RConst 2]; b_GAv := [None]; b_kf := [None];
     b_types := [1%nat]; b_nspans := 1; b_length := 0 + 6; b_terminal := [0; 0 + 6];
     b_R := [-1; -1; -1; -1]; b_D := [None; None; None; None]; b_LM := [Row 1 1 [q]]; b_version := 1 |}.
Definition ffq (q : R) : analysis :=
  {| an_beam := ffq_beam q; an_n := 1; an_npts := 100; an_checked := None; an_out := None |}.
Definition ff_template : template := {| t_beam := ff_beam; t_npts := None |}.
Lemma ffq_build q : build_model ff_beam [Row 1 1 [q]] = Ok (ffq q).
Proof. reflexivity. Qed.
Lemma ffq_member q i : member_at (ffq_beam q) i = member_at ff_beam i.
Proof. reflexivity. Qed.
Lemma ffq_wf gl q : well_formed gl (ffq_beam q) 1.
Proof.
  split; [cbn; lia|]. split; [cbn; lia|]. eexists; split; [reflexivity|]. intros m Hm.
  replace m with 0%nat by lia. do 3 eexists. repeat (split; [reflexivity|]). reflexivity.
Qed.
Lemma ffq_prescribed q i : prescribed (ffq_beam q) i = None.
Proof. exact (ff_prescribed i). Qed.
Lemma ffq_restraint q i : (i < 4)%nat -> restraint (ffq_beam q) i = -1.
Proof. exact (ff_restraint i). Qed.
Lemma ffq_core gl ill q : exists o, snd (analyze_core gl ill (ffq q) None true) = Ok o.
Proof.
  destruct (well_formed_system _ _ _ (ffq_wf gl q)) as (kb & rf & S).
  apply (core_total gl ill (ffq q) true kb rf S).
  - cbn. lia.
  - cbn. lia.
  - intros i Hi (C & _). cbn [an_beam ffq] in C. rewrite ffq_restraint in C by (cbn in Hi; lia). lra.
  - intros y Hy i Hi. specialize (Hy i Hi). unfold bcv in Hy. cbn [an_beam ffq] in Hy. rewrite ffq_prescribed, ffq_restraint in Hy by (cbn in Hi; lia).
    destruct (Rlt_dec (-1) 0); [exact Hy|lra].
  - right. destruct S as [Hk _]. destruct (an_assemble_total gl (ffq_beam q) 1 kb Hk ltac:(cbn; lia)) as (k & EA & _).
    exists k. split; [exact EA|]. unfold check_stability. cbn [an_beam ffq ffq_beam b_R b_D].
    assert (F : free_dofs [-1; -1; -1; -1] [None; None; None; None] (seq 0 (2 * (an_n (ffq q) + 1))) = Ok []).
    { cbn [ffq an_n Nat.add Nat.mul seq]. cbn. unfold Rltb. destruct (Rlt_dec (-1) 0); [reflexivity|lra]. }
    rewrite F. reflexivity.
Qed.
Lemma ffq_results gl ill q : gauss_rule gl -> exists a' br, analyze gl ill (ffq q) (fun _ => []) None true = (a', Ok br) /\ an_npts a' = 100%nat /\
  In 6 (r_x (br_all br)) /\ read_at 6 (r_x (br_all br)) (r_M (br_all br)) = - (3 * q).
Proof.
  intros G. destruct (ffq_core gl ill q) as (o & Ho).
  destruct (analyze_total_ok gl ill (ffq q) (fun _ => []) None true o [(0%Z, LUDL q)] Ho) as (a' & br & E & EP & ED).
  - reflexivity.
  - exact (ffq_wf gl q).
  - reflexivity.
  - intros i mb Hi E. destruct (ff_member i mb E) as (_ & _ & A & B & _). auto.
  - intros i mb Hi E. cbn in Hi. replace i with 0%nat by lia. cbn. eexists. reflexivity.
  - exists a', br. split; [exact E|]. split; [exact EP|].
    assert (Z : forall j, (j < 4)%nat -> br_D br j = 0).
    { rewrite ED. destruct (analyze_core gl ill (ffq q) None true) as [a1 r] eqn:EC. cbn in Ho. subst r.
      destruct (analyze_equilibrium _ _ _ _ _ _ _ EC) as (ef & _ & Q). intros j Hj. specialize (Q j ltac:(cbn; lia)).
      cbn [an_beam ffq] in Q. rewrite ffq_prescribed, ffq_restraint in Q by exact Hj. destruct (Rlt_dec (-1) 0); [exact Q|lra]. }
    destruct (analyze_split _ _ _ _ _ _ _ _ E) as (o' & EC & Hv & EL & _).
    destruct (analyze_core_state _ _ _ _ _ _ _ EC) as (EB & _). rewrite EB in Hv.
    destruct (member_analysis_spec _ _ _ _ _ _ _ Hv) as (ls & Hls & Hlen & Hs).
    destruct (Hs 0%nat ltac:(cbn; lia)) as (mb & f & r0 & (Hm & _) & Hr). set (r := shift_x _ r0) in Hr. clearbody r.
    destruct (ff_member 0 mb Hm) as (_ & Sm & _ & Kf & HL & Ht).
    assert (MM : members (an_beam (ffq q)) (b_nspans (an_beam (ffq q))) (fun mb => 0 < mb_L mb /\ mb_kf mb = None)).
    { intros i m Hi Hi'. destruct (ff_member i m Hi') as (_ & _ & _ & K & L6 & _). split; [lra|exact K]. }
    assert (P0 : (0 < an_npts a')%nat) by (rewrite EP; cbn; lia).
    assert (Gr := analyze_grid _ _ _ _ _ _ _ _ 0 r mb E P0 Hm ltac:(lra) Kf Hr). destruct Gr as [G1 G2 G3 G4 G5 G6]. rewrite EP in G1, G5, G6. cbn [an_npts ffq] in G1, G5, G6.
    assert (C0 : inside_points (mb_L mb) [] = 0%nat) by reflexivity. rewrite C0 in *.
    assert (X1 : node_x (an_beam (ffq q)) (0 + 1) = 6) by (cbn; lra). assert (X0 : node_x (an_beam (ffq q)) 0 = 0) by (cbn; lra).
    rewrite X1 in *. rewrite X0 in *.
    assert (Ef : exists e, member_forces gl (an_beam (ffq q)) (br_D br) 0 = Ok e /\ e 3%nat = - (3 * q)).
    { eexists. split; [reflexivity|]. unfold mulmv. cbn [rsum]. cbn [Nat.mul Nat.add]. rewrite !Z by lia. cbn. field. }
    destruct Ef as (e & Ee & E3).
    destruct (analyze_diagrams gl ill (ffq q) _ None true a' br 0 r mb [(0%Z, LUDL q)] e G E Hm Sm eq_refl) as (V & M & MC & CE & _); [|exact Hr|exact Ee|].
    { constructor; [split; exact I|constructor]. }
    assert (Hk : (0 < 101 < length (r_x r) - 1)%nat) by lia.
    destruct (read_in_member gl ill (ffq q) (fun _ => []) None true a' br E P0 MM 0 r 101 Hr Hk ltac:(rewrite X0; replace 101%nat with (100 + 3 + 2 * 0 - 2)%nat by lia; rewrite G5; lra)) as [RM _].
    replace (nth 101 (r_x r) 0) with 6 in RM by (symmetry; exact G5). split.
    + rewrite EL. cbn [mres_concat r_x]. apply in_flat_map. exists r. split; [eapply nth_error_In; exact Hr|].
      assert (I6 : nth 101 (r_x r) 0 = 6) by exact G5. rewrite <- I6. apply nth_In. lia.
    + rewrite RM. destruct (mc_at _ _ _ _ MC 101%nat Hk) as [_ ->]. rewrite X0.
      replace (nth 101 (r_x r) 0 - 0) with 6 by (assert (I6 : nth 101 (r_x r) 0 = 6) by exact G5; lra).
      destruct CE as [_ CM (J & HJ & EJ)]. rewrite HL in *. destruct (CM 6 ltac:(lra)) as (I & HI & ->).
      { intros p []. }
      assert (I = J) by (rewrite <- (is_RInt_unique _ _ _ _ HI); apply is_RInt_unique; exact HJ). subst J.
      rewrite <- E3, EJ. unfold lsum, left_of. cbn. lra.
Qed.

(** Two cases, one loading the span downwards and one upwards. *)
Definition two_cases : list lcase :=
  [{| lc_name := "down"; lc_loads := [Row 1 1 [2]]; lc_pos := None |};
   {| lc_name := "up"; lc_loads := [Row 1 1 [-2]]; lc_pos := None |}]%string.
Lemma lmin_le l x : In x l -> lmin l <= x.
Proof.
  destruct l as [|y l]; [intros []|]. cbn. revert y. induction l as [|z l IH]; intros y H; cbn.
  - destruct H as [->|[]]. lra.
  - assert (F : forall l y, fold_left Rmin l y <= y).
    { clear. induction l as [|z l IH]; intros y; cbn; [lra|]. eapply Rle_trans; [apply IH|apply Rmin_l]. }
    destruct H as [->|[->|H]]; [|  |apply IH; right; exact H]; (eapply Rle_trans; [apply F|]); [apply Rmin_l|apply Rmin_r].
Qed.
Lemma le_lmax l x : In x l -> x <= lmax l.
Proof.
  destruct l as [|y l]; [intros []|]. cbn. revert y. induction l as [|z l IH]; intros y H; cbn.
  - destruct H as [->|[]]. lra.
  - assert (F : forall l y, y <= fold_left Rmax l y).
    { clear. induction l as [|z l IH]; intros y; cbn; [lra|]. eapply Rle_trans; [apply Rmax_l|apply IH]. }
    destruct H as [->|[->|H]]; [|  |apply IH; right; exact H]; (eapply Rle_trans; [|apply F]); [apply Rmax_l|apply Rmax_r].
Qed.
Lemma allclose_refl xs : allclose xs xs = true.
Proof.
  unfold allclose. rewrite Nat.eqb_refl. apply forallb_forall. intros [p q] H.
  assert (p = q) as -> by (clear -H; induction xs as [|x xs IH]; cbn in H; [destruct H|destruct H as [E|H]; [congruence|auto]]).
  unfold isclose, Rleb. cbn [fst snd]. destruct (Rle_dec _ _); [reflexivity|]. exfalso. apply n. rewrite Rminus_diag_eq, Rabs_R0 by reflexivity. pose proof (Rabs_pos q). lra.
Qed.
Lemma two_collect gl ill : gauss_rule gl -> exists xs y0 y1, collect_responses gl ill ff_template two_cases "M" = Ok (xs, [y0; y1]) /\
  In 6 xs /\ length y0 = length xs /\ length y1 = length xs /\ read_at 6 xs y0 = -6 /\ read_at 6 xs y1 = 6.
Proof.
  intros G. destruct (ffq_results gl ill 2 G) as (a0 & b0 & E0 & P0 & I0 & R0). destruct (ffq_results gl ill (-2) G) as (a1 & b1 & E1 & P1 & _ & R1).
  assert (S := shared_stations _ _ _ _ _ _ _ _ _ _ _ _ _ _ _ E0 E1 ltac:(congruence) eq_refl eq_refl ltac:(reflexivity)). destruct S as [_ S].
  assert (Len : forall a' b q, analyze gl ill (ffq q) (fun _ => []) None true = (a', Ok b) -> an_npts a' = 100%nat -> length (r_M (br_all b)) = length (r_x (br_all b))).
  { intros a' b q E P. destruct (analyze_split _ _ _ _ _ _ _ _ E) as (_ & _ & _ & -> & _). cbn [mres_concat r_x r_M].
    assert (L : forall r, In r (br_mem b) -> length (r_M r) = length (r_x r)).
    { intros r Hr. apply In_nth_error in Hr. destruct Hr as (i & Hr).
      assert (MM : members (an_beam (ffq q)) (b_nspans (an_beam (ffq q))) (fun mb => 0 < mb_L mb /\ mb_kf mb = None)).
      { intros j m Hj Hj'. destruct (ff_member j m Hj') as (_ & _ & _ & K & L6 & _). split; [lra|exact K]. }
      destruct (mem_at gl ill (ffq q) _ None true a' b E ltac:(lia) MM i r Hr) as (_ & _ & _ & _ & (V & M & C) & _). apply (mc_len _ _ _ _ C). }
    induction (br_mem b) as [|r l IH]; [reflexivity|]. cbn [flat_map]. rewrite !app_length, (L r (or_introl eq_refl)), IH; [reflexivity|]. intros k Hk. apply L. right. exact Hk. }
  exists (r_x (br_all b0)), (r_M (br_all b0)), (r_M (br_all b1)). split.
  - unfold collect_responses, two_cases. cbn [foldM lc_loads]. unfold analyse_load_case. change (response_of "M") with (Some RespM). cbv beta iota. unfold analyse_loads. cbn [ff_template t_beam t_npts].
    change (build_model ff_beam [Row 1 1 [2]]) with (Ok (ffq 2)). change (build_model ff_beam [Row 1 1 [-2]]) with (Ok (ffq (-2))). cbn [rbind].
    rewrite E0, E1. cbn -[allclose]. rewrite <- S, allclose_refl. reflexivity.
  - split; [exact I0|]. split; [exact (Len _ _ _ E0 P0)|]. split; [rewrite S; exact (Len _ _ _ E1 P1)|]. split; [rewrite R0; lra|]. rewrite S, R1. lra.
Qed.
Lemma two_target gl ill : gauss_rule gl -> exists tc, target_combination gl ill ff_template two_cases 6 "Hogging" "M" 1 0 = Ok tc /\
  tc_factors tc = [1; 0] /\ tc_selected tc = ["down"%string].
Proof.
  intros G. destruct (two_collect gl ill G) as (xs & y0 & y1 & E & I6 & L0 & L1 & R0 & R1).
  unfold target_combination. change (sense_of "Hogging") with (Some true). rewrite E. cbn [rbind fst snd].
  unfold response_at. cbn [forallb]. rewrite L0, L1, !Nat.eqb_refl. cbn [andb negb].
  unfold Rltb. destruct (Rlt_dec 6 (lmin xs)) as [C|_]; [pose proof (lmin_le _ _ I6); lra|]. destruct (Rlt_dec (lmax xs) 6) as [C|_]; [pose proof (le_lmax _ _ I6); lra|].
  cbn [orb rbind map]. rewrite R0, R1. eexists. split; [reflexivity|]. cbn. unfold Rltb. destruct (Rlt_dec (-6) 0); [|lra]. destruct (Rlt_dec 6 0); [lra|]. cbn. split; reflexivity.
Qed.
