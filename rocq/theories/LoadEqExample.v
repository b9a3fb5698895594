(** A concrete case for C88: the two-span beam of C11 under one loading told in two ways. *)
From Coq Require Import Lia ZArith Permutation.
From Verif Require Import Base BaseFacts Linalg SectionModel FlexModel LoadModel LoadSpec FoundationModel ElementModel ElementSpec UtilsModel BeamModel AnalysisModel AnalysisSpec AnalysisFacts AnalysisFacts2 SuperFacts MechFacts AnalysisFacts3
  ResultsModel ResultsFacts BedFacts4 LoadEqSpec.
Open Scope R_scope.

Definition told_one : list row := [Row 1 1 [10]; Row 2 2 [5; 2]].
Definition told_two : list row := [Row 2 2 [2; 2]; Row 1 5 [10; 10; 0; 1]; Row 2 2 [3; 2]; Row 1 3 [10; 1; 3]].

Lemma first_span : free_span sample_beam 1 4.
Proof. split; [lia|]. eexists. split; [reflexivity|]. cbn. repeat split; try lra. intros g E. discriminate. Qed.
Lemma second_span : free_span sample_beam 2 6.
Proof. split; [lia|]. eexists. split; [reflexivity|]. cbn. repeat split; try lra. intros g E. discriminate. Qed.

Lemma told_same : same_loading sample_beam told_one told_two.
Proof.
  unfold told_one, told_two. eapply same_trans; [apply same_says, (say_whole _ 1 4), first_span|]. cbn [app].
  replace [10; 0; 4] with [10; 0; 1 + 3] by (repeat apply f_equal2; ring || reflexivity).
  eapply same_trans; [apply same_says, (say_cut _ 1 4); [apply first_span|lra|lra|lra|lra]|]. cbn [app]. replace (0 + 1) with 1 by ring.
  eapply same_trans; [apply same_says, (say_level _ 1 4); [apply first_span|lra|lra|lra]|]. cbn [app].
  eapply same_trans; [apply same_order, (Permutation_app_comm [_; _] [_])|]. cbn [app]. replace 5 with (2 + 3) by ring. 
  eapply same_trans; [apply same_says, (say_point _ 2 6), second_span|]. cbn [app]. replace (2 + 3) with 5 by ring. apply same_order. apply perm_skip. apply perm_swap.
Qed.

Lemma told_wf : well_formed sample_gl (set_loads sample_beam told_one) 2.
Proof. sample_wf. Qed.
Lemma told_runs ill sps : exists a' r, analyze sample_gl ill (with_beam AnalysisFacts3.sample (set_loads sample_beam told_one)) sps None false = (a', Ok r).
Proof.
  destruct (sample_runs ill told_one told_wf) as (o & Ho). unfold run in Ho.
  destruct (analyze_total_ok sample_gl ill (with_beam AnalysisFacts3.sample (set_loads sample_beam told_one)) sps None false o [(0%Z, LUDL 10); (1%Z, LPL 5 2)] Ho) as (a' & br & E & _).
  - reflexivity.
  - exact told_wf.
  - reflexivity.
  - intros m mb Hm E. split; [exact (proj2 (sample_sound 2 told_one (le_n 2) m mb Hm E))|]. cbn [with_beam an_n AnalysisFacts3.sample] in Hm.
    assert (m = 0 \/ m = 1)%nat as [-> | ->] by lia; cbv in E; injection E as <-; reflexivity.
  - intros i mb Hi E. cbn [with_beam an_n AnalysisFacts3.sample] in Hi. assert (i = 0 \/ i = 1)%nat as [-> | ->] by lia; eexists; reflexivity.
  - eauto.
Qed.

(** The beam on a foundation of C61: the load over the whole member given with its extent, the point load as two. *)
Definition bed_one : list row := [Row 1 1 [2]; Row 1 2 [7; 300]; Row 1 3 [5; 125; 300]].
Definition bed_two : list row := [Row 1 2 [3; 300]; Row 1 2 [4; 300]; Row 1 3 [5; 125; 300]; Row 1 3 [2; 0; 1000]].
Lemma bed_first : bed_span bed_beam 1 1000.
Proof. split; [lia|]. do 2 eexists. split; [reflexivity|]. cbn. repeat split; try reflexivity; lra. Qed.
Lemma bed_same : same_loading bed_beam bed_one bed_two.
Proof.
  unfold bed_one, bed_two. eapply same_trans; [apply same_says, (say_bed_whole _ 1 1000), bed_first|]. cbn [app].
  eapply same_trans; [apply same_order, (Permutation_app_comm [_] [_; _])|]. cbn [app]. replace 7 with (3 + 4) by ring.
  eapply same_trans; [apply same_says, (say_bed_point _ 1 1000), bed_first|]. apply same_order, Permutation_refl.
Qed.
Lemma bed_runs gl ill sps : exists a' r, analyze gl ill (with_beam bed_an (set_loads bed_beam bed_one)) sps None false = (a', Ok r).
Proof. destruct (bed_results gl ill sps) as (a' & br & _ & _ & E & _). exists a', br. exact E. Qed.
