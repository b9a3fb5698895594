(** Sample analyses: one encastre span of any length under a uniform load. *)
From Coq Require Import Lia String.
From Coquelicot Require Import Coquelicot.
From Verif Require Import Base BaseFacts Linalg SectionModel FlexModel LoadModel LoadSpec LoadFacts DiagFacts ClampFacts FoundationModel
  ElementModel ElementSpec UtilsModel BeamModel AnalysisModel AnalysisSpec BalanceFacts AnalysisFacts AnalysisFacts2 MechFacts AnalysisFacts3 ReleaseFacts ResultsModel ResultsSpec ResultsFacts ShapeFacts.
Open Scope R_scope.
Local Notation length := List.length.

Section L.
Variable L : R.
Hypothesis L0 : 0 < L.

Definition span_beam (q : R) : beam :=
  {| b_lengths := [L]; b_EIs := [RConst 2]; b_GAv := [None]; b_kf := [None];
     b_types := [1%nat]; b_nspans := 1; b_length := 0 + L; b_terminal := [0; 0 + L];
     b_R := [-1; -1; -1; -1]; b_D := [None; None; None; None]; b_LM := [Row 1 1 [q]]; b_version := 1 |}.
Definition span_an (q : R) : analysis :=
  {| an_beam := span_beam q; an_n := 1; an_npts := 100; an_checked := None; an_out := None |}.
Definition span_ctor (q : R) : ctor := {| ct_L := [L]; ct_EI := EIAll (RConst 2); ct_R := Some [-1; -1; -1; -1]; ct_LM := Some [Row 1 1 [q]];
     ct_types := [EtNum [1%Z]]; ct_D := None; ct_sup := None; ct_GAv := GNone; ct_kf := KNone |}.
Lemma span_init q : analysis_init (span_ctor q) = Ok (span_an q).
Proof. clear L0. reflexivity. Qed.
Lemma span_member q i mb : member_at (span_beam q) i = Ok mb -> i = 0%nat /\ sound_member mb /\ scalar_member mb /\ mb_kf mb = None /\ mb_L mb = L /\ mb_type mb = 1%nat.
Proof.
  intros E. destruct i as [|i]; [|destruct i; discriminate]. cbn in E. injection E as <-. split; [reflexivity|].
  split; [constructor; cbn; try lra; try lia; try reflexivity; try discriminate; exact Rlt_0_2 || (intros; discriminate)|].
  split; [split; [eexists; reflexivity|left; reflexivity]|]. auto.
Qed.
Lemma span_wf gl q : well_formed gl (span_beam q) 1.
Proof.
  split; [cbn; lia|]. split; [cbn; lia|]. eexists; split; [reflexivity|]. intros m Hm.
  replace m with 0%nat by lia. do 3 eexists. repeat (split; [reflexivity|]). reflexivity.
Qed.
Lemma span_prescribed q i : prescribed (span_beam q) i = None.
Proof. unfold prescribed. cbn. destruct i as [|[|[|[|i]]]]; try reflexivity. destruct i; reflexivity. Qed.
Lemma span_restraint q i : (i < 4)%nat -> restraint (span_beam q) i = -1.
Proof. clear L0. intros Hi. unfold restraint. cbn. destruct i as [|[|[|[|i]]]]; try reflexivity. lia. Qed.
Lemma span_core gl ill q : exists o, snd (analyze_core gl ill (span_an q) None true) = Ok o.
Proof.
  destruct (well_formed_system _ _ _ (span_wf gl q)) as (kb & rf & S).
  apply (core_total gl ill (span_an q) true kb rf S).
  - cbn. lia.
  - cbn. lia.
  - intros i Hi (C & _). cbn [an_beam span_an] in C. rewrite span_restraint in C by (cbn in Hi; lia). lra.
  - intros y Hy i Hi. specialize (Hy i Hi). unfold bcv in Hy. cbn [an_beam span_an] in Hy. rewrite span_prescribed, span_restraint in Hy by (cbn in Hi; lia).
    destruct (Rlt_dec (-1) 0); [exact Hy|lra].
  - right. destruct S as [Hk _]. destruct (an_assemble_total gl (span_beam q) 1 kb Hk ltac:(cbn; lia)) as (k & EA & _).
    exists k. split; [exact EA|]. unfold check_stability. cbn [an_beam span_an span_beam b_R b_D].
    assert (F : free_dofs [-1; -1; -1; -1] [None; None; None; None] (seq 0 (2 * (an_n (span_an q) + 1))) = Ok []).
    { cbn [span_an an_n Nat.add Nat.mul seq]. cbn. unfold Rltb. destruct (Rlt_dec (-1) 0); [reflexivity|lra]. }
    rewrite F. reflexivity.
Qed.
Lemma span_sound q : sound_grid (span_beam q).
Proof. intros i mb _ E. destruct (span_member q i mb E) as (_ & _ & _ & K & EL & _). split; [lra|exact K]. Qed.
Lemma span_results gl ill q : exists a' br, analyze gl ill (span_an q) (fun _ => []) None true = (a', Ok br) /\ an_npts a' = 100%nat /\
  length (r_x (br_all br)) = 103%nat /\ In L (r_x (br_all br)) /\ (forall x, In x (r_x (br_all br)) -> 0 <= x <= L) /\ length (br_R br) = 4%nat.
Proof.
  destruct (span_core gl ill q) as (o & Ho).
  destruct (analyze_total_ok gl ill (span_an q) (fun _ => []) None true o [(0%Z, LUDL q)] Ho) as (a' & br & E & EP & ED);
    [reflexivity|exact (span_wf gl q)|reflexivity| | |].
  - intros i mb Hi E. destruct (span_member q i mb E) as (_ & _ & A & B & _). auto.
  - intros i mb Hi E. cbn in Hi. replace i with 0%nat by lia. cbn. eexists. reflexivity.
  - exists a', br. split; [exact E|]. split; [exact EP|].
    destruct (analyze_split _ _ _ _ _ _ _ _ E) as (o' & EC & Hv & EL & _).
    destruct (analyze_core_state _ _ _ _ _ _ _ EC) as (EB & _). rewrite EB in Hv.
    destruct (member_analysis_spec _ _ _ _ _ _ _ Hv) as (ls & Hls & Hlen & Hs).
    destruct (Hs 0%nat ltac:(cbn; lia)) as (mb & f & r0 & (Hm & _) & Hr). set (r := shift_x _ r0) in Hr. clearbody r.
    assert (EM : br_mem br = [r]) by (cbn [an_beam span_an span_beam b_nspans] in Hlen; destruct (br_mem br) as [|m1 [|m2 l]]; cbn in Hlen, Hr; try discriminate; congruence).
    destruct (span_member q 0 mb Hm) as (_ & Sm & _ & Kf & HL & Ht).
    assert (P0 : (0 < an_npts a')%nat) by (rewrite EP; cbn; lia).
    assert (Gr := analyze_grid _ _ _ _ _ _ _ _ 0 r mb E P0 Hm ltac:(lra) Kf Hr). destruct Gr as [G1 G2 G3 G4 G5 G6]. rewrite EP in G1, G5, G6. cbn [an_npts span_an] in G1, G5, G6.
    assert (C0 : inside_points (mb_L mb) [] = 0%nat) by reflexivity. rewrite C0 in *.
    assert (X1 : node_x (an_beam (span_an q)) (0 + 1) = L) by (cbn; lra). assert (X0 : node_x (an_beam (span_an q)) 0 = 0) by (cbn; lra).
    rewrite X1 in *. rewrite X0 in *.
    assert (EX : r_x (br_all br) = r_x r) by (rewrite EL, EM; cbn [mres_concat r_x flat_map]; apply app_nil_r).
    rewrite EX. split; [rewrite G1; reflexivity|]. split; [rewrite <- G6; apply nth_In; lia|]. split.
    + intros x Hx. apply (In_nth _ _ 0) in Hx. destruct Hx as (k & Hk & <-).
      assert (S : forall l, increasing l -> forall i j, (i <= j < length l)%nat -> nth i l 0 <= nth j l 0).
      { clear. induction l as [|y l IH]; intros Q i j H; [cbn in H; lia|]. inversion Q as [|? ? Q1 Q2]. subst. destruct i as [|i], j as [|j]; cbn in *; try lia; [lra| |apply IH; [exact Q1|lia]].
        rewrite Forall_forall in Q2. apply Q2, nth_In. lia. }
      rewrite <- G3 at 1. rewrite <- G6. split; apply S; trivial; lia.
    + rewrite (reaction_length _ _ _ _ _ _ _ _ E). cbn [an_n span_an an_beam Nat.add Nat.mul seq filter]. rewrite !span_restraint by lia.
      unfold Rltb. destruct (Rlt_dec (-1) 0); [reflexivity|lra].
Qed.
End L.
