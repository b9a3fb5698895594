(** A shear-flexible deck (C83). *)
From Coq Require Import Lia ZArith.
From Verif Require Import Base BaseFacts Linalg SectionModel LoadModel LoadSpec FoundationModel ElementModel UtilsModel BeamModel BeamSpec AnalysisModel AnalysisSpec AnalysisFacts AnalysisFacts2 AnalysisFacts3 MechFacts ResultsModel ResultsSpec ResultsFacts
  EnvelopeModel EnvelopeSpec VehicleModel VehicleSpec VehicleFacts BridgeModel BridgeSpec BridgeFacts BridgeFacts2 BridgeFacts3 BridgeFacts4 RefineSpec.
Open Scope R_scope.

(** Encastre span, flexible in shear. *)
Definition soft_beam : beam :=
  {| b_lengths := [6]; b_EIs := [RConst 2]; b_GAv := [Some (RConst 3)]; b_kf := [None];
     b_types := [1%nat]; b_nspans := 1; b_length := 0 + 6; b_terminal := [0; 0 + 6];
     b_R := [-1; -1; -1; -1]; b_D := [None; None; None; None]; b_LM := [Row 1 1 [2]]; b_version := 1 |}.
Definition soft : analysis := {| an_beam := soft_beam; an_n := 1; an_npts := 100; an_checked := None; an_out := None |}.
Section Soft.
Variables (gl : nat -> list (R * R)) (ill : nat -> mat -> bool).
Lemma soft_member i mb : member_at soft_beam i = Ok mb -> i = 0%nat /\ mb = {| mb_L := 6; mb_EI := RConst 2; mb_GAv := Some (RConst 3); mb_kf := None; mb_type := 1 |}.
Proof. intros E. destruct i as [|i]; [|destruct i; discriminate]. cbv in E. injection E as <-. split; reflexivity. Qed.
Lemma soft_bridge : bridge_model soft.
Proof.
  constructor.
  - constructor; cbn; [reflexivity|unfold node_at; cbn; ring|unfold node_at; cbn; repeat f_equal; ring|lia|repeat constructor; lra].
  - reflexivity.
  - cbn. lia.
  - intros i mb _ H. destruct (soft_member i mb H) as [_ ->]. reflexivity.
Qed.
Definition soft_lm (lm : list row) : analysis := with_beam soft (set_loads (an_beam soft) lm).
Lemma soft_lm_wf lm : Forall simple_row lm -> well_formed gl (an_beam (soft_lm lm)) 1.
Proof.
  intros F. split; [cbn; lia|]. split; [cbn; lia|]. destruct (simple_parsed_loads (an_beam (soft_lm lm)) F) as (ls & E & S). exists ls. split; [exact E|]. intros m Hm.
  replace m with 0%nat by lia. assert (S0 := simple_loads ls 0 S). do 2 eexists. assert (X : exists r, forall mb, member_at (an_beam (soft_lm lm)) 0 = Ok mb -> span_ref gl mb (loads_of ls 0) = Ok r).
  { cut (exists r, span_ref gl {| mb_L := 6; mb_EI := RConst 2; mb_GAv := Some (RConst 3); mb_kf := None; mb_type := 1 |} (loads_of ls 0) = Ok r).
    - intros (r & Er). exists r. intros mb Hm'. cbn in Hm'. injection Hm' as <-. exact Er.
    - unfold span_ref. cbn [mb_kf]. generalize (fun _ : nat => 0). induction S0 as [|ld l Sl S0 IH]; intros acc; [eexists; reflexivity|]. cbn [foldM].
      assert (Q : exists u, ref_one gl {| mb_L := 6; mb_EI := RConst 2; mb_GAv := Some (RConst 3); mb_kf := None; mb_type := 1 |} ld = Ok u) by (destruct ld; try destruct Sl; [eexists; reflexivity|eexists; reflexivity|]; unfold ref_one; cbn [mb_GAv mb_EI mb_L mb_type]; unfold ref_timoshenko; cbn [get_cnl]; unfold pudl_cnl, Rltb; destruct (Rlt_dec 6 a); [lra|eexists; reflexivity]).
      destruct Q as (u & ->). cbn [rbind]. apply IH. }
  destruct X as (r & Hr). exists r. split; [reflexivity|]. split; [reflexivity|]. apply Hr. reflexivity.
Qed.
Lemma soft_prescribed i : prescribed soft_beam i = None.
Proof. unfold prescribed. cbn. destruct i as [|[|[|[|i]]]]; try reflexivity. destruct i; reflexivity. Qed.
Lemma soft_restraint i : (i < 4)%nat -> restraint soft_beam i = -1.
Proof. intros Hi. unfold restraint. cbn. destruct i as [|[|[|[|i]]]]; try reflexivity. lia. Qed.
Lemma soft_total lm sps : Forall simple_row lm -> exists r, analysed_with gl ill soft sps lm = Ok r.
Proof.
  intros F. assert (WF := soft_lm_wf lm F). destruct (simple_parsed_loads (an_beam (soft_lm lm)) F) as (ls & El & Sl). unfold analysed_with. fold (soft_lm lm).
  assert (C : exists o, snd (analyze_core gl ill (soft_lm lm) None true) = Ok o).
  { destruct (well_formed_system _ _ _ WF) as (kb & rf & S). apply (core_total gl ill (soft_lm lm) true kb rf S).
    - cbn. lia.
    - cbn. lia.
    - intros i Hi (C & _). change (restraint (an_beam (soft_lm lm)) i) with (restraint soft_beam i) in C. rewrite soft_restraint in C by (cbn in Hi; lia). lra.
    - intros y Hy i Hi. specialize (Hy i Hi). unfold bcv in Hy. change (prescribed (an_beam (soft_lm lm)) i) with (prescribed soft_beam i) in Hy.
      change (restraint (an_beam (soft_lm lm)) i) with (restraint soft_beam i) in Hy. rewrite soft_prescribed, soft_restraint in Hy by (cbn in Hi; lia). destruct (Rlt_dec (-1) 0); [exact Hy|lra].
    - right. destruct S as [Hk _]. destruct (an_assemble_total gl (an_beam (soft_lm lm)) 1 kb Hk ltac:(cbn; lia)) as (k & EA & _). exists k. split; [exact EA|]. unfold check_stability.
      change (b_R (an_beam (soft_lm lm))) with [-1; -1; -1; -1]. change (b_D (an_beam (soft_lm lm))) with (@cons (option R) None [None; None; None]).
      assert (FD : free_dofs [-1; -1; -1; -1] [None; None; None; None] (seq 0 (2 * (an_n (soft_lm lm) + 1))) = Ok []).
      { cbn [soft_lm with_beam soft an_n Nat.add Nat.mul seq]. cbn. unfold Rltb. destruct (Rlt_dec (-1) 0); [reflexivity|lra]. }
      rewrite FD. reflexivity. }
  destruct C as (o & Ho). destruct (analyze_total_ok gl ill (soft_lm lm) sps None true o ls Ho) as (a' & br & E & _).
  - reflexivity.
  - exact WF.
  - exact El.
  - intros i mb Hi E. destruct (soft_member i mb E) as [_ ->]. split; [|reflexivity]. split; [eexists; reflexivity|right; eexists; reflexivity].
  - intros i mb Hi E. assert (S0 := simple_loads ls i Sl). clear - S0 E. induction S0 as [|ld l S S0 (cs & IH)]; [exists []; reflexivity|]. cbn [mapM]. rewrite IH.
    destruct (soft_member i mb E) as [_ ->]. cbn [mb_L]. destruct ld; try destruct S; [eexists; reflexivity|eexists; reflexivity|]. cbn [get_cnl]. unfold pudl_cnl, Rltb. destruct (Rlt_dec 6 a); [lra|eexists; reflexivity].
  - exists br. rewrite E. reflexivity.
Qed.
Lemma soft_loaded p : exists r, loaded_at gl ill soft truck [Row 1 1 [2]] (fun _ => []) p r.
Proof.
  destruct (axles_spec (an_beam soft) truck p (bm_deck _ soft_bridge)) as (rows & _ & A & _).
  destruct (soft_total ([Row 1 1 [2]] ++ rows) (fun _ => [])) as (r & Hr).
  - apply Forall_app. split; [repeat constructor; eexists; split; [reflexivity|exact I]|]. eapply axle_rows_simple; exact A.
  - exists r, rows. auto.
Qed.
End Soft.
