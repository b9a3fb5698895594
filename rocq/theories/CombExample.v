(** A load case of a beam with a settlement: combining is not analysing (C29). *)
From Coq Require Import Lia String FunctionalExtensionality.
From Coquelicot Require Import Coquelicot.
From Verif Require Import Base BaseFacts Linalg SectionModel FlexModel LoadModel LoadSpec LoadFacts DiagFacts ClampFacts FoundationModel
  ElementModel ElementSpec UtilsModel BeamModel AnalysisModel AnalysisSpec BalanceFacts AnalysisFacts AnalysisFacts2 MechFacts AnalysisFacts3 ReleaseFacts ResultsModel ResultsSpec ResultsFacts
  LoadCasesModel LoadCasesSpec LoadCasesFacts CaseExample CombFacts CombCases ConstSectFacts.
Open Scope R_scope.
Local Notation length := List.length.
Local Open Scope list_scope.

Definition ffd_beam (lm : list row) : beam :=
  {| b_lengths := [6]; b_EIs := [RConst 2]; b_GAv := [None]; b_kf := [None];
     b_types := [1%nat]; b_nspans := 1; b_length := 0 + 6; b_terminal := [0; 0 + 6];
     b_R := [-1; -1; -1; -1]; b_D := [Some 1; None; None; None]; b_LM := lm; b_version := 1 |}.
Definition ffd (lm : list row) : analysis :=
  {| an_beam := ffd_beam lm; an_n := 1; an_npts := 100; an_checked := None; an_out := None |}.
Definition ffd_template : template := {| t_beam := ffd_beam []; t_npts := None |}.
Lemma ffd_build lm : build_model (ffd_beam []) lm = Ok (ffd lm).
Proof. reflexivity. Qed.
Lemma ffd_wf gl q : well_formed gl (ffd_beam [Row 1 1 [q]]) 1.
Proof.
  split; [cbn; lia|]. split; [cbn; lia|]. eexists; split; [reflexivity|]. intros m Hm.
  replace m with 0%nat by lia. do 3 eexists. repeat (split; [reflexivity|]). reflexivity.
Qed.
Lemma ffd_fixed lm i : (i < 4)%nat -> bcv (ffd_beam lm) i = Some (if Nat.eqb i 0 then 1 else 0).
Proof.
  intros Hi. do 4 (destruct i as [|i]; [unfold bcv, prescribed, restraint; cbn; destruct (Rlt_dec (-1) 0); [reflexivity|lra]|]). lia.
Qed.
Lemma ffd_core gl ill q : exists o, snd (analyze_core gl ill (ffd [Row 1 1 [q]]) None true) = Ok o.
Proof.
  destruct (well_formed_system _ _ _ (ffd_wf gl q)) as (kb & rf & S).
  apply (core_total gl ill (ffd [Row 1 1 [q]]) true kb rf S).
  - cbn. lia.
  - cbn. lia.
  - intros i Hi (C & _). cbn [an_beam ffd] in C. change (restraint (ffd_beam [Row 1 1 [q]]) i) with (restraint ff_beam i) in C. rewrite ff_restraint in C by (cbn in Hi; lia). lra.
  - intros y Hy i Hi. specialize (Hy i Hi). cbn [an_beam ffd] in Hy. rewrite ffd_fixed in Hy by (cbn in Hi; lia). exact Hy.
  - right. destruct S as [Hk _]. destruct (an_assemble_total gl (ffd_beam [Row 1 1 [q]]) 1 kb Hk ltac:(cbn; lia)) as (k & EA & _).
    exists k. split; [exact EA|]. unfold check_stability. cbn [an_beam ffd ffd_beam b_R b_D].
    assert (F : free_dofs [-1; -1; -1; -1] [Some 1; None; None; None] (seq 0 (2 * (an_n (ffd [Row 1 1 [q]]) + 1))) = Ok []).
    { cbn [ffd an_n Nat.add Nat.mul seq]. cbn. unfold Rltb. destruct (Rlt_dec (-1) 0); [reflexivity|lra]. }
    rewrite F. reflexivity.
Qed.
Lemma ffd_results gl ill q : exists a' br, analyze gl ill (ffd [Row 1 1 [q]]) (fun _ => []) None true = (a', Ok br) /\ nth 1 (r_D (br_all br)) 0 = 1.
Proof.
  destruct (ffd_core gl ill q) as (o & Ho).
  destruct (analyze_total_ok gl ill (ffd [Row 1 1 [q]]) (fun _ => []) None true o [(0%Z, LUDL q)] Ho) as (a' & br & E & EP & ED).
  - reflexivity.
  - exact (ffd_wf gl q).
  - reflexivity.
  - intros i mb Hi E. destruct (ff_member i mb E) as (_ & _ & A & B & _). auto.
  - intros i mb Hi E. cbn in Hi. replace i with 0%nat by lia. cbn. eexists. reflexivity.
  - exists a', br. split; [exact E|].
    assert (Z : br_D br 0%nat = 1).
    { rewrite ED. destruct (analyze_core gl ill (ffd [Row 1 1 [q]]) None true) as [a1 r] eqn:EC. cbn in Ho. subst r.
      destruct (analyze_equilibrium _ _ _ _ _ _ _ EC) as (ef & _ & Q). specialize (Q 0%nat ltac:(cbn; lia)). exact Q. }
    destruct (analyze_split _ _ _ _ _ _ _ _ E) as (o' & EC & Hv & EL & _).
    destruct (analyze_core_state _ _ _ _ _ _ _ EC) as (EB & _). rewrite EB in Hv.
    destruct (member_analysis_spec _ _ _ _ _ _ _ Hv) as (ls & Hls & Hlen & Hs).
    destruct (Hs 0%nat ltac:(cbn; lia)) as (mb & f & r0 & (Hm & _) & Hr). set (r := shift_x _ r0) in Hr. clearbody r.
    destruct (ff_member 0 mb Hm) as (_ & Sm & _ & Kf & HL & Ht).
    assert (P0 : (0 < an_npts a')%nat) by (rewrite EP; cbn; lia).
    destruct (analyze_recovered gl ill _ _ _ _ _ _ 0 r mb [(0%Z, LUDL q)] E P0 Hm ltac:(lra) Kf eq_refl Hr) as (_ & _ & _ & _ & D0 & _).
    change (2 * 0)%nat with 0%nat in D0. rewrite Z in D0. rewrite EL. cbn [mres_concat r_D].
    assert (L1 : (length (br_mem br) = 1)%nat) by (rewrite Hlen; reflexivity).
    destruct (br_mem br) as [|r' [|]]; try discriminate. cbn in Hr. injection Hr as ->. cbn [flat_map]. rewrite app_nil_r. exact D0.
Qed.

Definition one_case : list lcase := [{| lc_name := "down"; lc_loads := [Row 1 1 [2]]; lc_pos := None |}]%string.
Lemma settled_combination : exists t cs f xs y br, (forall c, In c cs -> Forall wf_row (lc_loads c)) /\
  lcs_combine sample_gl (fun _ _ => false) t cs (FSeq f) "D" = Ok (xs, F1 y) /\
  analyze_combination sample_gl (fun _ _ => false) t cs (FSeq f) None = Ok br /\ r_D (br_all br) <> y.
Proof.
  set (gl := sample_gl). set (ill := fun (_ : nat) (_ : mat) => false).
  destruct (ffd_results gl ill 2) as (a0 & b0 & E0 & D0). destruct (ffd_results gl ill (2 * 2)) as (a1 & b1 & E1 & D1).
  exists ffd_template, one_case, [2], (r_x (br_all b0)), (matvec [2] [r_D (br_all b0)]), b1. split; [|split; [|split]].
  - intros c [<-|[]]. constructor; [|constructor]. cbn. left. split; [reflexivity|]. apply le_n.
  - apply combine_1; [|reflexivity]. unfold collect_responses, one_case. cbn [foldM lc_loads]. unfold analyse_load_case. change (response_of "D") with (Some RespD). cbv beta iota.
    unfold analyse_loads. cbn [ffd_template t_beam t_npts]. rewrite ffd_build. cbn [rbind]. rewrite E0. reflexivity.
  - unfold analyze_combination, combined_loads, one_case. cbn [lcs_factors length Nat.eqb negb rbind combine foldM fst snd lc_loads].
    destruct (Reqb_spec 2 0) as [Q|_]; [lra|]. change (factor_LM [Row 1 1 [2]] 2) with (Ok [Row 1 1 [2 * 2]]). cbn [rbind app]. unfold analyse_loads. cbn [ffd_template t_beam t_npts].
    rewrite ffd_build. cbn [rbind]. rewrite E1. reflexivity.
  - intros Q. assert (X := f_equal (fun l => nth 1 l 0) Q). cbv beta in X. rewrite D1 in X.
    destruct (Nat.lt_ge_cases 1 (cols [r_D (br_all b0)])) as [Hc|Hc].
    + rewrite matvec_nth in X by exact Hc. unfold dot, column, lsum in X. cbn [map combine fst snd fold_right] in X. rewrite D0 in X. lra.
    + cbn [cols hd] in Hc. rewrite nth_overflow in D0 by exact Hc. lra.
Qed.
Lemma two_combination gl ill : gauss_rule gl -> exists xs y, lcs_combine gl ill ff_template two_cases (FMap [(KName "up", 2); (KIdx 0, -1)]%string) "M" = Ok (xs, F1 y) /\
  no_settlement (t_beam ff_template) /\ forall c, In c two_cases -> Forall wf_row (lc_loads c).
Proof.
  intros G. destruct (two_collect gl ill G) as (xs & y0 & y1 & E & _).
  exists xs, (matvec [-1; 2] [y0; y1]). split; [|split].
  - unfold lcs_combine. rewrite E. reflexivity.
  - intros i. left. apply ff_prescribed.
  - intros c [<-|[<-|[]]]; (constructor; [|constructor]); cbn; left; (split; [reflexivity|]); apply le_n.
Qed.

(** Rotations and deflections of released members under imposed curvature: a propped member
    under a uniform load and an imposed curvature, five stations. *)
Definition fp_beam (lm : list row) : beam :=
  {| b_lengths := [6]; b_EIs := [RConst 2]; b_GAv := [None]; b_kf := [None];
     b_types := [2%nat]; b_nspans := 1; b_length := 0 + 6; b_terminal := [0; 0 + 6];
     b_R := [-1; -1; -1; -1]; b_D := [None; None; None; None]; b_LM := lm; b_version := 1 |}.
Definition fp (lm : list row) : analysis :=
  {| an_beam := fp_beam lm; an_n := 1; an_npts := 100; an_checked := None; an_out := None |}.
Definition fp_template : template := {| t_beam := fp_beam []; t_npts := Some 4%nat |}.
Definition fp_mb : member := {| mb_L := 6; mb_EI := RConst 2; mb_GAv := None; mb_kf := None; mb_type := 2 |}.
Lemma fp_build lm : build_model (fp_beam []) lm = Ok (fp lm).
Proof. reflexivity. Qed.
Lemma fp_member lm i mb : member_at (fp_beam lm) i = Ok mb -> i = 0%nat /\ mb = fp_mb.
Proof. destruct i as [|i]; cbn; intros H; [injection H as <-; auto|destruct i; discriminate]. Qed.
Lemma fp_fixed lm i : (i < 4)%nat -> bcv (fp_beam lm) i = Some 0.
Proof.
  intros Hi. do 4 (destruct i as [|i]; [unfold bcv, prescribed, restraint; cbn; destruct (Rlt_dec (-1) 0); [reflexivity|lra]|]). lia.
Qed.
Lemma fp_core gl ill lm : well_formed gl (fp_beam lm) 1 -> exists o, snd (analyze_core gl ill (fp lm) (Some 4%nat) true) = Ok o.
Proof.
  intros W. destruct (well_formed_system _ _ _ W) as (kb & rf & S). rewrite core_npts.
  apply (core_total gl ill (fp lm) true kb rf S).
  - cbn. lia.
  - cbn. lia.
  - intros i Hi (C & _). cbn [an_beam fp] in C. change (restraint (fp_beam lm) i) with (restraint ff_beam i) in C. rewrite ff_restraint in C by (cbn in Hi; lia). lra.
  - intros y Hy i Hi. specialize (Hy i Hi). cbn [an_beam fp] in Hy. rewrite fp_fixed in Hy by (cbn in Hi; lia). exact Hy.
  - right. destruct S as [Hk _]. destruct (an_assemble_total gl (fp_beam lm) 1 kb Hk ltac:(cbn; lia)) as (k & EA & _).
    exists k. split; [exact EA|]. unfold check_stability. cbn [an_beam fp fp_beam b_R b_D].
    assert (F : free_dofs [-1; -1; -1; -1] [None; None; None; None] (seq 0 (2 * (an_n (fp lm) + 1))) = Ok []).
    { cbn [fp an_n Nat.add Nat.mul seq]. cbn. unfold Rltb. destruct (Rlt_dec (-1) 0); [reflexivity|lra]. }
    rewrite F. reflexivity.
Qed.
Lemma fp_results gl ill lm ls cs : well_formed gl (fp_beam lm) 1 -> parsed_loads (fp_beam lm) = Ok ls ->
  mapM (fun ld => get_cnl gl ld 6) (loads_of ls 0) = Ok cs ->
  exists a' br r0 f, analyze gl ill (fp lm) (fun _ => []) (Some 4%nat) true = (a', Ok br) /\ r_D (br_all br) = r_D r0 /\
    member_forces gl (fp_beam lm) (fun _ => 0) 0 = Ok f /\ member_values gl fp_mb (loads_of ls 0) f (fun _ => 0) 4 [] = Ok r0 /\
    recovered fp_mb (loads_of ls 0) 0 0 0 0 (shift_x 0 r0).
Proof.
  intros W Hls Hcs. destruct (fp_core gl ill lm W) as (o & Ho).
  destruct (analyze_total_ok gl ill (fp lm) (fun _ => []) (Some 4%nat) true o ls Ho) as (a' & br & E & EP & ED).
  - reflexivity.
  - exact W.
  - exact Hls.
  - intros i mb Hi E. destruct (fp_member lm i mb E) as (_ & ->). split; [|reflexivity]. split; [eexists; reflexivity|left; reflexivity].
  - intros i mb Hi E. destruct (fp_member lm i mb E) as (-> & ->). exists cs. exact Hcs.
  - cbn [Nat.ltb Nat.leb] in EP.
    assert (Z : forall j, (j < 4)%nat -> br_D br j = 0).
    { rewrite ED. destruct (analyze_core gl ill (fp lm) (Some 4%nat) true) as [a1 r] eqn:EC. cbn in Ho. subst r.
      destruct (analyze_equilibrium _ _ _ _ _ _ _ EC) as (ef & _ & Q). intros j Hj. specialize (Q j ltac:(cbn; lia)).
      cbn [an_beam fp] in Q. change (prescribed (fp_beam lm) j) with (prescribed ff_beam j) in Q. change (restraint (fp_beam lm) j) with (restraint ff_beam j) in Q.
      rewrite ff_prescribed, ff_restraint in Q by exact Hj. destruct (Rlt_dec (-1) 0); [exact Q|lra]. }
    destruct (analyze_split _ _ _ _ _ _ _ _ E) as (o' & EC & Hv & EL & ED' & _).
    destruct (analyze_core_state _ _ _ _ _ _ _ EC) as (EB & _). rewrite EB in Hv.
    destruct (member_analysis_spec _ _ _ _ _ _ _ Hv) as (ls' & Hls' & Hlen & Hs). cbn [an_beam fp] in *. rewrite Hls in Hls'. injection Hls' as <-.
    destruct (Hs 0%nat ltac:(cbn; lia)) as (mb & f & r0 & (Hm & _ & Hf & Hr0) & Hr).
    destruct (fp_member lm 0 mb Hm) as (_ & ->). unfold member_results in Hr0. cbn [mb_kf fp_mb] in Hr0. rewrite EP in Hr0.
    rewrite <- ED' in *.
    assert (FE : member_forces gl (fp_beam lm) (fun _ => 0) 0 = Ok f).
    { rewrite <- Hf. unfold member_forces. destruct (parsed_loads _); [|reflexivity]. cbn [rbind]. destruct (member_at _ _); [|reflexivity]. cbn [rbind].
      destruct (span_k _ _); [|reflexivity]. cbn [rbind]. destruct (span_ref _ _ _); [|reflexivity]. cbn [rbind]. f_equal. apply functional_extensionality. intros p.
      unfold mulmv. cbn [rsum Nat.mul Nat.add]. rewrite !Z by lia. reflexivity. }
    assert (VE : member_values gl fp_mb (loads_of ls 0) f (fun _ => 0) 4 [] = Ok r0).
    { rewrite <- Hr0. unfold member_values. cbn [Nat.mul Nat.add]. rewrite !Z by lia. reflexivity. }
    exists a', br, r0, f. split; [exact E|]. split; [|split; [exact FE|split; [exact VE|]]].
    + rewrite EL. cbn [mres_concat r_D]. assert (L1 : (length (br_mem br) = 1)%nat) by (rewrite Hlen; reflexivity).
      destruct (br_mem br) as [|r' [|]]; try discriminate. cbn in Hr. injection Hr as ->. cbn [flat_map]. rewrite app_nil_r. reflexivity.
    + apply recovered_shift. exact (member_values_recovered _ _ _ _ _ _ _ _ VE ltac:(cbn; lra) ltac:(lia)).
Qed.
Definition cf_cases : list lcase :=
  [{| lc_name := "load"; lc_loads := [Row 1 1 [2]]; lc_pos := None |};
   {| lc_name := "heat"; lc_loads := [Row 1 6 [1]]; lc_pos := None |}]%string.
Lemma fp_imposed_end ls r0 f : member_values sample_gl fp_mb (loads_of ls 0) f (fun _ => 0) 4 [] = Ok r0 -> recovered fp_mb (loads_of ls 0) 0 0 0 0 (shift_x 0 r0) ->
  (forall x, imposed (loads_of ls 0) x <> 0) -> nth 5 (r_D r0) 0 = 0.
Proof.
  intros HV (c & g & _ & _ & _ & _ & H) HI.
  assert (X : r_x r0 = stations 6 4 []).
  { unfold member_values in HV. apply rbind_ok in HV as (cs & _ & HV). cbn [rigid_at fp_mb mb_EI rbind mb_GAv] in HV. injection HV as <-. cbn [r_x].
    assert (G : forall l r, r_x (fold_left (fun r ld => mres_add r (get_mbr_results ld (stations (mb_L fp_mb) 4 []) (mb_L fp_mb))) l r) = r_x r) by (induction l; intros; cbn [fold_left]; [reflexivity|]; rewrite IHl; reflexivity).
    rewrite G. reflexivity. }
  assert (LX : length (r_x (shift_x 0 r0)) = 7%nat) by (cbn [shift_x r_x]; rewrite map_length, X; reflexivity). rewrite LX in H.
  apply H; [cbn; lia|]. right. right. exists 0. split; [|apply HI]. apply in_map_iff. exists (0 + 0). split; [ring|]. cbn [shift_x r_x]. apply in_map_iff. exists 0. split; [ring|].
  rewrite X. cbn. left. field.
Qed.
Lemma imposed_combination : exists t cs f xs y br, no_settlement (t_beam t) /\ (forall c, In c cs -> Forall wf_row (lc_loads c)) /\
  lcs_combine sample_gl (fun _ _ => false) t cs (FSeq f) "D" = Ok (xs, F1 y) /\
  analyze_combination sample_gl (fun _ _ => false) t cs (FSeq f) None = Ok br /\ r_D (br_all br) <> y.
Proof.
  set (gl := sample_gl). set (ill := fun (_ : nat) (_ : mat) => false).
  assert (WF : forall lm, (exists ls mb k r, parsed_loads (fp_beam lm) = Ok ls /\ member_at (fp_beam lm) 0 = Ok mb /\ span_k gl mb = Ok k /\ span_ref gl mb (loads_of ls 0) = Ok r) -> well_formed gl (fp_beam lm) 1).
  { intros lm (ls & mb & k & r & A & B & C & D). split; [cbn; lia|]. split; [cbn; lia|]. exists ls. split; [exact A|]. intros m Hm. replace m with 0%nat by lia. exists mb, k, r. auto. }
  set (A := [Row 1 1 [2]]). set (B := [Row 1 6 [1]]). set (C := [Row 1 1 [1 * 2]; Row 1 6 [1 * 1]]).
  destruct (fp_results gl ill A [(0%Z, LUDL 2)] _ ltac:(apply WF; do 4 eexists; repeat (split; [reflexivity|]); reflexivity) eq_refl eq_refl) as (aA & bA & rA & fA & EA & DA & FA & VA & _).
  destruct (fp_results gl ill B [(0%Z, LIC [1] (Some (RConst 2)))] _ ltac:(apply WF; do 4 eexists; repeat (split; [reflexivity|]); reflexivity) eq_refl eq_refl) as (aB & bB & rB & fB & EB & DB & FB & VB & RB).
  destruct (fp_results gl ill C [(0%Z, LUDL (1 * 2)); (0%Z, LIC [1 * 1] (Some (RConst 2)))] _ ltac:(apply WF; do 4 eexists; repeat (split; [reflexivity|]); reflexivity) eq_refl eq_refl) as (aC & bC & rC & fC & EC & DC & FC & VC & RC).
  assert (NA : nth 5 (r_D (br_all bA)) 0 <> 0).
  { rewrite DA. clear -FA VA.
    assert (F1 : fA 1%nat = 9 /\ fA 3%nat = 0) by (apply ok_inj in FA; rewrite <- FA; cbn; split; field). destruct F1 as [F1 F3]. clear FA. revert VA.
    unfold member_values. change (loads_of [(0%Z, LUDL 2)] 0) with [LUDL 2]. cbn [mb_L fp_mb mb_EI mb_GAv mb_type]. cbn [mapM get_cnl rbind rigid_at]. intros VA. apply ok_inj in VA. rewrite <- VA. clear VA. rewrite F1, F3.
    assert (K : nonzero (map (fun x : R => fold_left (fun (s : R) (ld : load) => match ld with LIC k _ => s + kappa_imp k x | _ => s end) [LUDL 2] 0) (stations 6 4 [])) = false).
    { cbn. unfold Reqb. destruct (Req_EM_T 0 0); [reflexivity|congruence]. }
    rewrite K. cbn. lra. }
  assert (NB : nth 5 (r_D (br_all bB)) 0 = 0).
  { rewrite DB. apply (fp_imposed_end _ _ _ VB RB). intros x. cbn. lra. }
  assert (NC : nth 5 (r_D (br_all bC)) 0 = 0).
  { rewrite DC. apply (fp_imposed_end _ _ _ VC RC). intros x. cbn. lra. }
  assert (S := shared_stations _ _ _ _ _ _ _ _ _ _ _ _ _ _ _ EA EB).
  exists fp_template, cf_cases, [1; 1], (r_x (br_all bA)), (matvec [1; 1] [r_D (br_all bA); r_D (br_all bB)]), bC. split; [|split; [|split; [|split]]].
  - intros i. left. apply ff_prescribed.
  - intros c [<-|[<-|[]]]; (constructor; [|constructor]); cbn; [left|right; right; right; right; right]; (split; [reflexivity|]); apply le_n.
  - apply combine_1; [|reflexivity]. unfold collect_responses, cf_cases. cbn [foldM lc_loads]. unfold analyse_load_case. change (response_of "D") with (Some RespD). cbv beta iota.
    unfold analyse_loads. cbn [fp_template t_beam t_npts]. rewrite !fp_build. cbn [rbind]. fold A B. rewrite EA, EB. cbn -[allclose].
    assert (X : r_x (br_all bB) = r_x (br_all bA)).
    { symmetry. apply S; try reflexivity. destruct (analyze_split _ _ _ _ _ _ _ _ EA) as (? & H1 & _), (analyze_split _ _ _ _ _ _ _ _ EB) as (? & H2 & _).
      destruct (analyze_core_state _ _ _ _ _ _ _ H1) as (_ & _ & _ & ->), (analyze_core_state _ _ _ _ _ _ _ H2) as (_ & _ & _ & ->). reflexivity. }
    rewrite X, allclose_refl. reflexivity.
  - unfold analyze_combination, combined_loads, cf_cases. cbn [lcs_factors length Nat.eqb negb rbind combine foldM fst snd lc_loads].
    destruct (Reqb_spec 1 0) as [Q|_]; [lra|]. change (factor_LM [Row 1 1 [2]] 1) with (Ok [Row 1 1 [1 * 2]]). change (factor_LM [Row 1 6 [1]] 1) with (Ok [Row 1 6 [1 * 1]]). cbn [rbind app]. unfold analyse_loads. cbn [fp_template t_beam t_npts].
    rewrite fp_build. cbn [rbind]. fold C. rewrite EC. reflexivity.
  - intros Q. assert (X := f_equal (fun l => nth 5 l 0) Q). cbv beta in X. rewrite NC in X.
    destruct (Nat.lt_ge_cases 5 (cols [r_D (br_all bA); r_D (br_all bB)])) as [Hc|Hc].
    + rewrite matvec_nth in X by exact Hc. unfold dot, column, lsum in X. cbn [map combine fst snd fold_right] in X. rewrite NB in X. lra.
    + cbn [cols hd] in Hc. apply NA. rewrite nth_overflow by exact Hc. reflexivity.
Qed.
Lemma diagrams_example : exists a1 r1, analyze sample_gl (fun _ _ => false) (with_beam (ffq 0) (set_loads (an_beam (ffq 0)) [Row 1 1 [2]])) (fun _ => []) None true = (a1, Ok r1) /\
  read_at 6 (r_x (br_all r1)) (r_M (br_all r1)) = -6 /\
  an_n (ffq 0) = b_nspans (an_beam (ffq 0)) /\ members (an_beam (ffq 0)) (an_n (ffq 0)) (fun mb => mb_kf mb = None) /\ no_settlement (an_beam (ffq 0)).
Proof.
  destruct (ffq_results sample_gl (fun _ _ => false) 2 ConstSectFacts.gauss2_rule) as (a' & br & E & _ & _ & R).
  exists a', br. split; [exact E|]. split; [rewrite R; lra|]. split; [reflexivity|]. split.
  - intros i mb _ Em. apply (ff_member i mb Em).
  - intros i. left. apply ff_prescribed.
Qed.
Lemma factors_of_mapping cs m : unique_names cs ->
  (forall out, lcs_factors cs (FMap m) = Ok (F1 out) -> length out = length cs /\ forall j, (j < length cs)%nat -> mapped_factor cs m j (nth j out 0)) /\
  ((exists e, lcs_factors cs (FMap m) = Err e) <-> exists k v, In (k, v) m /\ forall j, (j < length cs)%nat -> ~ names_case cs k j).
Proof.
  intros U. cbn [lcs_factors]. split.
  - intros out H. apply rbind_ok in H as (o & Ho & H). injection H as <-. exact (map_factors_ok cs m o U Ho).
  - rewrite <- (map_factors_err cs m U). destruct (map_factors cs m) as [o|e]; cbn [rbind]; split; intros (e' & He); try discriminate; eauto.
Qed.
