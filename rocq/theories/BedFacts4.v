(** Instances for the theorems about members on an elastic foundation. *)
From Coquelicot Require Import Coquelicot.
From Coq Require Import Lia Permutation.
From Verif Require Import Base BaseFacts Linalg SectionModel FlexModel LoadModel LoadSpec FoundationModel ElementModel ElementSpec UtilsModel
  BeamModel AnalysisModel AnalysisSpec AnalysisFacts3 FoundSpec FoundFacts FoundFacts4 ResultsModel ResultsSpec ResultsFacts BedSpec BedFacts BedFacts2 BedFacts3.
Open Scope R_scope.

(** The tabulated shear and moment jump at the mesh nodes by the subgrade reaction lumped there. *)
Lemma node_jump (n : nat) (EI kf h : R) (refs : nat -> vec) (dr d : vec) (j p : nat) : mesh_state n (bed_stiffness EI kf h) refs dr d -> (1 <= j < n)%nat -> (p < 2)%nat ->
  sub_force (k_ebeam EI h) refs d (j - 1) (2 + p)%nat + sub_force (k_ebeam EI h) refs d j p =
  - (end_forces (k_found kf h) (ends d (j - 1)) (2 + p)%nat + end_forces (k_found kf h) (ends d j) p).
Proof.
  intros (_ & _ & _ & _ & H) Hj Hp. specialize (H j p Hj Hp). unfold sub_force in *. rewrite !bed_split in H by lia. lra.
Qed.

Definition long_member : member := {| mb_L := 1000; mb_EI := RConst 1000000000000; mb_GAv := None; mb_kf := Some 4; mb_type := 1 |}.
Lemma long_winkler : winkler long_member 1000000000000 4.
Proof. unfold winkler, long_member. cbn. repeat apply conj; try reflexivity; lra. Qed.
Lemma long_size : mesh_size long_member 1000000000000 4 = 8%nat.
Proof.
  unfold mesh_size, auto_subdivisions, characteristic_length. cbn [long_member mb_L].
  replace (4 * 1000000000000 / 4) with (1000000 * 1000000) by lra. rewrite sqrt_square by lra.
  replace 1000000 with (1000 * 1000) by lra. rewrite sqrt_square by lra.
  unfold Zceil. rewrite (int_part_is (- (8 * 1000 / 1000)) (-8)%Z) by lra. reflexivity.
Qed.
Lemma long_step : mesh_step long_member 1000000000000 4 = 125.
Proof. unfold mesh_step. rewrite long_size. cbn. lra. Qed.

Lemma snapped : exists m EI kf ld e sl x, winkler m EI kf /\ within_member (mb_L m) ld /\ bed_load (mb_L m) ld /\
  (e < mesh_size m EI kf)%nat /\ sub_loads (the_mesh m EI kf) [ld] e = Ok sl /\ 0 < x < mesh_step m EI kf /\
  intensity (actions (mesh_step m EI kf) sl) x <> intensity (action_of (mb_L m) ld) (INR e * mesh_step m EI kf + x).
Proof.
  exists long_member, 1000000000000, 4, (LPUDL 1 875.005 124.995), 7%nat, [LUDL 1], 0.004.
  split; [exact long_winkler|]. split; [unfold within_member, on_member; cbn [long_member mb_L]; lra|]. split; [exact I|].
  rewrite long_size, long_step. split; [lia|]. split.
  - unfold sub_loads. cbn [mapM sub_load]. assert (Eh : fe_h (the_mesh long_member 1000000000000 4) = 125) by exact long_step. rewrite Eh. cbv zeta.
    cbn [the_mesh fe_L long_member mb_L]. replace (INR 7) with 7 by (cbn; lra).
    rewrite (Rmax_left 875.005) by lra. rewrite (Rmin_left (875.005 + 124.995)) by lra.
    destruct (Rltb_spec (1e-12 * 1000) (875.005 + 124.995 - 875.005)) as [_|Q]; [|exfalso; lra]. unfold isclose.
    destruct (Rleb_spec (Rabs (875.005 - 7 * 125)) (1e-8 + 1e-5 * Rabs (7 * 125))) as [_|Q]; [|exfalso; rewrite (Rabs_pos_eq (875.005 - 7 * 125)), (Rabs_pos_eq (7 * 125)) in Q by lra; lra].
    destruct (Rleb_spec (Rabs (875.005 + 124.995 - (7 + 1) * 125)) (1e-8 + 1e-5 * Rabs ((7 + 1) * 125))) as [_|Q]; [|exfalso; rewrite (Rabs_pos_eq (875.005 + 124.995 - (7 + 1) * 125)), (Rabs_pos_eq ((7 + 1) * 125)) in Q by lra; lra].
    reflexivity.
  - split; [lra|]. cbn [actions fold_right action_plus action_of intensity no_action]. replace (INR 7) with 7 by (cbn; lra). destruct (Rlt_dec (7 * 125 + 0.004) 875.005) as [_|Q]; [|lra]. lra.
Qed.

(** A free beam on the subgrade, loaded everywhere and at a point. *)
Definition bed_beam : beam :=
  {| b_lengths := [1000]; b_EIs := [RConst 1000000000000]; b_GAv := [None]; b_kf := [Some 4];
     b_types := [1%nat]; b_nspans := 1; b_length := 0 + 1000; b_terminal := [0; 0 + 1000];
     b_R := [0; 0; 0; 0]; b_D := [None; None; None; None]; b_LM := [Row 1 1 [2]; Row 1 2 [7; 300]; Row 1 3 [5; 125; 300]]; b_version := 1 |}.
Definition bed_an : analysis :=
  {| an_beam := bed_beam; an_n := 1; an_npts := 100; an_checked := None; an_out := None |}.
Definition bed_ctor : ctor := {| ct_L := [1000]; ct_EI := EIAll (RConst 1000000000000); ct_R := Some [0; 0; 0; 0]; ct_LM := Some [Row 1 1 [2]; Row 1 2 [7; 300]; Row 1 3 [5; 125; 300]];
     ct_types := [EtNum [1%Z]]; ct_D := None; ct_sup := None; ct_GAv := GNone; ct_kf := KAll 4 |}.
Definition bed_loads : list load := [LUDL 2; LPL 7 300; LPUDL 5 125 300].
Lemma bed_init : analysis_init bed_ctor = Ok bed_an.
Proof. reflexivity. Qed.
Lemma bed_at i mb : member_at bed_beam i = Ok mb -> i = 0%nat /\ mb = long_member.
Proof. intros E. destruct i as [|i]; [|destruct i; discriminate]. cbv in E. injection E as <-. split; reflexivity. Qed.
Lemma bed_at0 : member_at bed_beam 0 = Ok long_member.
Proof. reflexivity. Qed.
Lemma bed_parsed : parsed_loads bed_beam = Ok [(0%Z, LUDL 2); (0%Z, LPL 7 300); (0%Z, LPUDL 5 125 300)].
Proof. reflexivity. Qed.
Lemma bed_accepted : Forall (bed_load 1000) bed_loads.
Proof. repeat constructor; cbn; lra. Qed.
Lemma bed_meshed : Forall (meshed_load 8 125) bed_loads.
Proof.
  unfold bed_loads. constructor; [exact I|]. constructor; [cbn; lra|]. constructor; [|constructor]. cbn [meshed_load]. split; [cbn; lra|]. split.
  - left. exists 1%nat. split; [lia|]. cbn. lra.
  - right. intros j Hj. assert (D : INR j * 125 <= 375 \/ 500 <= INR j * 125).
    { destruct (Nat.le_gt_cases j 3) as [Q|Q]; [left|right].
      - apply le_INR in Q. cbn [INR] in Q. lra.
      - assert (Q' : (4 <= j)%nat) by lia. apply le_INR in Q'. cbn [INR] in Q'. lra. }
    assert (B : 0 <= INR j * 125 <= 1000) by (assert (Q := pos_INR j); assert (Q' := le_INR _ _ Hj); cbn [INR] in Q'; lra).
    change (INR 8) with (1 + 1 + 1 + 1 + 1 + 1 + 1 + 1). destruct D as [D|D].
    + rewrite Rabs_right by lra. lra.
    + rewrite Rabs_left by lra. lra.
Qed.
Lemma bed_wf gl : well_formed gl bed_beam 1.
Proof.
  split; [cbn; lia|]. split; [cbn; lia|]. eexists; split; [exact bed_parsed|]. intros m Hm. replace m with 0%nat by lia.
  destruct (bed_total gl long_member 1000000000000 4 long_winkler) as ((k & Ek) & T). destruct (T bed_loads bed_accepted) as (_ & (r & Er) & _).
  exists long_member, k, r. split; [exact bed_at0|]. split; [exact Ek|exact Er].
Qed.
Lemma bed_core gl ill : exists o, snd (analyze_core gl ill bed_an None false) = Ok o.
Proof.
  destruct (MechFacts.well_formed_system gl _ _ (bed_wf gl)) as (kb & rf & S).
  apply (AnalysisFacts2.core_total gl ill bed_an false kb rf S).
  - cbn. lia.
  - cbn. lia.
  - intros i Hi (C & _). unfold restraint in C. cbn [an_beam bed_an bed_beam b_R] in C. destruct i as [|[|[|[|i]]]]; cbn in C; try lra. cbn in Hi. lia.
  - cbn [an_beam an_n bed_an]. intros y Hy. destruct S as [Sk _]. destruct (Sk 0%nat ltac:(cbn; lia)) as (mb & Em & Ek). cbn [an_beam bed_an] in Em. destruct (bed_at _ _ Em) as (_ & ->).
    assert (Z : forall i, (i < 4)%nat -> end_forces (kb 0%nat) y i = 0).
    { intros i Hi. specialize (Hy i ltac:(cbn; lia)). unfold AnalysisFacts.bcv in Hy.
      assert (P : prescribed bed_beam i = None) by (unfold prescribed; cbn; destruct i as [|[|[|[|i]]]]; try reflexivity; destruct i; reflexivity).
      assert (Rt : restraint bed_beam i = 0) by (unfold restraint; cbn; destruct i as [|[|[|[|i]]]]; try reflexivity; destruct i; reflexivity).
      rewrite P, Rt in Hy. destruct (Rlt_dec 0 0) as [Q|_]; [lra|]. rewrite <- Hy. change (2 * (1 + 1))%nat with 4%nat. unfold end_forces, mulmv. apply rsum_ext. intros j Hj. f_equal.
      unfold AnalysisFacts.Kcl. cbn [rsum]. rewrite Rt. unfold AnalysisFacts.blk. destruct (Rlt_dec 0 0) as [Q|_]; [lra|].
      destruct (Nat.eqb i j); destruct i as [|[|[|[|i]]]]; try lia; destruct j as [|[|[|[|j]]]]; try lia; cbn; ring. }
    intros i Hi. destruct (Req_dec (y i) 0) as [E|E]; [exact E|exfalso].
    assert (P := k_pos gl long_member 1000000000000 4 long_winkler _ Ek y (ex_intro _ i (conj Hi E))).
    assert (E0 : energy (kb 0%nat) y = 0). { unfold energy. cbn [rsum]. rewrite !Z by lia. ring. }
    lra.
  - left. reflexivity.
Qed.
Lemma bed_results gl ill sps : exists a' br e r, analyze gl ill bed_an sps None false = (a', Ok br) /\ an_npts a' = 100%nat /\
  member_forces gl bed_beam (br_D br) 0 = Ok e /\ nth_error (br_mem br) 0 = Some r.
Proof.
  destruct (bed_core gl ill) as (o & Ho). unfold analyze. destruct (analyze_core gl ill bed_an None false) as [a1 rr] eqn:E. cbn in Ho. subst rr.
  destruct (analyze_core_state _ _ _ _ _ _ _ E) as (EB & EN & EF & EP). cbn [an_beam bed_an] in EB.
  destruct (bed_total gl long_member 1000000000000 4 long_winkler) as ((k & Ek) & T). destruct (T bed_loads bed_accepted) as ((rs & Hl) & (r & Er) & Td).
  assert (MF : exists e, member_forces gl bed_beam (o_d o) 0 = Ok e).
  { unfold member_forces. rewrite bed_parsed. cbn [rbind]. rewrite bed_at0. cbn [rbind]. rewrite Ek. cbn [rbind]. change (loads_of _ 0) with bed_loads. rewrite Er. cbn [rbind]. eauto. }
  destruct MF as (e & Me).
  assert (MR : exists r, member_results gl long_member bed_loads e (fun q => o_d o (2 * 0 + q)%nat) (an_npts a1) (sps 0%nat) = Ok r).
  { unfold member_results. cbn [long_member mb_kf]. assert (W := long_winkler). fold long_member. rewrite (is_mesh long_member 1000000000000 4 W). cbn [rbind].
    unfold fe_recover. assert (Q := Hl). apply (refs_are gl long_member 1000000000000 4) in Q. rewrite Q. cbn [rbind]. destruct (Td (fun q => o_d o (2 * 0 + q)%nat)) as (d & ->). cbn [rbind].
    assert (Mp : forall l, exists per, mapM (fun e => sub_loads (the_mesh long_member 1000000000000 4) bed_loads e) l = Ok per).
    { induction l as [|i l (per & IH)]; [exists []; reflexivity|]. cbn [mapM].
      destruct (subs_total (the_mesh long_member 1000000000000 4) (mesh_n _ _ _) (mesh_L _ _ _ long_winkler) bed_loads i bed_accepted) as (sl & -> & _). cbn [rbind]. rewrite IH. cbn [rbind]. eauto. }
    destruct (Mp (seq 0 (fe_n (the_mesh long_member 1000000000000 4)))) as (per & ->). cbn [rbind]. eauto. }
  destruct MR as (r0 & Mr).
  assert (MA : member_analysis gl bed_beam (o_d o) (an_ndof bed_an) (an_npts a1) sps = Ok [shift_x 0 r0]).
  { unfold member_analysis. rewrite bed_parsed. cbn [rbind]. change (seq 0 (b_nspans bed_beam)) with [0%nat]. cbn [foldM]. rewrite bed_at0. cbn [rbind]. change (Nat.ltb (an_ndof bed_an) (2 * 0 + 4)) with false. cbv iota.
    rewrite Me. cbn [rbind]. change (loads_of _ 0) with bed_loads. rewrite Mr. cbn [rbind]. reflexivity. }
  exists a1. unfold beam_results. rewrite EB, EF, MA. cbn [rbind]. eexists. exists e, (shift_x 0 r0). split; [reflexivity|]. split; [rewrite EP; reflexivity|]. split; [exact Me|reflexivity].
Qed.
