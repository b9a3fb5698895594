(** Proofs about a free beam on an elastic foundation under a uniform load. *)
From Coquelicot Require Import Coquelicot.
From Verif Require Import Base BaseFacts SectionModel LoadModel LoadSpec ElementModel ElementSpec FoundationModel UtilsModel BeamModel AnalysisModel AnalysisSpec
  AnalysisFacts3 FoundSpec FoundFacts2 FoundFacts4 ResultsModel ResultsSpec ResultsFacts BedSpec BedFacts BedFacts2 BedFacts3 BedFacts4.
Open Scope R_scope.

Section Uniform.
Variables (gl : nat -> list (R * R)) (m : member) (EI kf w : R).
Hypothesis W : winkler m EI kf.
Local Notation n := (mesh_size m EI kf).
Local Notation h := (mesh_step m EI kf).

Lemma step_pos : 0 < h. Proof. exact (hp (the_mesh m EI kf) (mesh_n m EI kf) (mesh_L m EI kf W)). Qed.

(** Uniform settlement. *)
Definition settled : vec := fun i => if Nat.even i then - w / kf else 0.
Lemma settled_ends e p : ends settled e p = settled p.
Proof. unfold ends, settled. rewrite Nat.even_add, Nat.even_mul. cbn. destruct (Nat.even p); reflexivity. Qed.

Lemma uniform_refs rs e : mesh_loads gl m EI kf [LUDL w] rs -> (e < n)%nat ->
  forall p, cnl_vec (nth e rs cnl_zero) p = cnl_vec (udl_cnl w h) p.
Proof.
  intros [_ H] He p. destruct (H e He) as (sl & E1 & E2). cbn in E1. inversion E1; subst sl. cbn in E2. inversion E2 as [X]. unfold cnl_vec, vec4. cbn.
  destruct p as [|[|[|[|p]]]]; cbn; try reflexivity; ring.
Qed.
Lemma uniform_sub rs e p : mesh_loads gl m EI kf [LUDL w] rs -> (e < n)%nat -> (p < 4)%nat ->
  sub_force (bed_stiffness EI kf h) (fun e => cnl_vec (nth e rs cnl_zero)) settled e p = 0.
Proof.
  intros H He Hp. unfold sub_force. rewrite (uniform_refs rs e H He). unfold end_forces, mulmv. cbn [rsum]. rewrite !settled_ends. unfold settled. cbn [Nat.even].
  assert (K : kf <> 0) by (destruct W as (_ & Q & _); lra). assert (Hh := step_pos). unfold bed_stiffness, cnl_vec.
  destruct p as [|[|[|[|p]]]]; [..|lia]; cbn; field; lra.
Qed.
Lemma uniform_bend rs e p : mesh_loads gl m EI kf [LUDL w] rs -> (e < n)%nat -> (p < 4)%nat ->
  sub_force (k_ebeam EI h) (fun e => cnl_vec (nth e rs cnl_zero)) settled e p = cnl_vec (udl_cnl w h) p.
Proof.
  intros H He Hp. unfold sub_force. rewrite (uniform_refs rs e H He). unfold end_forces, mulmv. cbn [rsum]. rewrite !settled_ends. unfold settled. cbn [Nat.even].
  assert (K : kf <> 0) by (destruct W as (_ & Q & _); lra). assert (Hh := step_pos). unfold cnl_vec.
  destruct p as [|[|[|[|p]]]]; [..|lia]; cbn; field; lra.
Qed.
Lemma uniform_state rs : mesh_loads gl m EI kf [LUDL w] rs -> on_mesh m EI kf rs settled settled.
Proof.
  intros H. unfold on_mesh, mesh_state. split; [reflexivity|]. split; [reflexivity|].
  split; [unfold settled; rewrite Nat.even_mul; reflexivity|]. split; [unfold settled; rewrite Nat.even_add, Nat.even_mul; reflexivity|].
  intros j p Hj Hp. rewrite !(uniform_sub rs) by (assumption || lia). ring.
Qed.
Lemma uniform_ends k r : span_k gl m = Ok k -> span_ref gl m [LUDL w] = Ok r -> forall i, (i < 4)%nat -> end_forces k settled i + r i = 0.
Proof.
  intros Hk Hr i Hi. destruct (bed_total gl m EI kf W) as (_ & T). destruct (T [LUDL w] ltac:(repeat constructor)) as ((rs & Hl) & _).
  rewrite <- (condensed gl m EI kf W _ k r rs Hk Hr Hl settled settled (uniform_state rs Hl) i Hi). unfold mesh_end_forces, mesh_ends, vec4.
  assert (Hn := mesh_n m EI kf). change (fe_n (the_mesh m EI kf)) with n in Hn.
  destruct i as [|[|[|[|i]]]]; [..|lia]; apply uniform_sub; try assumption; lia.
Qed.
End Uniform.

Lemma analyze_uniform gl ill a sps npts check a' br mb ls EI kf w :
  analyze gl ill a sps npts check = (a', Ok br) -> an_n a = 1%nat -> (forall i, (i < 4)%nat -> restraint (an_beam a) i = 0 /\ prescribed (an_beam a) i = None) ->
  member_at (an_beam a) 0 = Ok mb -> winkler mb EI kf -> parsed_loads (an_beam a) = Ok ls -> loads_of ls 0 = [LUDL w] ->
  (forall i, (i < 4)%nat -> br_D br i = vec4 (- w / kf) 0 (- w / kf) 0 i) /\
  forall r, nth_error (br_mem br) 0 = Some r -> exists bs, r = mres_concat bs /\ length bs = mesh_size mb EI kf /\
    forall e, (e < mesh_size mb EI kf)%nat -> exists bl, nth_error bs e = Some bl /\
      nth 1 (r_x bl) 0 = node_x (an_beam a) 0 + INR e * mesh_step mb EI kf /\
      nth 1 (r_M bl) 0 = - (w * mesh_step mb EI kf ^ 2 / 12) /\ nth 1 (r_V bl) 0 = w * mesh_step mb EI kf / 2 /\ nth 1 (r_D bl) 0 = - w / kf /\
      last (r_x bl) 0 = node_x (an_beam a) 0 + INR (e + 1) * mesh_step mb EI kf /\ last (r_D bl) 0 = 0.
Proof.
  intros H H1 HR Em W Hp Hls.
  assert (Hc : exists o, analyze_core gl ill a npts check = (a', Ok o) /\ br_D br = o_d o).
  { destruct (analyze_split _ _ _ _ _ _ _ _ H) as (o & Ho & _ & _ & ED & _). exists o. split; [exact Ho|exact ED]. }
  destruct Hc as (o & Hc & ED). 
  assert (D : forall i, (i < 4)%nat -> br_D br i = settled kf w i).
  { destruct (analyze_equilibrium _ _ _ _ _ _ _ Hc) as (ef & S & E). rewrite <- ED in *. destruct (S 0%nat ltac:(lia)) as (ls' & mb' & k & r & P & Q & Hk & Hr & F).
    rewrite Hp in P. inversion P; subst ls'. rewrite Em in Q. inversion Q; subst mb'. rewrite Hls in Hr.
    assert (Z : forall i, (i < 4)%nat -> ef 0%nat i = 0).
    { intros i Hi. specialize (E i ltac:(lia)). destruct (HR i Hi) as [R1 R2]. rewrite R1, R2 in E. unfold spring_force in E. rewrite R1 in E. destruct (Rlt_dec 0 0) as [X|_]; [lra|].
      unfold nodal_sum in E. rewrite H1 in E. destruct i as [|[|[|[|i]]]]; [..|lia]; cbn in E; lra. }
    set (y := fun i => br_D br i - settled kf w i).
    assert (K : forall i, (i < 4)%nat -> end_forces k y i = 0).
    { intros i Hi. assert (U := uniform_ends gl mb EI kf w W k r Hk Hr i Hi). assert (V := F i). rewrite Z in V by exact Hi.
      assert (X : end_forces k y i = end_forces k (ends (br_D br) 0) i - end_forces k (settled kf w) i) by (unfold end_forces, mulmv, y, ends; cbn [rsum Nat.mul Nat.add]; ring). lra. }
    intros i Hi. destruct (Req_dec (y i) 0) as [Y|Y]; [unfold y in Y; lra|exfalso].
    assert (P0 := k_pos gl mb EI kf W k Hk y (ex_intro _ i (conj Hi Y))). assert (E0 : energy k y = 0) by (unfold energy; cbn [rsum]; rewrite !K by lia; ring). lra. }
  split; [intros i Hi; rewrite D by exact Hi; destruct i as [|[|[|[|i]]]]; [..|lia]; reflexivity|]. intros r Hr.
  destruct (analyze_blocks gl ill a sps npts check a' br 0 r mb ls EI kf H Em W Hp ltac:(rewrite Hls; repeat constructor) Hr) as (rs & d & bs & Hl & Hd & Er & Lb & Hb).
  rewrite Hls in Hl. exists bs. split; [exact Er|]. split; [exact Lb|].
  assert (Hd' : on_mesh mb EI kf rs (settled kf w) d).
  { destruct Hd as (d0 & d1 & d2 & d3 & d4). unfold ends in d0, d1, d2, d3. cbn [Nat.mul Nat.add] in d0, d1, d2, d3. rewrite !D in * by lia. repeat apply conj; assumption. }
  assert (Ed : forall i, (i < 2 * (mesh_size mb EI kf + 1))%nat -> d i = settled kf w i).
  { intros i Hi. destruct (mesh_exists mb EI kf W rs (settled kf w)) as (d0 & _ & U). rewrite (U d Hd' i Hi). symmetry. apply U; [exact (uniform_state gl mb EI kf w W rs Hl)|exact Hi]. }
  intros e He. destruct (Hb e He) as (bl & sl & Eb & Es & B). exists bl. split; [exact Eb|].
  destruct B as [Bg Be (V & M & C & Q) Bs Bc]. set (h := mesh_step mb EI kf) in *. set (x0 := node_x (an_beam a) 0 + INR e * h) in *. set (ns := sub_intervals (an_npts a') (mesh_size mb EI kf)) in *.
  assert (Hns : (2 <= ns)%nat) by (unfold ns, sub_intervals; lia). assert (Lx := sg_count _ _ _ _ Bg). assert (X1 := sg_second _ _ _ _ Bg). destruct C as [C1 C2 C3].
  assert (Sf : forall p, (p < 4)%nat -> sub_force (k_ebeam EI h) (fun e => cnl_vec (nth e rs cnl_zero)) d e p = cnl_vec (udl_cnl w h) p).
  { intros p Hp4. refine (eq_trans _ (uniform_bend gl mb EI kf w W rs e p Hl He Hp4)). fold h. unfold sub_force, end_forces, mulmv. f_equal. apply rsum_ext. intros j Hj. f_equal. unfold ends. apply Ed. lia. }
  rewrite !Sf in Q by lia.
  assert (Sl : sl = [LUDL w]) by (rewrite Hls in Es; cbn in Es; inversion Es; reflexivity). subst sl.
  assert (Hh : 0 < h) by exact (step_pos mb EI kf W).
  destruct (C2 1%nat ltac:(lia)) as [V1 M1]. rewrite X1 in V1, M1. replace (x0 - x0) with 0 in V1, M1 by ring.
  assert (NI : forall F : R -> R, is_RInt F 0 0 0) by (intros F; exact (is_RInt_point (V := R_NormedModule) F 0)).
  assert (Un : forall F I, is_RInt F 0 0 I -> I = 0) by (intros F I HI; rewrite <- (is_RInt_unique (V := R_CompleteNormedModule) _ _ _ _ HI); exact (is_RInt_unique (V := R_CompleteNormedModule) _ _ _ _ (NI F))).
  destruct Q as [Q1 Q2 _].
  split; [exact X1|]. split; [|split; [|split; [|split]]].
  - rewrite M1. destruct (Q2 0 ltac:(lra) ltac:(intros ? []%in_nil)) as (I & HI & ->). rewrite (Un _ _ HI). cbn. unfold left_of. cbn. lra.
  - rewrite V1. destruct (Q1 0 ltac:(lra) ltac:(intros ? []%in_nil)) as (I & HI & ->). rewrite (Un _ _ HI). cbn. unfold left_of. cbn. lra.
  - destruct Bs as (_ & _ & _ & _ & D1 & _). rewrite D1. unfold ends. rewrite Ed by lia. unfold settled. rewrite Nat.add_0_r, Nat.even_mul. reflexivity.
  - assert (X := sg_last _ _ _ _ Bg). rewrite <- last_nth by (intros Y; rewrite Y in Lx; cbn in Lx; lia). rewrite Lx, X. unfold x0. rewrite plus_INR. cbn. ring.
  - destruct C1 as (_ & _ & _ & LD). rewrite <- last_nth by (intros Y; rewrite Y in LD; rewrite Lx in LD; cbn in LD; lia). rewrite LD, Lx. replace (ns + 3 - 1)%nat with (ns + 2)%nat by lia. exact (proj2 Bc).
Qed.

(** A free beam on the subgrade under a uniform load. *)
Definition flat_beam : beam :=
  {| b_lengths := [1000]; b_EIs := [RConst 1000000000000]; b_GAv := [None]; b_kf := [Some 4];
     b_types := [1%nat]; b_nspans := 1; b_length := 0 + 1000; b_terminal := [0; 0 + 1000];
     b_R := [0; 0; 0; 0]; b_D := [None; None; None; None]; b_LM := [Row 1 1 [2]]; b_version := 1 |}.
Definition flat_an : analysis :=
  {| an_beam := flat_beam; an_n := 1; an_npts := 100; an_checked := None; an_out := None |}.
Definition flat_ctor : ctor := {| ct_L := [1000]; ct_EI := EIAll (RConst 1000000000000); ct_R := Some [0; 0; 0; 0]; ct_LM := Some [Row 1 1 [2]];
     ct_types := [EtNum [1%Z]]; ct_D := None; ct_sup := None; ct_GAv := GNone; ct_kf := KAll 4 |}.
Definition flat_loads : list load := [LUDL 2].
Lemma flat_init : analysis_init flat_ctor = Ok flat_an.
Proof. reflexivity. Qed.
Lemma flat_at i mb : member_at flat_beam i = Ok mb -> i = 0%nat /\ mb = long_member.
Proof. intros E. destruct i as [|i]; [|destruct i; discriminate]. cbv in E. injection E as <-. split; reflexivity. Qed.
Lemma flat_at0 : member_at flat_beam 0 = Ok long_member.
Proof. reflexivity. Qed.
Lemma flat_parsed : parsed_loads flat_beam = Ok [(0%Z, LUDL 2)].
Proof. reflexivity. Qed.
Lemma flat_accepted : Forall (bed_load 1000) flat_loads.
Proof. repeat constructor. Qed.
Lemma flat_wf gl : well_formed gl flat_beam 1.
Proof.
  split; [cbn; lia|]. split; [cbn; lia|]. eexists; split; [exact flat_parsed|]. intros m Hm. replace m with 0%nat by lia.
  destruct (bed_total gl long_member 1000000000000 4 long_winkler) as ((k & Ek) & T). destruct (T flat_loads flat_accepted) as (_ & (r & Er) & _).
  exists long_member, k, r. split; [exact flat_at0|]. split; [exact Ek|exact Er].
Qed.
Lemma flat_core gl ill : exists o, snd (analyze_core gl ill flat_an None false) = Ok o.
Proof.
  destruct (MechFacts.well_formed_system gl _ _ (flat_wf gl)) as (kb & rf & S).
  apply (AnalysisFacts2.core_total gl ill flat_an false kb rf S).
  - cbn. lia.
  - cbn. lia.
  - intros i Hi (C & _). unfold restraint in C. cbn [an_beam flat_an flat_beam b_R] in C. destruct i as [|[|[|[|i]]]]; cbn in C; try lra. cbn in Hi. lia.
  - cbn [an_beam an_n flat_an]. intros y Hy. destruct S as [Sk _]. destruct (Sk 0%nat ltac:(cbn; lia)) as (mb & Em & Ek). cbn [an_beam flat_an] in Em. destruct (flat_at _ _ Em) as (_ & ->).
    assert (Z : forall i, (i < 4)%nat -> end_forces (kb 0%nat) y i = 0).
    { intros i Hi. specialize (Hy i ltac:(cbn; lia)). unfold AnalysisFacts.bcv in Hy.
      assert (P : prescribed flat_beam i = None) by (unfold prescribed; cbn; destruct i as [|[|[|[|i]]]]; try reflexivity; destruct i; reflexivity).
      assert (Rt : restraint flat_beam i = 0) by (unfold restraint; cbn; destruct i as [|[|[|[|i]]]]; try reflexivity; destruct i; reflexivity).
      rewrite P, Rt in Hy. destruct (Rlt_dec 0 0) as [Q|_]; [lra|]. rewrite <- Hy. change (2 * (1 + 1))%nat with 4%nat. unfold end_forces, mulmv. apply rsum_ext. intros j Hj. f_equal.
      unfold AnalysisFacts.Kcl. cbn [rsum]. rewrite Rt. unfold AnalysisFacts.blk. destruct (Rlt_dec 0 0) as [Q|_]; [lra|].
      destruct (Nat.eqb i j); destruct i as [|[|[|[|i]]]]; try lia; destruct j as [|[|[|[|j]]]]; try lia; cbn; ring. }
    intros i Hi. destruct (Req_dec (y i) 0) as [E|E]; [exact E|exfalso].
    assert (P := k_pos gl long_member 1000000000000 4 long_winkler _ Ek y (ex_intro _ i (conj Hi E))).
    assert (E0 : energy (kb 0%nat) y = 0). { unfold energy. cbn [rsum]. rewrite !Z by lia. ring. }
    lra.
  - left. reflexivity.
Qed.
Lemma flat_results gl ill sps : exists a' br e r, analyze gl ill flat_an sps None false = (a', Ok br) /\ an_npts a' = 100%nat /\
  member_forces gl flat_beam (br_D br) 0 = Ok e /\ nth_error (br_mem br) 0 = Some r.
Proof.
  destruct (flat_core gl ill) as (o & Ho). unfold analyze. destruct (analyze_core gl ill flat_an None false) as [a1 rr] eqn:E. cbn in Ho. subst rr.
  destruct (analyze_core_state _ _ _ _ _ _ _ E) as (EB & EN & EF & EP). cbn [an_beam flat_an] in EB.
  destruct (bed_total gl long_member 1000000000000 4 long_winkler) as ((k & Ek) & T). destruct (T flat_loads flat_accepted) as ((rs & Hl) & (r & Er) & Td).
  assert (MF : exists e, member_forces gl flat_beam (o_d o) 0 = Ok e).
  { unfold member_forces. rewrite flat_parsed. cbn [rbind]. rewrite flat_at0. cbn [rbind]. rewrite Ek. cbn [rbind]. change (loads_of _ 0) with flat_loads. rewrite Er. cbn [rbind]. eauto. }
  destruct MF as (e & Me).
  assert (MR : exists r, member_results gl long_member flat_loads e (fun q => o_d o (2 * 0 + q)%nat) (an_npts a1) (sps 0%nat) = Ok r).
  { unfold member_results. cbn [long_member mb_kf]. assert (W := long_winkler). fold long_member. rewrite (is_mesh long_member 1000000000000 4 W). cbn [rbind].
    unfold fe_recover. assert (Q := Hl). apply (refs_are gl long_member 1000000000000 4) in Q. rewrite Q. cbn [rbind]. destruct (Td (fun q => o_d o (2 * 0 + q)%nat)) as (d & ->). cbn [rbind].
    assert (Mp : forall l, exists per, mapM (fun e => sub_loads (the_mesh long_member 1000000000000 4) flat_loads e) l = Ok per).
    { induction l as [|i l (per & IH)]; [exists []; reflexivity|]. cbn [mapM].
      destruct (subs_total (the_mesh long_member 1000000000000 4) (mesh_n _ _ _) (mesh_L _ _ _ long_winkler) flat_loads i flat_accepted) as (sl & -> & _). cbn [rbind]. rewrite IH. cbn [rbind]. eauto. }
    destruct (Mp (seq 0 (fe_n (the_mesh long_member 1000000000000 4)))) as (per & ->). cbn [rbind]. eauto. }
  destruct MR as (r0 & Mr).
  assert (MA : member_analysis gl flat_beam (o_d o) (an_ndof flat_an) (an_npts a1) sps = Ok [shift_x 0 r0]).
  { unfold member_analysis. rewrite flat_parsed. cbn [rbind]. change (seq 0 (b_nspans flat_beam)) with [0%nat]. cbn [foldM]. rewrite flat_at0. cbn [rbind]. change (Nat.ltb (an_ndof flat_an) (2 * 0 + 4)) with false. cbv iota.
    rewrite Me. cbn [rbind]. change (loads_of _ 0) with flat_loads. rewrite Mr. cbn [rbind]. reflexivity. }
  exists a1. unfold beam_results. rewrite EB, EF, MA. cbn [rbind]. eexists. exists e, (shift_x 0 r0). split; [reflexivity|]. split; [rewrite EP; reflexivity|]. split; [exact Me|reflexivity].
Qed.
