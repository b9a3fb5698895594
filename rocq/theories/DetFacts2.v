(** Determinate beams, and instances of the theorems about them. *)
From Coquelicot Require Import Coquelicot.
From Coq Require Import Lia.
From Verif Require Import Base BaseFacts Linalg LinalgFacts SectionModel FlexModel LoadModel LoadSpec LoadFacts ClampFacts ReleaseFacts ElementModel ElementSpec ElementFacts UtilsModel BeamModel
  AnalysisModel AnalysisSpec AnalysisFacts AnalysisFacts2 BalanceFacts AnalysisFacts3 MechFacts ResultsModel ResultsSpec ResultsFacts DetSpec DetFacts.
Open Scope R_scope.

Lemma one_span b mb : member_at b 0 = Ok mb -> 0 < mb_L mb ->
  (~ supported b 1 /\ ~ supported b 3) \/ (~ supported b 2 /\ ~ supported b 3) \/ (~ supported b 0 /\ ~ supported b 1) \/ (~ supported b 0 /\ ~ supported b 3) \/ (~ supported b 1 /\ ~ supported b 2) ->
  determinate b 1.
Proof.
  intros Em HL HS ef [M N]. destruct (M 0%nat mb ltac:(lia) Em) as [[B1 B2] _].
  assert (K : forall i, (i < 4)%nat -> ~ supported b i -> ef 0%nat i = 0).
  { intros i Hi Hs. specialize (N i ltac:(lia) Hs). unfold nodal_sum in N. destruct i as [|[|[|[|i]]]]; [..|lia]; cbn in N; lra. }
  assert (Z : ef 0%nat 0%nat = 0 /\ ef 0%nat 1%nat = 0 /\ ef 0%nat 2%nat = 0 /\ ef 0%nat 3%nat = 0).
  { assert (P : mb_L mb * ef 0%nat 2%nat = 0 -> ef 0%nat 2%nat = 0) by (intros Q; apply Rmult_integral in Q as [Q|Q]; [lra|exact Q]).
    destruct HS as [[h1 h2]|[[h1 h2]|[[h1 h2]|[[h1 h2]|[h1 h2]]]]]; apply K in h1, h2; try lia.
    - assert (Q := P ltac:(lra)). repeat split; lra.
    - rewrite h1 in *. repeat split; lra.
    - assert (Q : ef 0%nat 2%nat = 0) by lra. rewrite Q in *. repeat split; lra.
    - assert (Q : ef 0%nat 2%nat = 0) by lra. rewrite Q in *. repeat split; lra.
    - rewrite h2 in *. repeat split; lra. }
  destruct Z as (z0 & z1 & z2 & z3). intros m p Hm Hp. replace m with 0%nat by lia. destruct p as [|[|[|[|p]]]]; try assumption. lia.
Qed.

(** A simply supported span with a parabolic imposed curvature. *)
Definition curved_beam (EI : R) (D2 : option R) (lm : list row) : beam :=
  {| b_lengths := [6]; b_EIs := [RConst EI]; b_GAv := [None]; b_kf := [None];
     b_types := [1%nat]; b_nspans := 1; b_length := 0 + 6; b_terminal := [0; 0 + 6];
     b_R := [-1; 0; -1; 0]; b_D := [None; None; D2; None]; b_LM := lm; b_version := 1 |}.
Definition curved (EI : R) (D2 : option R) (lm : list row) : analysis :=
  {| an_beam := curved_beam EI D2 lm; an_n := 1; an_npts := 100; an_checked := None; an_out := None |}.
Definition curved_ctor (EI : R) (D : option (list (option R))) (lm : list row) : ctor :=
  {| ct_L := [6]; ct_EI := EIAll (RConst EI); ct_R := Some [-1; 0; -1; 0]; ct_LM := Some lm;
     ct_types := [EtNum [1%Z]]; ct_D := D; ct_sup := None; ct_GAv := GNone; ct_kf := KNone |}.
Section Curved.
Variables (EI : R) (D2 : option R).
Hypothesis HEI : 0 < EI.
Definition curved_mb : member := {| mb_L := 6; mb_EI := RConst EI; mb_GAv := None; mb_kf := None; mb_type := 1 |}.
Lemma curved_member lm i mb : member_at (curved_beam EI D2 lm) i = Ok mb -> i = 0%nat /\ mb = curved_mb.
Proof. intros E. destruct i as [|i]; [|destruct i; discriminate]. cbv in E. injection E as <-. auto. Qed.
Lemma curved_sound : sound_member curved_mb.
Proof. constructor; cbn; try lra; try lia; try reflexivity; intros; discriminate. Qed.
Lemma curved_support lm i : (i < 4)%nat -> supported (curved_beam EI D2 lm) i <-> i = 0%nat \/ i = 2%nat.
Proof.
  intros Hi. unfold supported, held, prescribed, restraint. cbn [curved_beam b_D b_R].
  destruct i as [|[|[|[|i]]]]; [..|lia]; cbn [nth]; split; intros Q.
  - left. reflexivity.
  - left. right. lra.
  - exfalso. destruct Q as [[Q|Q]|Q]; [apply Q; reflexivity|lra|lra].
  - lia.
  - right. reflexivity.
  - left. right. lra.
  - exfalso. destruct Q as [[Q|Q]|Q]; [apply Q; reflexivity|lra|lra].
  - lia.
Qed.
Lemma curved_det lm : determinate (curved_beam EI D2 lm) 1.
Proof.
  apply (one_span _ curved_mb); [reflexivity|cbn; lra|]. left. split; intros Q; apply curved_support in Q; lia.
Qed.
Lemma curved_settles lm : settles_supports (curved_beam EI D2 lm).
Proof.
  intros i H. unfold prescribed, restraint in *. cbn [curved_beam b_D b_R] in *. destruct i as [|[|[|[|[|i]]]]]; cbn in *; try lra; try (exfalso; apply H; reflexivity).
Qed.
Lemma curved_members lm : members (curved_beam EI D2 lm) 1 (fun mb => sound_member mb /\ mb_type mb <> 4%nat).
Proof. intros m mb Hm E. destruct (curved_member lm m mb E) as [_ ->]. split; [exact curved_sound|discriminate]. Qed.

Lemma curved_core gl ill lm ls r : gauss_rule gl -> parsed_loads (curved_beam EI D2 lm) = Ok ls -> span_ref gl curved_mb (loads_of ls 0) = Ok r ->
  exists o, snd (analyze_core gl ill (curved EI D2 lm) None false) = Ok o.
Proof.
  intros G P Er. apply (analyze_solves gl ill (curved EI D2 lm) None G).
  - split; [cbn; lia|]. split; [cbn; lia|]. eexists; split; [exact P|]. intros m Hm. replace m with 0%nat by (cbn in Hm; lia).
    do 3 eexists. split; [reflexivity|]. split; [reflexivity|exact Er].
  - intros m mb Hm E. destruct (curved_member lm m mb E) as [_ ->]. exact curved_sound.
  - intros (rf & i & _ & Hi & C & _). cbn in Hi. unfold restraint in C. cbn [curved an_beam curved_beam b_R] in C.
    assert (i = 0 \/ i = 1 \/ i = 2 \/ i = 3)%nat as [->|[->|[->| ->]]] by lia; cbn in C; lra.
  - apply continuous_stable.
    + exact G.
    + intros m mb Hm E. destruct (curved_member lm m mb E) as [_ ->]. split; [exact curved_sound|reflexivity].
    + intros m Hm. cbn in Hm. replace m with 0%nat by lia. do 2 eexists; split; reflexivity.
    + exists 0%nat, 1%nat. split; [cbn; lia|]. split; [cbn; lia|]. split; [apply curved_support; lia|].
      right. split; [lia|]. apply curved_support; lia.
Qed.
End Curved.

Lemma curved_results gl ill sps EI D2 lm ls r cs : 0 < EI -> gauss_rule gl -> parsed_loads (curved_beam EI D2 lm) = Ok ls -> span_ref gl (curved_mb EI) (loads_of ls 0) = Ok r ->
  mapM (fun ld => get_cnl gl ld 6) (loads_of ls 0) = Ok cs ->
  exists a' br, analyze gl ill (curved EI D2 lm) sps None false = (a', Ok br) /\ an_npts a' = 100%nat.
Proof.
  intros HEI G P Er Ec. destruct (curved_core EI D2 HEI gl ill lm ls r G P Er) as (o & Ho).
  destruct (analyze_total_ok gl ill (curved EI D2 lm) sps None false o ls Ho) as (a' & br & E & EP & ED).
  - reflexivity.
  - split; [cbn; lia|]. split; [cbn; lia|]. eexists; split; [exact P|]. intros m Hm. replace m with 0%nat by (cbn in Hm; lia).
    do 3 eexists. split; [reflexivity|]. split; [reflexivity|exact Er].
  - exact P.
  - intros i mb Hi E. destruct (curved_member EI D2 lm i mb E) as (_ & ->). split; [split; [eexists; reflexivity|left; reflexivity]|reflexivity].
  - intros i mb Hi E. destruct (curved_member EI D2 lm i mb E) as (-> & ->). exists cs. exact Ec.
  - exists a', br. auto.
Qed.

(** A propped cantilever with a hinge: clamped at the left, hinge at the inner node, roller at
    the right end. *)
Definition hinged_beam : beam :=
  {| b_lengths := [4; 3]; b_EIs := [RConst 2; RConst 5]; b_GAv := [None; None]; b_kf := [None; None];
     b_types := [1%nat; 3%nat]; b_nspans := 2; b_length := 0 + 4 + 3; b_terminal := [0; 0 + 4; 0 + 4 + 3];
     b_R := [-1; -1; 0; 0; -1; 0]; b_D := [None; None; None; None; None; None]; b_LM := []; b_version := 1 |}.
Lemma hinged_det : determinate hinged_beam 2.
Proof.
  intros ef [M N].
  destruct (M 0%nat _ ltac:(lia) eq_refl) as [[A1 A2] _]. destruct (M 1%nat _ ltac:(lia) eq_refl) as [[B1 B2] B3]. cbn [mb_L mb_type] in *.
  assert (U : forall i, (i = 2 \/ i = 3 \/ i = 5)%nat -> ~ supported hinged_beam i).
  { intros i Hi [[Q|Q]|Q]; destruct Hi as [->|[->| ->]]; unfold prescribed, restraint in Q; cbn in Q; try lra; apply Q; reflexivity. }
  assert (N2 := N 2%nat ltac:(lia) (U 2%nat ltac:(lia))). assert (N3 := N 3%nat ltac:(lia) (U 3%nat ltac:(lia))). assert (N5 := N 5%nat ltac:(lia) (U 5%nat ltac:(lia))).
  unfold nodal_sum in *. cbn in N2, N3, N5, A2, B2. assert (R1 := B3 1%nat eq_refl).
  intros m p Hm Hp. assert (C : m = 0%nat \/ m = 1%nat) by lia. destruct C as [->| ->]; destruct p as [|[|[|[|p]]]]; try lia; lra.
Qed.

(** A pin-pin member between clamps with a linear imposed curvature. *)
Definition pinned_beam : beam :=
  {| b_lengths := [3]; b_EIs := [RConst 2]; b_GAv := [None]; b_kf := [None];
     b_types := [4%nat]; b_nspans := 1; b_length := 0 + 3; b_terminal := [0; 0 + 3];
     b_R := [-1; -1; -1; -1]; b_D := [None; None; None; None]; b_LM := [Row 1 6 [0; 1; 0]]; b_version := 1 |}.
Definition pinned : analysis :=
  {| an_beam := pinned_beam; an_n := 1; an_npts := 100; an_checked := None; an_out := None |}.
Definition pinned_ctor : ctor := {| ct_L := [3]; ct_EI := EIAll (RConst 2); ct_R := Some [-1; -1; -1; -1]; ct_LM := Some [Row 1 6 [0; 1; 0]];
     ct_types := [EtNum [4%Z]]; ct_D := None; ct_sup := None; ct_GAv := GNone; ct_kf := KNone |}.
Lemma pinned_forces : exists c a o, analysis_init c = Ok a /\ members (an_beam a) (an_n a) sound_member /\ determinate (an_beam a) (an_n a) /\
  only_imposed (an_beam a) (an_n a) /\ settles_supports (an_beam a) /\ snd (analyze_core sample_gl (fun _ _ => false) a None true) = Ok o /\ reported (an_beam a) o 0 <> 0.
Proof.
  exists pinned_ctor, pinned.
  assert (EP : forall i, prescribed pinned_beam i = None).
  { intros i. unfold prescribed. cbn. destruct i as [|[|[|[|i]]]]; try reflexivity. destruct i; reflexivity. }
  assert (ER : forall i, (i < 4)%nat -> restraint pinned_beam i = -1).
  { intros i Hi. unfold restraint. cbn. destruct i as [|[|[|[|i]]]]; try reflexivity. lia. }
  assert (Et := ic_theta_quadratic 0 1 0 3 ltac:(lra)).
  assert (Er : exists r, span_ref sample_gl {| mb_L := 3; mb_EI := RConst 2; mb_GAv := None; mb_kf := None; mb_type := 4 |} [LIC [0; 1; 0] (Some (RConst 2))] = Ok r /\ r 0%nat <> 0).
  { cbn [span_ref mb_kf foldM]. unfold ref_one. cbn [mb_GAv mb_EI mb_L mb_type]. unfold load_get_ref. cbn [get_cnl]. unfold ic_cnl, ic_end_moments. rewrite Et. cbn [ic_Ktheta rbind fst snd].
    eexists. split; [reflexivity|]. cbn. lra. }
  destruct Er as (r & Er & Nr).
  assert (W : well_formed sample_gl pinned_beam 1).
  { split; [cbn; lia|]. split; [cbn; lia|]. eexists; split; [reflexivity|]. intros m Hm. replace m with 0%nat by lia. do 3 eexists. split; [reflexivity|]. split; [reflexivity|exact Er]. }
  destruct (well_formed_system _ _ _ W) as (kb & rf & S).
  destruct (core_total sample_gl (fun _ _ => false) pinned true kb rf S) as (o & Ho).
  - cbn. lia.
  - cbn. lia.
  - intros i Hi (C & _). rewrite ER in C by (cbn in Hi; lia). lra.
  - intros y Hy i Hi. specialize (Hy i Hi). unfold bcv in Hy. cbn [an_beam pinned] in Hy. rewrite EP, ER in Hy by (cbn in Hi; lia).
    destruct (Rlt_dec (-1) 0); [exact Hy|lra].
  - right. destruct (an_assemble_total sample_gl pinned_beam 1 kb (sy_k _ _ _ _ _ S)) as (k & EA & _); [cbn; lia|].
    exists k. split; [exact EA|]. unfold check_stability.
    assert (EF : free_dofs (b_R pinned_beam) (b_D pinned_beam) (seq 0 (2 * (an_n pinned + 1))) = Ok []).
    { cbn. unfold Rltb. destruct (Rlt_dec (-1) 0); [|lra]. reflexivity. }
    change (an_beam pinned) with pinned_beam. rewrite EF. reflexivity.
  - exists o. split; [reflexivity|].
    assert (ST : settles_supports (an_beam pinned)) by (intros i H; exfalso; apply H; apply EP).
    split; [|split; [|split; [|split; [exact ST|split; [exact Ho|]]]]].
    + intros m mb Hm E. replace m with 0%nat in E by (cbn in Hm; lia). cbv in E. injection E as <-. constructor; cbn; try lra; try lia; try reflexivity; try discriminate; exact Rlt_0_2 || (intros; discriminate).
    + intros ef [M N] m p Hm Hp. cbn [an_n pinned] in Hm. replace m with 0%nat by lia. destruct (M 0%nat _ ltac:(cbn; lia) eq_refl) as [[B1 B2] B3]. cbn [mb_L mb_type] in *.
      assert (R1 := B3 1%nat (or_introl eq_refl)). assert (R3 := B3 3%nat (or_intror eq_refl)). destruct p as [|[|[|[|p]]]]; try lia; lra.
    + intros ls m P Hm. replace m with 0%nat by (cbn in Hm; lia). cbv in P. inversion P. reflexivity.
    + destruct (analyze_core sample_gl (fun _ _ => false) pinned None true) as [a' rr] eqn:E. cbn in Ho. subst rr.
      destruct (analyze_reactions _ _ _ _ _ _ _ E ST) as (ef & Q & R). rewrite R by (cbn; lia). destruct (analyze_equilibrium _ _ _ _ _ _ _ E) as (ef' & _ & Z).
      assert (D0 : forall i, (i < 4)%nat -> o_d o i = 0).
      { intros i Hi. specialize (Z i ltac:(cbn; lia)). cbn [an_beam pinned] in Z. rewrite EP, ER in Z by exact Hi. destruct (Rlt_dec (-1) 0); [exact Z|lra]. }
      destruct (Q 0%nat ltac:(cbn; lia)) as (ls & mb & k0 & r0 & P & Em & Ek & Er0 & F). change (ef 0%nat 0%nat + 0 <> 0).
      rewrite F. inversion P as [P']. subst ls. inversion Em as [Em']. subst mb. change (loads_of _ 0) with [LIC [0; 1; 0] (Some (RConst 2))] in Er0.
      assert (X : r0 = r) by (cbn [an_beam pinned] in Er0; rewrite Er in Er0; inversion Er0; reflexivity). subst r0.
      assert (Y : end_forces k0 (ends (o_d o) 0) 0%nat = 0) by (unfold end_forces, mulmv, ends; cbn [rsum Nat.mul Nat.add]; rewrite !D0 by lia; ring).
      lra.
Qed.

(** Load tables of a simple span: a parabolic imposed curvature, a point load, and both. *)
Definition bent_rows : list row := [Row 1 6 [1; 2; 3]].
Definition plain_rows : list row := [Row 1 2 [7; 2]].
Definition mixed_rows : list row := [Row 1 2 [7; 2]; Row 1 6 [1; 2; 3]].
Lemma ic_ref gl EI : exists r, ref_one gl (curved_mb EI) (LIC [1; 2; 3] (Some (RConst EI))) = Ok r /\ exists c, get_cnl gl (LIC [1; 2; 3] (Some (RConst EI))) 6 = Ok c.
Proof.
  assert (Et := ic_theta_quadratic 1 2 3 6 ltac:(lra)).
  unfold ref_one. cbn [curved_mb mb_GAv mb_EI mb_L mb_type]. unfold load_get_ref. cbn [get_cnl]. unfold ic_cnl, ic_end_moments. rewrite Et. cbn [ic_Ktheta rbind fst snd].
  eexists. split; [reflexivity|]. eexists. reflexivity.
Qed.
Lemma bent_refs gl EI : (exists r, span_ref gl (curved_mb EI) [LIC [1; 2; 3] (Some (RConst EI))] = Ok r) /\
  exists cs, mapM (fun ld => get_cnl gl ld 6) [LIC [1; 2; 3] (Some (RConst EI))] = Ok cs.
Proof.
  destruct (ic_ref gl EI) as (r & E1 & c & E2). split.
  - unfold span_ref. cbn [curved_mb mb_kf foldM]. fold (curved_mb EI). rewrite E1. eexists. reflexivity.
  - cbn [mapM]. rewrite E2. eexists. reflexivity.
Qed.
Lemma mixed_refs gl EI : exists r, span_ref gl (curved_mb EI) [LPL 7 2; LIC [1; 2; 3] (Some (RConst EI))] = Ok r.
Proof.
  destruct (ic_ref gl EI) as (r & E1 & _). unfold span_ref. cbn [curved_mb mb_kf foldM]. fold (curved_mb EI). rewrite E1. eexists. reflexivity.
Qed.
