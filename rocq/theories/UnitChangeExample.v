(** Concrete beams in other units. *)
From Coq Require Import Lia Classical_Prop String.
From Coquelicot Require Import Coquelicot Markov.
From Verif Require Import Base BaseFacts Linalg LinalgFacts SectionModel FlexModel LoadModel FoundationModel ElementModel UtilsModel BeamModel AnalysisModel ElementSpec AnalysisSpec BalanceFacts AnalysisFacts AnalysisFacts2 MechFacts AnalysisFacts3 ReleaseFacts ResultsModel ResultsSpec ResultsFacts UnitChangeSpec UnitChangeFacts UnitChangeFacts2 UnitChangeFacts3 UnitChangeFacts4 UnitChangeFacts5.
Open Scope R_scope.
Open Scope list_scope.

(** ** A span clamped at both ends, with a hinge beside its left support, under a uniform load *)
Definition pf_ctor (L w e : R) : ctor := {| ct_L := [L]; ct_EI := EIAll (RConst e); ct_R := Some [-1; -1; -1; -1]; ct_LM := Some [Row 1 1 [w]];
  ct_types := [EtNum [3%Z]]; ct_D := None; ct_sup := None; ct_GAv := GNone; ct_kf := KNone |}.
Definition pf_beam (L w e : R) : beam :=
  {| b_lengths := [L]; b_EIs := [RConst e]; b_GAv := [None]; b_kf := [None]; b_types := [3%nat]; b_nspans := 1; b_length := 0 + L; b_terminal := [0; 0 + L];
     b_R := [-1; -1; -1; -1]; b_D := [None; None; None; None]; b_LM := [Row 1 1 [w]]; b_version := 1 |}.
Definition pf_an (L w e : R) : analysis := {| an_beam := pf_beam L w e; an_n := 1; an_npts := 100; an_checked := None; an_out := None |}.
Lemma pf_init L w e : analysis_init (pf_ctor L w e) = Ok (pf_an L w e).
Proof. reflexivity. Qed.
Lemma pf_plain L w e : 0 < L -> 0 < e -> plain_ctor (pf_ctor L w e).
Proof. intros HL He. repeat apply conj; cbn; auto. Qed.
Lemma pf_units u L w e : proper u -> analysis_units u (pf_an L w e) = pf_an (len u L) (per u w) (u_for u * u_len u ^ 2 * e).
Proof.
  intros Hu. unfold analysis_units, pf_an, beam_units, pf_beam. cbn [an_beam an_n an_npts b_lengths b_EIs b_GAv b_kf b_types b_nspans b_length b_terminal b_R b_D b_LM b_version map option_map from].
  rewrite !(spring_keep u) by lra. rewrite len_0. replace (len u (0 + L)) with (0 + len u L) by (unfold len; ring). reflexivity.
Qed.

Local Lemma ok_inj {A} (a b : A) : Ok a = Ok b -> a = b.
Proof. intros H. injection H as <-. reflexivity. Qed.
Local Lemma mulmv4 A y p : mulmv 4 A y p = A p 0%nat * y 0%nat + A p 1%nat * y 1%nat + A p 2%nat * y 2%nat + A p 3%nat * y 3%nat.
Proof. unfold mulmv. cbn. ring. Qed.
Local Lemma head_kept l v : nth 0 (set_inner l v) 0 = nth 0 l 0.
Proof. destruct l; reflexivity. Qed.
Lemma pf_results gl ill L w e : 0 < L -> 0 < e -> exists r, snd (analyze gl ill (pf_an L w e) (fun _ => []) None true) = Ok r /\
  read_at 0 (r_x (br_all r)) (r_R (br_all r)) = - w * L ^ 3 / 48.
Proof.
  intros HL He. set (b := pf_beam L w e).
  assert (Hr : forall i, (i < 4)%nat -> restraint b i = -1) by (intros [|[|[|[|i]]]] Hi; try reflexivity; lia).
  assert (Hp : forall i, prescribed b i = None) by (intros [|[|[|[|[|i]]]]]; reflexivity).
  assert (HB : forall i, (i < 4)%nat -> bcv b i = Some 0).
  { intros i Hi. unfold bcv. rewrite Hp, Hr by exact Hi. destruct (Rlt_dec (-1) 0); [reflexivity|lra]. }
  assert (WF : well_formed gl b 1).
  { split; [cbn; lia|]. split; [cbn; lia|]. eexists; split; [reflexivity|]. intros m Hm. replace m with 0%nat by lia. do 3 eexists. repeat (split; [reflexivity|]). reflexivity. }
  assert (HC : exists o, snd (analyze_core gl ill (pf_an L w e) None true) = Ok o).
  { destruct (well_formed_system _ _ _ WF) as (kb & rf & S). apply (core_total gl ill (pf_an L w e) true kb rf S).
    - cbn. lia.
    - cbn. lia.
    - intros i Hi (C & _). cbn [an_beam pf_an] in C. fold b in C. rewrite Hr in C by (cbn in Hi; lia). lra.
    - intros y Hy i Hi. specialize (Hy i Hi). cbn [an_beam pf_an] in Hy. fold b in Hy. rewrite HB in Hy by (cbn in Hi; lia). exact Hy.
    - right. destruct S as [Hk _]. destruct (an_assemble_total gl b 1 kb Hk ltac:(cbn; lia)) as (k & EA & _).
      exists k. split; [exact EA|]. unfold check_stability. cbn [an_beam pf_an pf_beam b_R b_D].
      assert (F : free_dofs [-1; -1; -1; -1] [None; None; None; None] (seq 0 (2 * (an_n (pf_an L w e) + 1))) = Ok []).
      { cbn [pf_an an_n Nat.add Nat.mul seq]. cbn. unfold Rltb. destruct (Rlt_dec (-1) 0); [reflexivity|lra]. }
      rewrite F. reflexivity. }
  destruct HC as (o & Ho).
  destruct (analyze_total_ok gl ill (pf_an L w e) (fun _ => []) None true o [(0%Z, LUDL w)] Ho) as (a' & br & E & EP & ED); [reflexivity|exact WF|reflexivity| | |].
  { intros i mb Hi EM. cbn in Hi. replace i with 0%nat in EM by lia. cbn in EM. injection EM as <-. split; [|reflexivity]. split; [eexists; reflexivity|left; reflexivity]. }
  { intros i mb Hi EM. cbn in Hi. replace i with 0%nat by lia. cbn. eexists. reflexivity. }
  exists br. rewrite E. split; [reflexivity|].
  destruct (analyze_split _ _ _ _ _ _ _ _ E) as (o' & EC & Hv & EL & _).
  destruct (analyze_core_state _ _ _ _ _ _ _ EC) as (EB & EN & _). rewrite EB in Hv. cbn [an_npts pf_an] in EP. rewrite EP in Hv.
  destruct (core_inv _ _ _ _ _ _ _ EC) as ((kb & rf & S) & _).
  assert (D0 : forall i, (i < 4)%nat -> o_d o' i = 0). { intros i Hi. assert (Q := sv_eq _ _ _ _ _ _ S i ltac:(cbn; lia)). cbn [an_beam pf_an] in Q. fold b in Q. rewrite HB in Q by exact Hi. exact Q. }
  cbn [an_beam pf_an] in Hv. fold b in Hv.
  destruct (member_analysis_spec _ _ _ _ _ _ _ Hv) as (ls & Hls & Hlen & Hs).
  destruct (Hs 0%nat ltac:(cbn; lia)) as (mb & f & r0 & (Hm & _ & Hf & Hr0) & Hn).
  cbn in Hls. injection Hls as <-. cbn in Hm. injection Hm as <-.
  assert (One : forall (l : list mres) x, length l = 1%nat -> nth_error l 0 = Some x -> l = [x]).
  { intros [|m1 [|m2 l]] x Hl Hx; try discriminate. cbn in Hx. congruence. }
  assert (EM := One _ _ Hlen Hn).
  rewrite EL, EM. cbn [mres_concat flat_map r_x r_R]. rewrite !app_nil_r.
  unfold member_forces in Hf. cbn -[mulmv] in Hf.
  apply ok_inj in Hf. subst f.
  set (f := fun p => _) in Hr0.
  assert (F1 : f 1%nat = 0). { unfold f. rewrite (mulmv4 _ _ _), !D0 by lia. cbn -[k_PF]. generalize (k_PF e L). intros. field. }
  assert (F3 : f 3%nat = - w * L ^ 2 / 8). { unfold f. rewrite (mulmv4 _ _ _), !D0 by lia. cbn -[k_PF]. generalize (k_PF e L). intros. field. }
  clearbody f. unfold member_results in Hr0. cbn [mb_kf] in Hr0.
  assert (TB := member_values_table _ _ _ _ _ _ _ _ Hr0). destruct TB as [TX (_ & _ & TR & _) _ _].
  assert (RL : length (r_R r0) = length (r_x r0)) by (rewrite TX; exact TR). clear TR. unfold member_values in Hr0.
  cbn [mb_kf mb_L mb_EI mb_GAv mb_type loads_of filter map fst snd Z.eqb Z.of_nat fold_left mapM rbind get_cnl rigid_at] in Hr0.
  assert (HX : exists t, stations L 100 [] = 0 :: t).
  { unfold stations, grid_of, uniform. cbn [shear_pairs flat_map seq Nat.add map hd]. change (INR 0) with 0. replace (L / INR 100 * 0) with 0 by ring. eexists. reflexivity. }
  destruct HX as (t & HX). cbn [mb_L] in TX. rewrite HX in Hr0, TX. clear HX.
  assert (HR : nth 0 (r_R r0) 0 = - w * L ^ 3 / 48).
  { apply ok_inj in Hr0. rewrite <- Hr0. cbn [r_R]. rewrite head_kept. unfold get_mbr_results. cbn [diag_of]. unfold LoadModel.sample, mres_add. cbn [r_R map map2 nth udl_diag mamb_diag f_R]. rewrite F1, F3. unfold map2. cbn. field. lra. }
  rewrite (read_station _ _ 0 0%nat); [exact HR|cbn [shift_x r_x r_R]; rewrite map_length; exact RL|].
  cbn [shift_x r_x]. rewrite TX. split; [cbn; lia|]. split; [cbn; lra|]. intros; lia.
Qed.

(** ** An unloaded cantilever *)
Definition cl_ctor (L e : R) : ctor := {| ct_L := [L]; ct_EI := EIAll (RConst e); ct_R := Some [-1; -1; 0; 0]; ct_LM := None;
  ct_types := [EtNum [1%Z]]; ct_D := None; ct_sup := None; ct_GAv := GNone; ct_kf := KNone |}.
Definition cl_beam (L e : R) : beam :=
  {| b_lengths := [L]; b_EIs := [RConst e]; b_GAv := [None]; b_kf := [None]; b_types := [1%nat]; b_nspans := 1; b_length := 0 + L; b_terminal := [0; 0 + L];
     b_R := [-1; -1; 0; 0]; b_D := [None; None; None; None]; b_LM := []; b_version := 1 |}.
Definition cl_an (L e : R) : analysis := {| an_beam := cl_beam L e; an_n := 1; an_npts := 100; an_checked := None; an_out := None |}.
Lemma cl_init L e : analysis_init (cl_ctor L e) = Ok (cl_an L e).
Proof. reflexivity. Qed.
Lemma cl_plain L e : 0 < L -> 0 < e -> plain_ctor (cl_ctor L e).
Proof. intros HL He. repeat apply conj; cbn; auto. Qed.
Lemma cl_units u L e : proper u -> analysis_units u (cl_an L e) = cl_an (len u L) (u_for u * u_len u ^ 2 * e).
Proof.
  intros Hu. unfold analysis_units, cl_an, beam_units, cl_beam. cbn [an_beam an_n an_npts b_lengths b_EIs b_GAv b_kf b_types b_nspans b_length b_terminal b_R b_D b_LM b_version map option_map from].
  rewrite !(spring_keep u) by lra. rewrite len_0. replace (len u (0 + L)) with (0 + len u L) by (unfold len; ring). reflexivity.
Qed.

(** Two-by-two symmetric matrices. *)
Local Lemma mulmv2 A y p : mulmv 2 A y p = A p 0%nat * y 0%nat + A p 1%nat * y 1%nat.
Proof. unfold mulmv. cbn. ring. Qed.
Lemma eigen2 A mu : A 1%nat 0%nat = A 0%nat 1%nat -> A 0%nat 1%nat <> 0 ->
  (eigenvalue 2 A mu <-> mu ^ 2 - (A 0%nat 0%nat + A 1%nat 1%nat) * mu + (A 0%nat 0%nat * A 1%nat 1%nat - A 0%nat 1%nat ^ 2) = 0).
Proof.
  intros S N. split.
  - intros (y & (i & Hi & Hy) & E). assert (E0 := E 0%nat ltac:(lia)). assert (E1 := E 1%nat ltac:(lia)). rewrite mulmv2 in E0, E1. rewrite S in E1.
    set (a := A 0%nat 0%nat) in *. set (c := A 1%nat 1%nat) in *. set (b := A 0%nat 1%nat) in *.
    assert (Y0 : y 0%nat <> 0).
    { intros Z. rewrite Z in E0, E1. assert (Y1 : y 1%nat = 0) by (apply (Rmult_eq_reg_l b); [lra|exact N]). destruct i as [|[|i]]; [contradiction|contradiction|lia]. }
    apply (Rmult_eq_reg_r (y 0%nat)); [|exact Y0]. rewrite Rmult_0_l.
    replace ((mu ^ 2 - (a + c) * mu + (a * c - b ^ 2)) * y 0%nat) with ((c - mu) * (a * y 0%nat + b * y 1%nat - mu * y 0%nat) - b * (b * y 0%nat + c * y 1%nat - mu * y 1%nat)) by ring.
    rewrite E0, E1. ring.
  - intros E. exists (fun i => match i with 0%nat => A 0%nat 1%nat | _ => mu - A 0%nat 0%nat end). split; [exists 0%nat; split; [lia|exact N]|].
    intros [|[|i]] Hi; [| |lia]; rewrite mulmv2; [ring|]. rewrite S. lra.
Qed.

Section Canti.
Variable gl : nat -> list (R * R).
Variable ill : nat -> mat -> bool.
Variables L e : R.
Hypothesis HL : 0 < L.
Hypothesis He : 0 < e.
Lemma cl_wf : well_formed gl (cl_beam L e) 1.
Proof using. split; [cbn; lia|]. split; [cbn; lia|]. eexists; split; [reflexivity|]. intros m Hm. replace m with 0%nat by lia. do 3 eexists. repeat (split; [reflexivity|]). reflexivity. Qed.
Lemma cl_system : exists kb rf, system gl (cl_beam L e) 1 kb rf /\ (forall p q, (p < 4)%nat -> (q < 4)%nat -> kb 0%nat p q = k_FF e L p q) /\ forall p, (p < 4)%nat -> rf 0%nat p = 0.
Proof using.
  destruct (well_formed_system _ _ _ cl_wf) as (kb & rf & S). exists kb, rf. split; [exact S|]. destruct S as [Hk (ls & Hl & Hr)].
  destruct (Hk 0%nat ltac:(lia)) as (mb & Em & Ek). cbn in Em. injection Em as <-. cbn -[k_FF] in Ek. apply ok_inj in Ek.
  cbn in Hl. injection Hl as <-. destruct (Hr 0%nat ltac:(lia)) as (mb & Em & Er). cbn in Em. injection Em as <-. cbn in Er. apply ok_inj in Er.
  split; intros; [rewrite <- Ek|rewrite <- Er]; reflexivity.
Qed.

Local Lemma free_of : free_dofs [-1; -1; 0; 0] [None; None; None; None] (seq 0 (2 * (1 + 1))) = Ok [2%nat; 3%nat].
Proof using. cbn. unfold Rltb. destruct (Rlt_dec (-1) 0); [|lra]. destruct (Rlt_dec 0 0); [lra|]. reflexivity. Qed.

(** The matrix handed to the eigenvalue test. *)
Lemma cl_tested : exists k A, an_assemble gl (cl_beam L e) 1 = Ok k /\
  check_stability ill k (b_R (cl_beam L e)) (b_D (cl_beam L e)) (2 * (1 + 1)) = (if ill 2%nat A then Err ValueError else Ok tt) /\
  A 0%nat 0%nat = 12 * e / L ^ 3 /\ A 0%nat 1%nat = - (6 * e / L ^ 2) /\ A 1%nat 0%nat = - (6 * e / L ^ 2) /\ A 1%nat 1%nat = 4 * e / L.
Proof using.
  destruct cl_system as (kb & rf & [Hk _] & Ek & _). destruct (an_assemble_total gl (cl_beam L e) 1 kb Hk ltac:(cbn; lia)) as (k & EA & Q).
  exists k, (fun i j => k (nth i [2; 3]%nat 0%nat) (nth j [2; 3]%nat 0%nat)). split; [exact EA|].
  split; [unfold check_stability; cbn [cl_beam b_R b_D]; rewrite free_of; reflexivity|].
  assert (Z : forall i, (2 <= i < 4)%nat -> restraint (cl_beam L e) i = 0) by (intros [|[|[|[|i]]]] Hi; try reflexivity; lia).
  cbn [nth]. rewrite !Q by lia. unfold Kcl. cbn [rsum]. unfold blk, scat. cbn [Nat.mul Nat.add Nat.leb Nat.ltb andb Nat.sub Nat.eqb].
  rewrite !Z by lia. rewrite !Ek by lia. destruct (Rlt_dec 0 0) as [C|_]; [lra|].
  unfold k_FF, mat4, vec4. repeat apply conj; cbn [nth]; ring.
Qed.
Lemma cl_runs check : (check = true -> exists k, an_assemble gl (cl_beam L e) 1 = Ok k /\ check_stability ill k (b_R (cl_beam L e)) (b_D (cl_beam L e)) (2 * (1 + 1)) = Ok tt) ->
  exists r, snd (analyze gl ill (cl_an L e) (fun _ => []) None check) = Ok r.
Proof using HL He.
  intros HP. destruct cl_system as (kb & rf & S & Ek & Er).
  assert (HB : bcv (cl_beam L e) 0 = Some 0 /\ bcv (cl_beam L e) 1 = Some 0 /\ bcv (cl_beam L e) 2 = None /\ bcv (cl_beam L e) 3 = None).
  { unfold bcv. cbn. destruct (Rlt_dec (-1) 0); [|lra]. destruct (Rlt_dec 0 0); [lra|]. auto. }
  destruct HB as (B0 & B1 & B2 & B3).
  assert (Z : forall i, (2 <= i < 4)%nat -> restraint (cl_beam L e) i = 0) by (intros [|[|[|[|i]]]] Hi; try reflexivity; lia).
  assert (HC : exists o, snd (analyze_core gl ill (cl_an L e) None check) = Ok o).
  { apply (core_total gl ill (cl_an L e) check kb rf S).
    - cbn. lia.
    - cbn. lia.
    - intros i Hi (_ & C & _). apply C. cbn in Hi. destruct i as [|[|[|[|i]]]]; [reflexivity..|lia].
    - intros y Hy. assert (Y0 := Hy 0%nat ltac:(cbn; lia)). assert (Y1 := Hy 1%nat ltac:(cbn; lia)). assert (Y2 := Hy 2%nat ltac:(cbn; lia)). assert (Y3 := Hy 3%nat ltac:(cbn; lia)).
      cbn [an_beam cl_an an_n] in *. rewrite B0 in Y0. rewrite B1 in Y1. rewrite B2 in Y2. rewrite B3 in Y3.
      change (2 * (1 + 1))%nat with 4%nat in *. rewrite mulmv4, Y0, Y1 in Y2, Y3. unfold Kcl in Y2, Y3. cbn [rsum] in Y2, Y3. unfold blk, scat in Y2, Y3.
      cbn [Nat.mul Nat.add Nat.leb Nat.ltb andb Nat.sub Nat.eqb] in Y2, Y3. rewrite !Z in Y2, Y3 by lia. rewrite !Ek in Y2, Y3 by lia. destruct (Rlt_dec 0 0) as [C|_]; [lra|].
      unfold k_FF, mat4, vec4 in Y2, Y3. cbn [nth] in Y2, Y3.
      assert (P2 : 2 * y 2%nat = L * y 3%nat). { apply (Rmult_eq_reg_l (6 * e / L ^ 3)); [|apply Rgt_not_eq; apply Rdiv_lt_0_compat; [lra|apply pow_lt; exact HL]].
        transitivity (12 * e / L ^ 3 * y 2%nat); [field; lra|]. transitivity (6 * e / L ^ 2 * y 3%nat); [lra|field; lra]. }
      assert (P3 : 3 * y 2%nat = 2 * (L * y 3%nat)). { apply (Rmult_eq_reg_l (2 * e / L ^ 2)); [|apply Rgt_not_eq; apply Rdiv_lt_0_compat; [lra|apply pow_lt; exact HL]].
        transitivity (6 * e / L ^ 2 * y 2%nat); [field; lra|]. transitivity (4 * e / L * y 3%nat); [lra|field; lra]. }
      assert (E2 : y 2%nat = 0) by lra. assert (E3 : y 3%nat = 0). { apply (Rmult_eq_reg_l L); lra. }
      intros [|[|[|[|i]]]] Hi; trivial. lia.
    - destruct check; [right; apply HP; reflexivity|left; reflexivity]. }
  destruct HC as (o & Ho).
  destruct (analyze_total_ok gl ill (cl_an L e) (fun _ => []) None check o [] Ho) as (a' & br & E & _); [reflexivity|exact cl_wf|reflexivity| | |].
  - intros i mb Hi EM. cbn in Hi. replace i with 0%nat in EM by lia. cbn in EM. injection EM as <-. split; [|reflexivity]. split; [eexists; reflexivity|left; reflexivity].
  - intros i mb Hi EM. cbn. eexists. reflexivity.
  - exists br. rewrite E. reflexivity.
Qed.
Lemma cl_stops : (exists k, an_assemble gl (cl_beam L e) 1 = Ok k /\ check_stability ill k (b_R (cl_beam L e)) (b_D (cl_beam L e)) (2 * (1 + 1)) = Err ValueError) ->
  snd (analyze gl ill (cl_an L e) (fun _ => []) None true) = Err ValueError.
Proof using.
  intros (k & EA & EC). destruct cl_system as (kb & rf & [Hk (ls & Hl & Hr)] & Ek & Er).
  destruct (an_forces_total gl (cl_beam L e) 1 ls rf Hl Hr) as (f & EF & Ef).
  unfold analyze, analyze_core. unfold an_ndof. cbn [cl_an an_beam an_n an_checked]. rewrite EF. cbn [rbind].
  destruct (validate_spec (cl_beam L e) f 4 ltac:(cbn; lia) ltac:(cbn; lia)) as [[V _]|[_ (i & Hi & _ & C & _)]].
  - change (2 * (1 + 1))%nat with 4%nat in *. rewrite V. cbn [rbind]. rewrite EA. cbn [rbind negb opt_eqb orb]. rewrite EC. reflexivity.
  - exfalso. apply C. destruct i as [|[|[|[|i]]]]; [reflexivity..|lia].
Qed.
End Canti.

Definition wide : units := {| u_len := 1e7; u_for := 1 |}.
Lemma cl_differs gl ill : exact_test ill ->
  (exists r, snd (analyze gl ill (cl_an 1 1) (fun _ => []) None true) = Ok r) /\
  snd (analyze gl ill (analysis_units wide (cl_an 1 1)) (fun _ => []) None true) = Err ValueError.
Proof.
  intros T. split.
  - apply cl_runs; [lra|lra|]. intros _. destruct (cl_tested gl ill 1 1) as (k & A & EA & EC & A00 & A01 & A10 & A11). exists k. split; [exact EA|]. rewrite EC.
    replace (12 * 1 / 1 ^ 3) with 12 in A00 by field. replace (- (6 * 1 / 1 ^ 2)) with (-6) in A01, A10 by field. replace (4 * 1 / 1) with 4 in A11 by field.
    assert (Sy : forall i j, (i < 2)%nat -> (j < 2)%nat -> A i j = A j i) by (intros [|[|i]] [|[|j]] Hi Hj; try lia; congruence).
    assert (Ev : forall mu, eigenvalue 2 A mu <-> mu ^ 2 - 16 * mu + 12 = 0).
    { intros mu. rewrite eigen2 by (rewrite ?A10, ?A01; lra). rewrite A00, A01, A11. split; intros H; lra. }
    destruct (ill 2%nat A) eqn:I; [exfalso|reflexivity]. apply (T 2%nat A Sy) in I. destruct I as [I|(mu & nu & Hm & Hn & Hc)].
    + assert (S := sqrt_sqrt 52 ltac:(lra)). assert (S0 := sqrt_pos 52). assert (Q : 8 + sqrt 52 = 0) by (apply I, Ev; lra). lra.
    + apply Ev in Hm. apply Ev in Hn. assert (M : 1 / 2 <= mu) by nra. assert (N : 1 / 2 <= nu <= 16) by (split; nra). rewrite !Rabs_pos_eq in Hc by lra. lra.
  - rewrite cl_units by (split; cbn; lra). apply cl_stops. destruct (cl_tested gl ill (len wide 1) (u_for wide * u_len wide ^ 2 * 1)) as (k & A & EA & EC & A00 & A01 & A10 & A11).
    exists k. split; [exact EA|]. rewrite EC. cbn [len wide u_len u_for] in A00, A01, A10, A11. unfold len in A00, A01, A10, A11. cbn [wide u_len u_for] in A00, A01, A10, A11.
    replace (12 * (1 * 1e7 ^ 2 * 1) / (1e7 * 1) ^ 3) with (12 / 1e7) in A00 by field. replace (- (6 * (1 * 1e7 ^ 2 * 1) / (1e7 * 1) ^ 2)) with (-6) in A01, A10 by field.
    replace (4 * (1 * 1e7 ^ 2 * 1) / (1e7 * 1)) with 4e7 in A11 by field.
    assert (Sy : forall i j, (i < 2)%nat -> (j < 2)%nat -> A i j = A j i) by (intros [|[|i]] [|[|j]] Hi Hj; try lia; congruence).
    assert (Ev : forall mu, eigenvalue 2 A mu <-> mu ^ 2 - (4e7 + 12 / 1e7) * mu + 12 = 0).
    { intros mu. rewrite eigen2 by (rewrite ?A10, ?A01; lra). rewrite A00, A01, A11. split; intros H; lra. }
    assert (I : ill 2%nat A = true); [|rewrite I; reflexivity]. apply (T 2%nat A Sy). right.
    set (t := 4e7 + 12 / 1e7) in *. assert (Ht : 4e7 <= t) by (unfold t; lra). set (s := sqrt (t ^ 2 - 48)).
    assert (S : s * s = t ^ 2 - 48) by (apply sqrt_sqrt; nra). assert (S0 : 0 <= s) by apply sqrt_pos. clearbody s t.
    exists ((t - s) / 2), ((t + s) / 2). split; [apply Ev; lra|]. split; [apply Ev; lra|].
    assert (P : (t - s) / 2 * ((t + s) / 2) = 12) by lra. set (nu := (t + s) / 2) in *. set (mu := (t - s) / 2) in *.
    assert (Nu : 2e7 <= nu) by (unfold nu; lra). clearbody mu nu. assert (Mu : 0 < mu) by nra.
    rewrite !Rabs_pos_eq by lra. assert (mu <= 12 / 2e7) by nra. lra.
Qed.

(** Such a test exists. *)
Lemma exact_exists : exists ill, exact_test ill.
Proof.
  set (P n A := (forall mu, eigenvalue n A mu -> mu = 0) \/ exists mu nu, eigenvalue n A mu /\ eigenvalue n A nu /\ Rabs mu < 1e-12 * Rabs nu).
  exists (fun n A => if EM_dec (P n A) then true else false). intros n A _. destruct (EM_dec (P n A)) as [H|H].
  - split; intros _; [|reflexivity]. apply Classical_Prop.NNPP. exact H.
  - split; intros Q; [discriminate|]. contradiction.
Qed.

Lemma nn_proper : proper nn.
Proof. split; cbn; lra. Qed.
Lemma wide_proper : proper wide.
Proof. split; cbn; lra. Qed.
(** The rotation read at the left end of the span with the hinge. *)
Lemma pf_left_end gl ill : exists c a r r', plain_ctor c /\ analysis_init c = Ok a /\
  snd (analyze gl ill a (fun _ => []) None true) = Ok r /\ snd (analyze gl ill (analysis_units nn a) (fun _ => []) None true) = Ok r' /\
  read_at 0 (r_x (br_all r)) (r_R (br_all r)) <> 0 /\
  read_at 0 (r_x (br_all r')) (r_R (br_all r')) = 1e9 * read_at 0 (r_x (br_all r)) (r_R (br_all r)).
Proof.
  destruct (pf_results gl ill 1 1 1) as (r & A & E); [lra|lra|].
  destruct (pf_results gl ill (len nn 1) (per nn 1) (u_for nn * u_len nn ^ 2 * 1)) as (r' & A' & E'); [unfold len; cbn; lra|cbn; lra|].
  exists (pf_ctor 1 1 1), (pf_an 1 1 1), r, r'. split; [apply pf_plain; lra|]. split; [apply pf_init|]. split; [exact A|].
  split; [rewrite pf_units by apply nn_proper; exact A'|]. rewrite E, E'. unfold len, per. cbn [nn u_len u_for]. split; [lra|]. field.
Qed.
Lemma cl_test_differs gl ill : exact_test ill -> exists u c a r, proper u /\ plain_ctor c /\ analysis_init c = Ok a /\
  snd (analyze gl ill a (fun _ => []) None true) = Ok r /\ snd (analyze gl ill (analysis_units u a) (fun _ => []) None true) = Err ValueError.
Proof.
  intros T. destruct (cl_differs gl ill T) as ((r & A) & B). exists wide, (cl_ctor 1 1), (cl_an 1 1), r.
  split; [apply wide_proper|]. split; [apply cl_plain; lra|]. split; [apply cl_init|]. split; [exact A|exact B].
Qed.
(** A case of the main theorems: that span in newtons and millimetres. *)
Lemma pf_case gl ill : plain_ctor (pf_ctor 6 2 3) /\ analysis_init (pf_ctor 6 2 3) = Ok (pf_an 6 2 3) /\ plain (an_beam (pf_an 6 2 3)) /\
  analysis_units nn (pf_an 6 2 3) = pf_an 6000 2 3e9 /\
  exists r r', snd (analyze gl ill (pf_an 6 2 3) (fun _ => []) None true) = Ok r /\ snd (analyze gl ill (pf_an 6000 2 3e9) (fun _ => []) None true) = Ok r'.
Proof.
  assert (U : analysis_units nn (pf_an 6 2 3) = pf_an 6000 2 3e9).
  { rewrite pf_units by apply nn_proper. unfold len, per. cbn [nn u_len u_for]. f_equal; field. }
  split; [apply pf_plain; lra|]. split; [apply pf_init|]. split; [apply (proj2 (init_units nn nn_proper (pf_ctor 6 2 3) ltac:(apply pf_plain; lra))), pf_init|]. split; [exact U|].
  destruct (pf_results gl ill 6 2 3) as (r & A & _); [lra|lra|]. destruct (pf_results gl ill 6000 2 3e9) as (r' & A' & _); [lra|lra|]. exists r, r'. auto.
Qed.

(** A span of 6 m whose rigidity grows linearly from 3 to 9 and whose shear rigidity is a parabola. *)
Definition grows : sect := {| s_pieces := [{| p_x0 := 0; p_x1 := 6; p_coeffs := [1; 3]; p_degree := 1 |}]; s_joins := [6]; s_kinks := []; s_x0 := 0; s_end := 6 |}.
Definition bulges : sect := {| s_pieces := [{| p_x0 := 0; p_x1 := 6; p_coeffs := [-1; 6; 4]; p_degree := 2 |}]; s_joins := [6]; s_kinks := []; s_x0 := 0; s_end := 6 |}.
Definition tp_ctor : ctor := {| ct_L := [6; 5]; ct_EI := EIEach [RSect grows; RConst 4]; ct_R := Some [-1; 0; -1; 0; -1; 0]; ct_LM := Some [Row 1 1 [2]];
  ct_types := [EtNum [1%Z]; EtNum [1%Z]]; ct_D := None; ct_sup := None; ct_GAv := GEach [Some (RSect bulges); None]; ct_kf := KNone |}.
Lemma grows_whole : whole 6 (RSect grows).
Proof. eexists. repeat (split; [reflexivity|]). intros x Hx. unfold piece_eval, polyval. cbn. lra. Qed.
Lemma bulges_whole : whole 6 (RSect bulges).
Proof. eexists. repeat (split; [reflexivity|]). intros x Hx. unfold piece_eval, polyval. cbn. nra. Qed.
Lemma tp_plain : plain_ctor tp_ctor.
Proof.
  repeat apply conj; cbn.
  - repeat constructor; lra.
  - intros l e [E|[E|[]]]; injection E as <- <-; [exact grows_whole|cbn; lra].
  - intros l g [E|[E|[]]]; injection E as <- <-; [exact bulges_whole|exact I].
  - exact I.
Qed.
Lemma tp_init : exists a, analysis_init tp_ctor = Ok a /\ plain (an_beam a) /\ b_EIs (an_beam a) = [RSect grows; RConst 4].
Proof.
  assert (V1 : validate_length grows 6 = Ok tt) by (apply (check_whole 6 (RSect grows)); [lra|exact grows_whole]).
  assert (V2 : validate_length bulges 6 = Ok tt) by (apply (check_whole 6 (RSect bulges)); [lra|exact bulges_whole]).
  assert (P := proj2 (init_units nn nn_proper tp_ctor tp_plain)). revert P.
  unfold analysis_init, beam_init. cbn -[validate_length plain]. unfold add_span. cbn [check_rigid]. rewrite V1, V2. cbn -[validate_length plain].
  intros P. eexists. split; [reflexivity|]. split; [apply P; reflexivity|reflexivity].
Qed.

(** Half a metre of span under a section 0.9 micrometres longer. *)
Definition longer : sect := {| s_pieces := [{| p_x0 := 0; p_x1 := 0.5000009; p_coeffs := [3]; p_degree := 0 |}]; s_joins := [0.5000009]; s_kinks := []; s_x0 := 0; s_end := 0.5000009 |}.
Definition lo_ctor : ctor := {| ct_L := [0.5]; ct_EI := EIAll (RSect longer); ct_R := Some [-1; 0; -1; 0]; ct_LM := Some [Row 1 1 [2]];
  ct_types := [EtNum [1%Z]]; ct_D := None; ct_sup := None; ct_GAv := GNone; ct_kf := KNone |}.
Lemma longer_built pf : add_segment pf sect_empty "const"%string [0; 0.5000009] (EScalar 3) None = Ok longer.
Proof.
  assert (I : strictly_incr [0; 0.5000009] = true). { cbn. destruct (Rleb_spec (0.5000009 - 0) 0); [lra|reflexivity]. }
  assert (Z : isclose0 0 0 (1e-9 * Rmax 1 (Rabs 0)) = true).
  { unfold isclose0. rewrite Rminus_0_r, Rabs_R0, (Rmax_left 1 0) by lra. destruct (Rleb_spec 0 (1e-9 * 1)); [reflexivity|lra]. }
  assert (C : check_positive [3] = Ok tt). { unfold check_positive. cbn. repeat match goal with |- context [Rltb ?a ?b] => destruct (Rltb_spec a b); try lra | |- context [Rleb ?a ?b] => destruct (Rleb_spec a b); try lra end. reflexivity. }
  unfold add_segment. rewrite I. cbv zeta. change (head_R [0; 0.5000009]) with 0. cbn [s_pieces sect_empty]. rewrite Z. cbn -[check_positive isclose0]. rewrite C. reflexivity.
Qed.
Lemma lo_units : (forall pf, add_segment pf sect_empty "const"%string [0; 0.5000009] (EScalar 3) None = Ok longer) /\
  (exists a, analysis_init lo_ctor = Ok a) /\ analysis_init (ctor_units nn lo_ctor) = Err ValueError.
Proof.
  split; [exact longer_built|].
  assert (V1 : validate_length longer 0.5 = Ok tt).
  { unfold validate_length, longer, sect_length, isclose0. cbn [s_pieces s_end s_x0]. rewrite (Rabs_right 0.5), (Rmax_left 1 0.5), Rabs_right by lra. destruct (Rleb_spec (0.5000009 - 0 - 0.5) (1e-6 * 1)); [reflexivity|lra]. }
  assert (V2 : validate_length (sect_units nn (u_for nn * u_len nn ^ 2) longer) (len nn 0.5) = Err ValueError).
  { unfold validate_length, longer, sect_units, sect_length, isclose0, len. cbn [s_pieces s_end s_x0 map]. cbn [nn u_len].
    rewrite (Rabs_right (1000 * 0.5)), (Rmax_right 1 (1000 * 0.5)), Rabs_right by lra. destruct (Rleb_spec (1000 * 0.5000009 - 1000 * 0 - 1000 * 0.5) (1e-6 * (1000 * 0.5))); [lra|reflexivity]. }
  split.
  - eexists. unfold analysis_init, beam_init. cbn -[validate_length]. unfold add_span. cbn [check_rigid]. rewrite V1. reflexivity.
  - unfold analysis_init, beam_init. cbn -[validate_length ei_units len]. unfold add_span. unfold ei_units. cbn [check_rigid rigid_units]. rewrite V2. reflexivity.
Qed.
Lemma lo_units_ex : exists s c, (forall pf, add_segment pf sect_empty "const"%string [0; 0.5000009] (EScalar 3) None = Ok s) /\
  ct_L c = [0.5] /\ ct_EI c = EIAll (RSect s) /\
  (exists a, analysis_init c = Ok a) /\ analysis_init (ctor_units nn c) = Err ValueError.
Proof. destruct lo_units as (A & B & C). exists longer, lo_ctor. auto. Qed.
