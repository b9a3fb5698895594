(** Second order, and the analysis of a beam. *)
From Coquelicot Require Import Coquelicot.
From Coq Require Import Lia Sorting.
From Verif Require Import Base BaseFacts Linalg SectionModel FlexModel LoadModel LoadSpec LoadFacts DiagFacts ClampFacts FoundationModel ElementModel ElementSpec ElementFacts
  TimoFacts UtilsModel BeamModel AnalysisModel AnalysisSpec AnalysisFacts3 MechFacts ResultsModel ResultsSpec ResultsFacts ExactSpec ExactFacts ExactFacts2 ExactFacts3 ConvSpec ConvFacts ConvFacts2 ConvFacts3 ConvFacts4.
Open Scope R_scope.

(** ** Shear is the rate of the moment *)
Lemma H_int a x : 0 <= a -> 0 <= x -> is_RInt (fun t => H (t - a) 0) 0 x (MB (x - a)).
Proof.
  intros Ha Hx. destruct (Rle_dec x a) as [Hxa|Hxa].
  - rewrite MB_neg by lra. apply (is_RInt_ext (fun _ => 0)); [|eapply is_RInt_eqval; [apply (@is_RInt_const R_NormedModule)|unfold scal; cbn; unfold mult; cbn; ring]].
    intros t Ht. rewrite Rmin_left, Rmax_right in Ht by lra. unfold H. destruct (Rlt_dec (t - a) 0); [reflexivity|lra].
  - apply Rnot_le_lt in Hxa. rewrite MB_pos by lra. eapply is_RInt_eqval.
    + apply (is_RInt_Chasles _ 0 a x).
      * apply (is_RInt_ext (fun _ => 0)); [|apply (@is_RInt_const R_NormedModule)]. intros t Ht. rewrite Rmin_left, Rmax_right in Ht by lra. unfold H. destruct (Rlt_dec (t - a) 0); [reflexivity|lra].
      * apply (is_RInt_ext (fun _ => 1)); [|apply (@is_RInt_const R_NormedModule)]. intros t Ht. rewrite Rmin_left, Rmax_right in Ht by lra. unfold H. destruct (Rlt_dec (t - a) 0); [lra|]. destruct (Rlt_dec 0 (t - a)); [reflexivity|lra].
    + unfold scal, plus; simpl. unfold mult; simpl. inR. ring.
Qed.
Lemma lin_int w1 s a b L x : 0 < L -> is_RInt (f_V (lin_diag w1 s a b L)) 0 x (f_M (lin_diag w1 s a b L) x - f_M (lin_diag w1 s a b L) 0).
Proof.
  intros HL. eapply is_RInt_eqval; [apply (is_RInt_derive (V := R_CompleteNormedModule) (f_M (lin_diag w1 s a b L)))|reflexivity].
  - intros t _. apply lin_rate_M; exact HL.
  - intros t _. apply lin_V_cont.
Qed.
Lemma int_ext d1 d2 x : diag_eq d1 d2 -> is_RInt (f_V d1) 0 x (f_M d1 x - f_M d1 0) -> is_RInt (f_V d2) 0 x (f_M d2 x - f_M d2 0).
Proof. intros (EV & EM & _ & _) H1. rewrite <- !EM. eapply is_RInt_ext; [|exact H1]. intros t _. apply EV. Qed.
Lemma trans_int ld L d x : 0 < L -> transverse ld -> within_member L ld -> diag_of ld L = Some d -> 0 <= x <= L -> is_RInt (f_V d) 0 x (f_M d x - f_M d 0).
Proof.
  intros HL Ht [Hon Hin] E Hx. destruct ld; try contradiction; cbn in E; injection E as <-; cbn in Hon, Hin.
  - eapply is_RInt_eqval.
    + apply (is_RInt_ext (fun x => w*L/2 + (-w)*x + 0*x^2 + 0*x^3 + 0*x^4)); [intros t _; cbn; inR; field|]. apply is_RInt_quartic.
    + unfold P4. cbn. inR. field.
  - unfold pl_diag. rewrite Rmax_left by lra. cbn [f_M f_V]. rewrite (MB_neg (0 - a)) by lra. eapply is_RInt_eqval.
    + eapply is_RInt_ext; [|exact (is_RInt_minus _ _ _ _ _ _ (is_RInt_const (V := R_NormedModule) 0 x (P * (L - a) / L)) (is_RInt_scal _ _ _ P _ (H_int a x ltac:(lra) ltac:(lra))))].
      intros t _. unfold minus, plus, opp, scal; cbn. unfold mult; cbn. inR. ring.
    + unfold minus, plus, opp, scal; cbn. unfold mult; cbn. inR. ring.
  - apply (int_ext (lin_diag w 0 a (a + c) L)); [|apply lin_int, HL].
    unfold diag_eq, lin_diag, pudl_diag; cbn [f_V f_M f_R f_D]. rewrite (Rplus_comm c a). repeat split; intros t; field; lra.
  - unfold trap_diag, trap_resolve. destruct Hon as [Ha Hc].
    set (cc := match c with Some c => c | None => L - a end) in *. assert (Hc0 : 0 <= cc) by (unfold cc; destruct c; lra). clearbody cc. clear Hc.
    assert (Z : is_RInt (fun _ : R => 0) 0 x (0 - 0)) by (rewrite Rminus_0_r; apply is_RInt_zero).
    rleb L a; cbn [orb]; [rewrite (proj2 (Rleb_true 0 0)) by lra; exact Z|]. rleb cc 0; [rewrite (proj2 (Rleb_true 0 0)) by lra; exact Z|].
    rcase L (a + cc).
    + rleb (L - a) 0; [lra|]. apply (int_ext (lin_diag w1 ((w2 - w1)/cc) a L L)); [|apply lin_int, HL].
      unfold diag_eq, lin_diag; cbn [f_V f_M f_R f_D]. replace (a + (L - a)) with L by ring. repeat split; intros t; field; lra.
    + rleb cc 0; [lra|]. apply (int_ext (lin_diag w1 ((w2 - w1)/cc) a (a + cc) L)); [|apply lin_int, HL].
      unfold diag_eq, lin_diag; cbn [f_V f_M f_R f_D]. repeat split; intros t; field; lra.
Qed.
Lemma zero_int c x : is_RInt (fun _ : R => 0) 0 x (c - c).
Proof. replace (c - c) with 0 by ring. apply is_RInt_zero. Qed.
Lemma all_int L lds x : 0 < L -> Forall (within_member L) lds -> Forall no_end_moments lds -> Forall (fun ld => match ld with LML _ _ => False | _ => True end) lds -> 0 <= x <= L ->
  is_RInt (V_all L lds) 0 x (M_all L lds x - M_all L lds 0).
Proof.
  intros HL HW HN HM Hx. induction lds as [|ld lds IH]; [exact (zero_int 0 x)|].
  inversion_clear HW as [|? ? W1 W2]. inversion_clear HN as [|? ? N1 N2]. inversion_clear HM as [|? ? M1 M2].
  assert (P : is_RInt (V_of L ld) 0 x (M_of L ld x - M_of L ld 0)).
  { unfold V_of, M_of. destruct (diag_of ld L) as [d|] eqn:E; [|exact (zero_int 0 x)].
    destruct ld; cbn beta iota in M1; try contradiction; try (refine (trans_int _ _ _ _ HL _ W1 E Hx); exact I); try discriminate E.
    unfold no_end_moments in N1. cbn in N1, E. inversion N1. subst. injection E as <-. cbn. eapply is_RInt_eqval; [apply (is_RInt_ext (fun _ => 0)); [|apply is_RInt_zero]|]; [intros t _; unfold Rdiv; inR; ring|unfold Rdiv; inR; ring]. }
  assert (Q := is_RInt_plus _ _ _ _ _ _ P (IH W2 N2 M2)). eapply is_RInt_eqval; [eapply is_RInt_ext; [|exact Q]|].
  - intros t _. reflexivity.
  - unfold M_all. cbn [map]. rewrite !lsum_cons. unfold plus; cbn. ring.
Qed.

Section Second.
Variable gl : nat -> list (R * R).
Variable mb : member.
Variable ei : R.
Hypothesis PR : prismatic mb.
Hypothesis EE : mb_EI mb = RConst ei.
Hypothesis EG : mb_GAv mb = None.
Local Notation L := (mb_L mb).
Variable lds : list load.
Hypothesis X : Forall (exact_load mb) lds.
Hypothesis A : Forall (attached mb) lds.
Hypothesis NE : Forall no_end_moments lds.
Hypothesis NM : Forall (fun ld => match ld with LML _ _ => False | _ => True end) lds.
Variables (f0 d0 : vec) (V M th y : R -> R).
Hypothesis B : bent_member L ei None (imposed lds) (actions L lds) f0 V M th y.
Hypothesis J : joined (mb_type mb) d0 f0 L th y.
Let HL : 0 < L := pr_L _ PR.
Let Hei : 0 < ei := Hei mb ei PR EE.

Lemma kt_rate : exists v W, varies L v W /\ forall x, 0 <= x <= L -> is_RInt v 0 x (kt mb ei lds f0 x - kt mb ei lds f0 0).
Proof using PR EE X NE NM HL Hei.
  destruct (imposed_quadratic lds) as (k0 & k1 & k2 & E). { eapply Forall_impl; [|exact X]. intros ld [_ H]. destruct ld; try exact I. exact H. }
  set (v := fun x => / ei * Vt mb lds f0 x + (k1 + 2 * k2 * x)).
  assert (T : tame L v).
  { unfold v. apply tame_plus.
    - apply tame_scal. unfold Vt. apply tame_plus; [apply good_tame, good_const|apply V_all_tame, HL].
    - apply good_tame. apply good_plus; [apply good_const|]. apply good_scal, good_id. lra. }
  destruct T as (W & HW). exists v, W. split; [exact HW|]. intros x Hx.
  assert (I1 := all_int L lds x HL (within mb lds X) NE NM Hx).
  assert (I2 := is_RInt_quartic ((f0 1%nat + f0 3%nat) / L / ei + k1) (2 * k2) 0 0 0 0 x).
  assert (Q := is_RInt_plus _ _ _ _ _ _ I2 (is_RInt_scal _ _ _ (/ ei) _ I1)). eapply is_RInt_eqval; [eapply is_RInt_ext; [|exact Q]|].
  - intros t _. unfold v, Vt, plus, scal; cbn. unfold mult; cbn. inR. field. lra.
  - unfold kt, Mt. rewrite !E. unfold P4, plus, scal; cbn. unfold mult; cbn. inR. field. lra.
Qed.
Lemma second_order : exists C, 0 <= C /\ forall npts sp r f d, (0 < npts)%nat -> f 1%nat = f0 1%nat -> f 3%nat = f0 3%nat -> (forall q, (q < 3)%nat -> d q = d0 q) ->
  member_values gl mb lds f d npts sp = Ok r ->
  forall k, (0 < k < length (r_x r) - 1)%nat ->
    Rabs (nth k (r_R r) 0 - th (nth k (r_x r) 0)) <= C / INR npts ^ 2 /\ Rabs (nth k (r_D r) 0 - y (nth k (r_x r) 0)) <= C / INR npts ^ 2.
Proof using PR EE EG X A NE NM B J HL Hei.
  destruct kt_rate as (v & W1 & H1 & R1). destruct (kt_tame mb ei PR lds f0) as (W2 & H2). assert (TB := table_bent mb ei None PR lds X NE f0 V M th y B).
  assert (P1 := varies_rising _ _ _ H1 0 L ltac:(lra) ltac:(lra)). assert (P2 := varies_rising _ _ _ H2 0 L ltac:(lra) ltac:(lra)).
  set (w1 := W1 L - W1 0). set (w2 := W2 L - W2 0). assert (Q1 : 0 <= w1) by (unfold w1; lra). assert (Q2 : 0 <= w2) by (unfold w2; lra).
  assert (PL : 0 <= L * w1) by (apply Rmult_le_pos; lra). assert (PL2 : 0 <= L * (L * w1)) by (apply Rmult_le_pos; lra). assert (PL3 : 0 <= L * (L * (L * w1))) by (apply Rmult_le_pos; lra).
  assert (PM : 0 <= L * w2) by (apply Rmult_le_pos; lra). assert (PM2 : 0 <= L * (L * w2)) by (apply Rmult_le_pos; lra).
  exists ((2 * (L * (L * w1)) + L * w2) + 2 * (L * (L * (L * w1)) + L * (L * w2))). split; [lra|].
  intros npts sp r f d Hn Ef1 Ef3 Ed H k Hk. assert (HN : 0 < INR npts) by (apply lt_0_INR; exact Hn).
  assert (h0 : 0 <= L / INR npts) by (left; apply Rdiv_lt_0_compat; assumption).
  assert (RD : forall x, 0 <= x <= L -> is_RInt (kt mb ei lds f0) 0 x ((th x - shear_angle None (Vt mb lds f0 x)) - (th 0 - shear_angle None (Vt mb lds f0 0)))).
  { intros x Hx. cbn [shear_angle]. rewrite !Rminus_0_r. exact (bm_rotation _ _ _ _ _ _ _ _ _ _ TB x Hx). }
  destruct (table_error gl mb ei None PR EE EG lds X A NE f0 d0 V M th y B J (L / INR npts) _ _ npts sp r f d (misses_second L _ _ _ _ _ h0 H1 R1 (bm_rotation _ _ _ _ _ _ _ _ _ _ TB))
    (misses_second L _ (fun t => th t - shear_angle None (Vt mb lds f0 t)) _ _ _ h0 H2 RD (bm_deflection _ _ _ _ _ _ _ _ _ _ TB)) eq_refl Hn Ef1 Ef3 Ed H k Hk) as [Z1 Z2].
  assert (HN2 : 0 < INR npts ^ 2) by (apply pow_lt, HN). assert (I : 0 <= / INR npts ^ 2) by (left; apply Rinv_0_lt_compat, HN2).
  assert (D1 : forall c c', 0 <= c' -> c / INR npts ^ 2 <= (c + c') / INR npts ^ 2) by (intros c c' Hc; unfold Rdiv; apply Rmult_le_compat_r; lra).
  split.
  - eapply Rle_trans; [exact Z1|]. eapply Rle_trans; [|apply D1; lra]. right. unfold w1, w2. field. lra.
  - eapply Rle_trans; [exact Z2|]. rewrite (Rplus_comm (2 * (L * (L * w1)) + L * w2)). eapply Rle_trans; [|apply D1; lra]. right. unfold w1, w2. field. lra.
Qed.
End Second.

(** ** Analyses *)
Section Beam.
Variable gl : nat -> list (R * R).
Hypothesis G : gauss_rule gl.
Variable a : analysis.
Hypothesis EN : an_n a = b_nspans (an_beam a).
Hypothesis HP : members (an_beam a) (an_n a) prismatic.
Hypothesis HX : exact_loads (an_beam a) (an_n a).
Variables (D : vec) (ef : nat -> vec).
Hypothesis BB : bent_beam (an_beam a) (an_n a) D ef.

Lemma run_member ill sps npts check a' br m r mb ls : analyze gl ill a sps npts check = (a', Ok br) -> (m < an_n a)%nat -> nth_error (br_mem br) m = Some r ->
  member_at (an_beam a) m = Ok mb -> mb_kf mb = None -> parsed_loads (an_beam a) = Ok ls ->
  exists f d r0, eq4 (ef m) f /\ (forall q, (q < 4)%nat -> d q = ends D m q) /\ member_values gl mb (loads_of ls m) f d (an_npts a') (sps m) = Ok r0 /\ r = shift_x (node_x (an_beam a) m) r0.
Proof using G EN HP HX BB.
  intros H Hm Hr Em Hk Els. destruct (analyze_split _ _ _ _ _ _ _ _ H) as (o & Ho & Hv & _ & ED & _).
  destruct (analyze_core_state _ _ _ _ _ _ _ Ho) as (EB & _ & EF & EP). rewrite EB in Hv.
  destruct (analysis_only gl G ill a npts check a' o D ef HP HX Ho BB) as [DD FF].
  destruct (member_analysis_spec _ _ _ _ _ _ _ Hv) as (ls' & Hls & Hlen & Hs). rewrite Els in Hls. injection Hls as <-.
  destruct (Hs m ltac:(lia)) as (mb' & f & r' & (Hm' & Hn & Hf & Hres) & Hr'). rewrite Hr in Hr'. injection Hr' as ->.
  rewrite Em in Hm'. injection Hm' as <-. unfold member_results in Hres. rewrite Hk in Hres.
  exists f, (fun q => o_d o (2 * m + q)%nat), r'. split; [exact (FF m f Hm Hf)|]. split; [|split; [exact Hres|reflexivity]].
  intros q Hq. unfold ends. symmetry. apply DD. rewrite <- EF. lia.
Qed.
Lemma within_shift e c th y r : (forall k, (0 < k < length (r_x r) - 1)%nat -> Rabs (nth k (r_R r) 0 - th (nth k (r_x r) 0)) <= e /\ Rabs (nth k (r_D r) 0 - y (nth k (r_x r) 0)) <= e) ->
  tables_within e c th y (shift_x c r).
Proof. intros H k Hk. cbn [shift_x r_x r_R r_D] in *. rewrite map_length in Hk. rewrite shift_nth by lia. exact (H k Hk). Qed.

Lemma converge_first m th y : (m < an_n a)%nat -> member_shape (an_beam a) D m (ef m) th y ->
  exists C, forall ill sps npts check a' br r, analyze gl ill a sps npts check = (a', Ok br) -> (0 < an_npts a')%nat -> nth_error (br_mem br) m = Some r ->
    tables_within (C / INR (an_npts a')) (node_x (an_beam a) m) th y r.
Proof using G EN HP HX BB.
  intros Hm (mb & ls & ei & ga & V & M & A1 & A2 & A3 & A4 & B & J). assert (P := HP m mb Hm A1).
  destruct (first_order gl mb ei ga P A3 A4 (loads_of ls m) (HX m mb ls Hm A1 A2) (attached_loads _ _ _ _ A2 A1) (parsed_no_ends _ _ m A2) (ef m) (ends D m) V M th y B J) as (C & _ & HC).
  exists C. intros ill sps npts check a' br r H Hn Hr.
  destruct (run_member ill sps npts check a' br m r mb ls H Hm Hr A1 (pr_kf _ P) A2) as (f & d & r0 & F & Dd & Hv & ->).
  apply within_shift. intros k Hk. refine (HC _ _ _ _ _ Hn _ _ _ Hv k Hk); [symmetry; apply F; lia|symmetry; apply F; lia|intros q Hq; apply Dd; lia].
Qed.
Lemma converge_second m th y : (m < an_n a)%nat -> slender (an_beam a) m -> member_shape (an_beam a) D m (ef m) th y ->
  exists C, forall ill sps npts check a' br r, analyze gl ill a sps npts check = (a', Ok br) -> (0 < an_npts a')%nat -> nth_error (br_mem br) m = Some r ->
    tables_within (C / INR (an_npts a') ^ 2) (node_x (an_beam a) m) th y r.
Proof using G EN HP HX BB.
  intros Hm HS (mb & ls & ei & ga & V & M & A1 & A2 & A3 & A4 & B & J). assert (P := HP m mb Hm A1). destruct (HS mb ls A1 A2) as [S1 S2].
  assert (ga = None) as -> by (rewrite S1 in A4; destruct ga; [discriminate|reflexivity]).
  destruct (second_order gl mb ei P A3 S1 (loads_of ls m) (HX m mb ls Hm A1 A2) (attached_loads _ _ _ _ A2 A1) (parsed_no_ends _ _ m A2) S2 (ef m) (ends D m) V M th y B J) as (C & _ & HC).
  exists C. intros ill sps npts check a' br r H Hn Hr.
  destruct (run_member ill sps npts check a' br m r mb ls H Hm Hr A1 (pr_kf _ P) A2) as (f & d & r0 & F & Dd & Hv & ->).
  apply within_shift. intros k Hk. refine (HC _ _ _ _ _ Hn _ _ _ Hv k Hk); [symmetry; apply F; lia|symmetry; apply F; lia|intros q Hq; apply Dd; lia].
Qed.
End Beam.

(** There is an exact shape for every analysis that succeeds. *)
Lemma shapes_exist gl ill a npts check a' o : gauss_rule gl -> members (an_beam a) (an_n a) prismatic -> exact_loads (an_beam a) (an_n a) ->
  analyze_core gl ill a npts check = (a', Ok o) ->
  exists ef, bent_beam (an_beam a) (an_n a) (o_d o) ef /\ forall m, (m < an_n a)%nat -> exists th y, member_shape (an_beam a) (o_d o) m (ef m) th y.
Proof.
  intros G HP HX H. destruct (analysis_exact gl G ill a npts check a' o HP HX H) as (ef & B & _). exists ef. split; [exact B|].
  intros m Hm. destruct (proj1 B m Hm) as (V & M & mb & ls & ei & ga & th & y & S). exists th, y, mb, ls, ei, ga, V, M. exact S.
Qed.
