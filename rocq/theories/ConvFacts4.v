(** Tables of one member against its bent shape. *)
From Coquelicot Require Import Coquelicot.
From Coq Require Import Lia Sorting.
From Verif Require Import Base BaseFacts Linalg SectionModel FlexModel LoadModel LoadSpec LoadFacts DiagFacts ClampFacts FoundationModel ElementModel ElementSpec ElementFacts
  TimoFacts UtilsModel BeamModel AnalysisModel AnalysisSpec MechFacts ResultsModel ResultsSpec ResultsFacts ExactSpec ExactFacts ExactFacts2 ConvFacts ConvFacts2 ConvFacts3.
Open Scope R_scope.

Section Member.
Variable gl : nat -> list (R * R).
Variable mb : member.
Variables (ei : R) (ga : option R).
Hypothesis PR : prismatic mb.
Hypothesis EE : mb_EI mb = RConst ei.
Hypothesis EG : mb_GAv mb = option_map RConst ga.
Local Notation L := (mb_L mb).
Variable lds : list load.
Hypothesis X : Forall (exact_load mb) lds.
Hypothesis A : Forall (attached mb) lds.
Hypothesis NE : Forall no_end_moments lds.
Let HL : 0 < L := pr_L _ PR.
Let Hei : 0 < ei := Hei mb ei PR EE.

Lemma fixed_sums Ma Mb : ga = None -> end_sums gl lds L Ma Mb -> exists e, span_ref gl (set_type mb 1) lds = Ok e /\ e 1%nat = Ma /\ e 3%nat = Mb.
Proof using PR EE EG HL Hei.
  intros G (cs & Hcs & -> & ->). unfold span_ref. cbn [set_type mb_kf]. rewrite (pr_kf _ PR).
  assert (P : forall acc, exists e, foldM (fun acc ld => do v <- ref_one gl (set_type mb 1) ld; Ok (fun i => acc i + v i)) lds acc = Ok e /\
    e 1%nat = acc 1%nat + lsum (map c_Ma cs) /\ e 3%nat = acc 3%nat + lsum (map c_Mb cs)).
  { clear X A NE. revert cs Hcs. induction lds as [|ld l IH]; intros cs Hcs acc; cbn [mapM] in Hcs.
    - injection Hcs as <-. exists acc. cbn. split; [reflexivity|]. split; ring.
    - apply rbind_ok in Hcs as (c & Hc & Hcs). apply rbind_ok in Hcs as (cs' & Hcs' & Hcs). injection Hcs as <-. cbn [foldM].
      unfold ref_one at 1. cbn [set_type mb_GAv mb_EI mb_L mb_type]. rewrite EE, EG, G. cbn [option_map]. unfold load_get_ref. rewrite Hc. cbn [rbind].
      destruct (IH cs' Hcs' (fun i => acc i + cnl_vec (release c L 1) i)) as (e & E & E1 & E3). exists e. split; [exact E|]. cbn [map]. rewrite !lsum_cons, E1, E3. cbn. split; ring. }
  destruct (P (fun _ => 0)) as (e & E & E1 & E3). exists e. split; [exact E|]. split; [rewrite E1; ring|rewrite E3; ring].
Qed.
Lemma exact_start f V M th y Ma Mb : ga = None -> end_sums gl lds L Ma Mb -> bent_member L ei ga (imposed lds) (actions L lds) f V M th y ->
  th 0 = (y L - y 0) / L - (L / (3 * ei)) * (- (f 1%nat - 1/2 * f 3%nat) + (Ma - 1/2 * Mb)).
Proof using PR EE EG HL Hei X A.
  intros G HS B. destruct (fixed_sums Ma Mb G HS) as (e & He & E1 & E3). set (d := vec4 (y 0) (th 0) (y L) (th L)).
  destruct (fixed_bent gl mb ei ga PR EE EG lds e d X A He) as (V' & M' & th' & y' & B' & a & b & c & q).
  assert (E : eq4 f (fun p => end_forces (k1 mb ei ga) d p + e p)).
  { apply (bent_unique _ _ _ _ _ _ _ _ _ _ _ _ _ _ _ HL Hei (Hflex mb ga PR EG) B B'); cbn in *; congruence. }
  rewrite (E 1%nat ltac:(lia)), (E 3%nat ltac:(lia)), E1, E3. unfold k1. rewrite G. unfold end_forces, mulmv, d. cbn -[pow]. field. lra.
Qed.

(** Shear and moment of the tables. *)
Variable f0 : vec.
Definition Vt (x : R) : R := (f0 1%nat + f0 3%nat) / L + V_all L lds x.
Definition Mt (x : R) : R := ((f0 1%nat + f0 3%nat) / L * x - f0 1%nat) + M_all L lds x.
Definition kt (x : R) : R := Mt x / ei + imposed lds x.
Lemma within : Forall (within_member L) lds. Proof using X. eapply Forall_impl; [|exact X]. intros ld [W _]. exact W. Qed.
Variables (d0 : vec) (V M th y : R -> R).
Hypothesis B : bent_member L ei ga (imposed lds) (actions L lds) f0 V M th y.
Hypothesis J : joined (mb_type mb) d0 f0 L th y.
Lemma table_bent : bent_member L ei ga (imposed lds) (actions L lds) f0 Vt Mt th y.
Proof using PR X NE B HL.
  assert (C : cut_equilibrium L (actions L lds) (Vt 0) (f0 1%nat) (f0 3%nat) Vt Mt).
  { eapply cut_ext; [apply cut_drop_none, (cut_plus _ _ _ _ _ _ _ _ _ _ _ _ _ (load_cut L (LMaMb (f0 1%nat) (f0 3%nat)) HL (conj I I)) (loads_cut _ _ HL within NE))|..].
    - reflexivity. - cbn. ring. - cbn. ring. - reflexivity. - reflexivity. }
  assert (E : Vt 0 = f0 0%nat).
  { destruct (ce_far_end _ _ _ _ _ _ _ C) as (I1 & i1 & e1), (ce_far_end _ _ _ _ _ _ _ (bm_cuts _ _ _ _ _ _ _ _ _ _ B)) as (I2 & i2 & e2).
    rewrite (RInt_same _ _ _ _ _ i1 i2) in e1. apply (Rmult_eq_reg_r L); lra. }
  rewrite E in C. exact (bent_curves _ _ _ _ _ _ _ _ _ _ _ _ B C).
Qed.
Lemma table_error h E1 E2 npts sp r f d : misses L h kt th E1 -> misses L h (fun t => th t - shear_angle ga (Vt t)) y E2 ->
  h = L / INR npts -> (0 < npts)%nat -> f 1%nat = f0 1%nat -> f 3%nat = f0 3%nat -> (forall q, (q < 3)%nat -> d q = d0 q) ->
  member_values gl mb lds f d npts sp = Ok r ->
  forall k, (0 < k < length (r_x r) - 1)%nat ->
    Rabs (nth k (r_R r) 0 - th (nth k (r_x r) 0)) <= 2 * (E1 L - E1 0) + (E2 L - E2 0) / L /\
    Rabs (nth k (r_D r) 0 - y (nth k (r_x r) 0)) <= 2 * (L * (E1 L - E1 0) + (E2 L - E2 0)).
Proof using PR EE EG X A NE B J HL Hei.
  intros M1 M2 -> Hn Ef1 Ef3 Ed H. assert (RX := member_values_x _ _ _ _ _ _ _ _ H). assert (T := member_values_table _ _ _ _ _ _ _ _ H). rewrite Ef1, Ef3 in T.
  destruct (member_values_recovered _ _ _ _ _ _ _ _ H HL Hn) as (cv & gm & P1 & P2 & P3 & P4 & P5).
  assert (N := stations_nodes L npts sp HL Hn). rewrite <- RX in N. set (n := (length (r_x r) - 2)%nat) in *.
  assert (LEN : (n + 2 = length (r_x r))%nat) by (unfold n; rewrite RX, stations_len; lia).
  assert (TV : forall k, (1 <= k <= n)%nat -> nth k (r_V r) 0 = Vt (nth k (r_x r) 0) /\ nth k (r_M r) 0 = Mt (nth k (r_x r) 0)).
  { intros k Hk. destruct T as [t1 t2 t3 t4]. rewrite <- RX in t3. exact (t3 k ltac:(lia)). }
  assert (CV : forall k, (1 <= k <= n)%nat -> cv k = kt (nth k (r_x r) 0) /\ gm k = - shear_angle ga (Vt (nth k (r_x r) 0))).
  { intros k Hk. destruct (P1 k ltac:(lia)) as [(e & Re & Q1) Q2]. destruct (TV k Hk) as [EV EM]. rewrite Rminus_0_r in *. rewrite EE in Re. cbn in Re. subst e. rewrite EM in Q1. split; [exact Q1|].
    unfold shear_strain in Q2. rewrite EG in Q2. destruct ga as [g|]; cbn [option_map shear_angle] in *; [|lra]. destruct Q2 as (v & Rv & Q2). cbn in Rv. subst v. rewrite Q2, EV. unfold Rdiv. ring. }
  intros k Hk. refine (curve_error L HL (L / INR npts) n (fun k => nth k (r_x r) 0) kt th (fun t => shear_angle ga (Vt t)) y E1 E2 (fun k => nth k (r_R r) 0) (fun k => nth k (r_D r) 0) N M1 M2 _ _ _ _ k ltac:(lia)).
  - intros j Hj. destruct (P2 j ltac:(lia)) as [Q _]. rewrite Nat.add_1_r in Q. rewrite Q, (proj1 (CV j ltac:(lia))), (proj1 (CV (S j) ltac:(lia))). reflexivity.
  - intros j Hj. destruct (P2 j ltac:(lia)) as [_ Q]. rewrite Nat.add_1_r in Q. rewrite Q, (proj2 (CV j ltac:(lia))), (proj2 (CV (S j) ltac:(lia))). unfold Rminus. reflexivity.
  - rewrite P3, Ed by lia. symmetry. apply (jn_left _ _ _ _ _ _ J).
  - assert (T1 := pr_type _ PR). destruct (Nat.eq_dec (mb_type mb) 1) as [E|E].
    + left. rewrite P4, Ed by lia. symmetry. apply (jn_turn_left _ _ _ _ _ _ J). rewrite E. intros [].
    + destruct (Classical_Prop.classic (end_matched mb lds (stations L npts sp))) as [Em|Em].
      * right. fold n in P5. rewrite (P5 ltac:(lia)). { rewrite Ed by lia. symmetry. apply (jn_right _ _ _ _ _ _ J). }
        rewrite RX. replace (map (fun x => x - 0) (stations L npts sp)) with (stations L npts sp); [exact Em|]. rewrite <- map_id at 1. apply map_ext. intros a. ring.
      * left. destruct (start_rotation _ _ _ _ _ _ _ _ H HL Hn ltac:(lia) Em) as (ei' & Ma & Mb & Ei & HS & Q). rewrite EE in Ei. injection Ei as <-.
        assert (G : ga = None). { destruct ga as [g|]; [|reflexivity]. exfalso. apply Em. right. left. exists (RConst g). exact EG. }
        rewrite (exact_start f0 V M th y Ma Mb G HS B), Q, Ef1, Ef3, !Ed by lia. rewrite (jn_left _ _ _ _ _ _ J), (jn_right _ _ _ _ _ _ J). reflexivity.
Qed.

(** ** First order *)
Lemma kt_tame : tame L kt.
Proof using HL.
  unfold kt, Mt. apply tame_plus; [|apply good_tame, imposed_good, HL].
  apply (tame_ext L (fun x => / ei * ((f0 1%nat + f0 3%nat) / L * x - f0 1%nat + M_all L lds x))); [intros x _; unfold Rdiv; ring|].
  apply tame_scal, tame_plus; [|apply M_all_tame, HL]. apply good_tame. apply good_minus; [|apply good_const]. apply good_scal, good_id. lra.
Qed.
Lemma th_tame : tame L th.
Proof using PR X NE B HL.
  destruct kt_tame as (W & HW). assert (TB := table_bent). set (Bd := Rabs (kt 0) + (W L - W 0)).
  assert (B0 : 0 <= Bd). { assert (P := Rabs_pos (kt 0)). assert (Q := varies_rising L kt W HW 0 L ltac:(lra) ltac:(lra)). unfold Bd. lra. }
  exists (fun x => Bd * x). intros s t Hs Ht.
  assert (I : is_RInt kt s t (th t - th s)) by (apply from_start; apply (bm_rotation _ _ _ _ _ _ _ _ _ _ TB); lra).
  eapply Rle_trans; [apply (RInt_abs_le kt s t _ Bd ltac:(lra) I)|right; ring].
  intros x Hx. exact (varies_bound L kt W x HW ltac:(lra)).
Qed.
Lemma slope_tame : tame L (fun t => th t - shear_angle ga (Vt t)).
Proof using PR X NE B HL.
  apply tame_minus; [exact th_tame|]. apply (tame_ext L (fun t => flex ga * Vt t)); [intros x _; rewrite angle_flex; ring|].
  apply tame_scal. unfold Vt. apply tame_plus; [apply good_tame, good_const|apply V_all_tame, HL].
Qed.
Lemma first_order : exists C, 0 <= C /\ forall npts sp r f d, (0 < npts)%nat -> f 1%nat = f0 1%nat -> f 3%nat = f0 3%nat -> (forall q, (q < 3)%nat -> d q = d0 q) ->
  member_values gl mb lds f d npts sp = Ok r ->
  forall k, (0 < k < length (r_x r) - 1)%nat ->
    Rabs (nth k (r_R r) 0 - th (nth k (r_x r) 0)) <= C / INR npts /\ Rabs (nth k (r_D r) 0 - y (nth k (r_x r) 0)) <= C / INR npts.
Proof using PR EE EG X A NE B J HL Hei.
  destruct kt_tame as (W1 & H1). destruct slope_tame as (W2 & H2). assert (TB := table_bent).
  assert (P1 := varies_rising _ _ _ H1 0 L ltac:(lra) ltac:(lra)). assert (P2 := varies_rising _ _ _ H2 0 L ltac:(lra) ltac:(lra)).
  set (w1 := W1 L - W1 0). set (w2 := W2 L - W2 0). assert (Q1 : 0 <= w1) by (unfold w1; lra). assert (Q2 : 0 <= w2) by (unfold w2; lra).
  exists ((2 * L * w1 + w2) + 2 * (L * L * w1 + L * w2)).
  assert (C1 : 0 <= 2 * L * w1 + w2). { assert (0 <= L * w1) by (apply Rmult_le_pos; lra). lra. }
  assert (C2 : 0 <= 2 * (L * L * w1 + L * w2)). { assert (0 <= L * (L * w1)) by (apply Rmult_le_pos; [lra|]; apply Rmult_le_pos; lra). assert (0 <= L * w2) by (apply Rmult_le_pos; lra). lra. }
  split; [lra|]. intros npts sp r f d Hn Ef1 Ef3 Ed H k Hk. assert (HN : 0 < INR npts) by (apply lt_0_INR; exact Hn).
  assert (h0 : 0 <= L / INR npts) by (left; apply Rdiv_lt_0_compat; assumption).
  destruct (table_error (L / INR npts) _ _ npts sp r f d (misses_first L _ _ _ _ h0 H1 (bm_rotation _ _ _ _ _ _ _ _ _ _ TB)) (misses_first L _ _ _ _ h0 H2 (bm_deflection _ _ _ _ _ _ _ _ _ _ TB)) eq_refl Hn Ef1 Ef3 Ed H k Hk) as [Z1 Z2].
  assert (I : 0 <= / INR npts) by (left; apply Rinv_0_lt_compat, HN).
  assert (D1 : forall c c', 0 <= c' -> c / INR npts <= (c + c') / INR npts) by (intros c c' Hc; unfold Rdiv; apply Rmult_le_compat_r; lra).
  split.
  - eapply Rle_trans; [exact Z1|]. eapply Rle_trans; [|apply D1, C2]. right. fold w1 w2. unfold w1, w2. field. lra.
  - eapply Rle_trans; [exact Z2|]. rewrite (Rplus_comm (2 * L * w1 + w2)). eapply Rle_trans; [|apply D1, C1]. right. unfold w1, w2. field. lra.
Qed.
End Member.
