From Coquelicot Require Import Coquelicot.
From Coq Require Import Lia.
From Verif Require Import LinearFacts BedFacts2 TimoFacts ElementFacts2 ElementFacts ReleaseFacts ClampFacts DiagFacts LoadFacts Base BaseFacts Linalg SectionModel FlexModel LoadModel LoadSpec FoundationModel ElementModel ElementSpec UtilsModel BeamModel AnalysisModel AnalysisSpec AnalysisFacts AnalysisFacts2 AnalysisFacts3 MechFacts ResultsModel ResultsSpec ResultsFacts DetFacts ExactSpec ExactFacts ExactFacts2 ExactFacts3 ThreeSpec.
Open Scope R_scope.

Lemma shear_is_flex ga : shear_flex ga = flex ga. Proof. destruct ga; reflexivity. Qed.

(** Two states of one span under the same loads. *)
Lemma bent_difference L ei ga k A f g V M th y V' M' th' y' : 0 < L -> 0 < ei ->
  bent_member L ei ga k A f V M th y -> bent_member L ei ga k A g V' M' th' y' ->
  let p := f 0%nat - g 0%nat in let q := f 1%nat - g 1%nat in
  th L - th' L = th 0 - th' 0 + (p * L^2 / 2 - q * L) / ei /\
  y L - y' L = y 0 - y' 0 + (th 0 - th' 0) * L + (p * L^3 / 6 - q * L^2 / 2) / ei - p * flex ga * L /\
  f 3%nat - g 3%nat = - q + p * L.
Proof.
  intros HL HE [a1 a2 a3 a4] [b1 b2 b3 b4] p q. 
  assert (TH : forall x, 0 <= x <= L -> th x - th' x = th 0 - th' 0 + (p * x^2 / 2 - q * x) / ei).
  { intros x Hx. assert (S := is_RInt_minus _ _ _ _ _ _ (a3 x Hx) (b3 x Hx)).
    apply (RInt_except (map snd (moments A)) _ (fun t => (- q / ei) + (p / ei) * t + 0 * t^2 + 0 * t^3 + 0 * t^4)) in S; [|lra|].
    - assert (Q := RInt_same _ _ _ _ _ S (is_RInt_quartic _ _ _ _ _ _ _)). unfold minus, plus, opp in Q. cbn in Q.
      unfold P4 in Q. transitivity (th 0 - th' 0 + (th x - th 0 + - (th' x - th' 0))); [ring|]. f_equal. etransitivity; [exact Q|]. field. lra.
    - intros t Ht Hn. apply away_list in Hn. destruct (ce_moment _ _ _ _ _ _ _ a1 t ltac:(lra) Hn) as (I & i1 & e1), (ce_moment _ _ _ _ _ _ _ b1 t ltac:(lra) Hn) as (J & j1 & e2).
      rewrite (RInt_same _ _ _ _ _ i1 j1) in e1. unfold minus, plus, opp. cbn. rewrite e1, e2. unfold p, q. field. lra. }
  split; [exact (TH L ltac:(lra))|]. split.
  - assert (S := is_RInt_minus _ _ _ _ _ _ (a4 L ltac:(lra)) (b4 L ltac:(lra))).
    apply (RInt_except (map snd (forces A)) _ (fun t => (th 0 - th' 0 - p * flex ga) + (- q / ei) * t + (p / 2 / ei) * t^2 + 0 * t^3 + 0 * t^4)) in S; [|lra|].
    + assert (Q := RInt_same _ _ _ _ _ S (is_RInt_quartic _ _ _ _ _ _ _)). unfold minus, plus, opp in Q. cbn in Q.
      unfold P4 in Q. transitivity (y 0 - y' 0 + (y L - y 0 + - (y' L - y' 0))); [ring|]. rewrite Q. field. lra.
    + intros t Ht Hn. apply away_list in Hn. destruct (ce_shear _ _ _ _ _ _ _ a1 t ltac:(lra) Hn) as (I & i1 & e1), (ce_shear _ _ _ _ _ _ _ b1 t ltac:(lra) Hn) as (J & j1 & e2).
      rewrite (RInt_same _ _ _ _ _ i1 j1) in e1. unfold minus, plus, opp. cbn. rewrite !angle_flex, e1, e2.
      assert (T := TH t ltac:(lra)). replace (th t) with (th' t + (th 0 - th' 0 + (p * t^2 / 2 - q * t) / ei)) by lra. unfold p. field. lra.
  - destruct (ce_far_end _ _ _ _ _ _ _ a1) as (I' & i2 & e3), (ce_far_end _ _ _ _ _ _ _ b1) as (J' & j2 & e4). rewrite (RInt_same _ _ _ _ _ i2 j2) in e3. rewrite e3, e4. unfold p, q. ring.
Qed.
(** End rotations of a bent span from its end moments. *)
Lemma end_turns L ei ga k A f V M th y left right : 0 < L -> 0 < ei -> bent_member L ei ga k A f V M th y -> simple_span L ei ga k A left right ->
  th 0 = left + (y L - y 0) / L + L / (6 * ei) * (2 * f 1%nat - f 3%nat) + (f 1%nat + f 3%nat) * flex ga / L /\
  th L = right + (y L - y 0) / L + L / (6 * ei) * (2 * f 3%nat - f 1%nat) + (f 1%nat + f 3%nat) * flex ga / L.
Proof.
  intros HL HE B (g & V' & M' & th' & y' & B' & G1 & G3 & Y0 & YL & <- & <-). destruct (bent_difference _ _ _ _ _ _ _ _ _ _ _ _ _ _ _ HL HE B B') as (T & Y & E). cbv zeta in *.
  rewrite G1, G3, ?Rminus_0_r in *. set (p := f 0%nat - g 0%nat) in *. assert (P : p = (f 1%nat + f 3%nat) / L) by (rewrite E; field; lra). rewrite Y0, YL, !Rminus_0_r in Y. rewrite P in *. clear E. clearbody p.
  assert (D0 : th 0 - th' 0 = (y L - y 0) / L + L / (6 * ei) * (2 * f 1%nat - f 3%nat) + (f 1%nat + f 3%nat) * flex ga / L).
  { apply (Rmult_eq_reg_r L); [|lra]. assert (Q : (th 0 - th' 0) * L = y L - y 0 - (((f 1%nat + f 3%nat) / L * L ^ 3 / 6 - f 1%nat * L ^ 2 / 2) / ei - (f 1%nat + f 3%nat) / L * flex ga * L)) by lra. rewrite Q. field. lra. }
  split; [lra|]. assert (Q : th L = th' L + (th 0 - th' 0) + ((f 1%nat + f 3%nat) / L * L ^ 2 / 2 - f 1%nat * L) / ei) by lra. rewrite Q, D0. field. lra.
Qed.

(** ** Simple spans exist *)
Lemma simple_of_clamped L ei ga k A r : 0 < L -> 0 < ei -> clamps L ei ga k A r ->
  simple_span L ei ga k A (- (L / (6 * ei) * (2 * r 1%nat - r 3%nat)) - (r 1%nat + r 3%nat) * flex ga / L) (- (L / (6 * ei) * (2 * r 3%nat - r 1%nat)) - (r 1%nat + r 3%nat) * flex ga / L).
Proof.
  intros HL HE (V & M & t & y & H & a & b & c & q). set (p := - (r 1%nat + r 3%nat) / L).
  set (h := fun i : nat => match i with 0%nat => p | 1%nat => - r 1%nat | 2%nat => - p | _ => - r 3%nat end).
  set (t0 := - (L / (6 * ei) * (2 * r 1%nat - r 3%nat)) - (r 1%nat + r 3%nat) * flex ga / L).
  assert (P := poly_bent L ei ga h 0 0 0 t0 0 ltac:(cbn; ring) ltac:(cbn; unfold p; field; lra) ltac:(lra)).
  assert (S := bent_plus _ _ _ _ _ _ _ _ _ _ _ _ _ _ _ _ _ P H). cbv beta in S.
  assert (W : bent_member L ei ga k A (fun i => h i + r i) (fun x => h 0%nat + V x) (fun x => - h 1%nat + h 0%nat * x + M x) (fun x => t0 + (h 0%nat * x^2 / 2 - h 1%nat * x) / ei + (0 * x + 0 * x^2 / 2 + 0 * x^3 / 3) + t x)
    (fun x => 0 + t0 * x + (h 0%nat * x^3 / 6 - h 1%nat * x^2 / 2) / ei + (0 * x^2 / 2 + 0 * x^3 / 6 + 0 * x^4 / 12) - h 0%nat * flex ga * x + y x)).
  { destruct S as [S1 S2 S3 S4]. constructor; [apply cut_drop_none; exact S1| | |exact S4].
    - destruct S2 as (I & i1 & e1). exists I. split; [|exact e1]. refine (RInt_ext_all _ _ _ _ _ _ i1). intros x. cbn. ring.
    - intros x Hx. refine (RInt_ext_all _ _ _ _ _ _ (S3 x Hx)). intros x'. cbn. ring. }
  do 5 eexists. split; [exact W|]. cbv beta. rewrite a, b, c, q. unfold t0. clear - HL HE.  unfold h, p. repeat split; try ring; field; lra.
Qed.
Lemma simple_eq L ei ga k k' A l l' r r' : simple_span L ei ga k A l r -> (forall x, k x = k' x) -> l = l' -> r = r' -> simple_span L ei ga k' A l' r'.
Proof. intros (f & V & M & th & y & B & Q) E <- <-. exists f, V, M, th, y. split; [|exact Q]. eapply bent_ext; [exact B|exact E|intros i _; reflexivity]. Qed.
Lemma simple_plus L ei ga k1 k2 A B l1 r1 l2 r2 : simple_span L ei ga k1 A l1 r1 -> simple_span L ei ga k2 B l2 r2 -> simple_span L ei ga (fun x => k1 x + k2 x) (action_plus A B) (l1 + l2) (r1 + r2).
Proof.
  intros (f & V & M & th & y & H & a & b & c & d & <- & <-) (f' & V' & M' & th' & y' & H' & a' & b' & c' & d' & <- & <-).
  do 5 eexists. split; [exact (bent_plus _ _ _ _ _ _ _ _ _ _ _ _ _ _ _ _ _ H H')|]. cbv beta. rewrite a, b, c, d, a', b', c', d'. repeat split; ring.
Qed.
Lemma simple_none L ei : 0 < ei -> simple_span L ei None (fun _ => 0) no_action 0 0.
Proof.
  intros HE. assert (P := poly_bent L ei None (fun _ => 0) 0 0 0 0 0 ltac:(cbv beta; ring) ltac:(cbv beta; ring) ltac:(lra)). cbv beta in P.
  do 5 eexists. split; [eapply bent_ext; [exact P|intros x; cbv beta; ring|intros i _; reflexivity]|]. cbv beta. repeat split; unfold Rdiv; ring.
Qed.
Lemma ordinary_simple L ei lds : 0 < L -> 0 < ei -> Forall (ordinary L) lds ->
  simple_span L ei None (imposed lds) (actions L lds) (lsum (map (turn_left L ei) lds)) (lsum (map (turn_right L ei) lds)).
Proof.
  intros HL HE. induction 1 as [|ld lds O F IH]; [exact (simple_none L ei HE)|]. cbn [map]. rewrite !lsum_cons.
  assert (S : simple_span L ei None (fun _ => 0) (action_of L ld) (turn_left L ei ld) (turn_right L ei ld)).
  { destruct ld as [w|P a|w a c|w1 w2 a co|Ma Mb|mo a|kap EI]; try contradiction.
    - assert (C := clamps_eb (fun _ => []) (LUDL w) L ei _ HL HE ltac:(split; exact I) I eq_refl). refine (simple_eq _ _ _ _ _ _ _ _ _ _ (simple_of_clamped _ _ _ _ _ _ HL HE C) (fun _ => eq_refl) _ _); cbn; field; lra.
    - cbn in O. assert (C := clamps_eb (fun _ => []) (LPL P a) L ei _ HL HE ltac:(split; [exact O|exact I]) I eq_refl). refine (simple_eq _ _ _ _ _ _ _ _ _ _ (simple_of_clamped _ _ _ _ _ _ HL HE C) (fun _ => eq_refl) _ _); cbn; rewrite Rmax_left by lra; field; lra. }
  refine (simple_eq _ _ _ _ _ _ _ _ _ _ (simple_plus _ _ _ _ _ _ _ _ _ _ _ S IH) _ eq_refl eq_refl).
  intros x. unfold imposed. cbn [map]. rewrite lsum_cons. destruct ld; try contradiction; reflexivity.
Qed.

(** ** The equation *)
Lemma span_equation L1 ei1 ga1 L2 ei2 ga2 k1 k2 A1 A2 f1 f2 V1 M1 t1 y1 V2 M2 t2 y2 l1 r1 l2 r2 : 0 < L1 -> 0 < ei1 -> 0 < L2 -> 0 < ei2 ->
  bent_member L1 ei1 ga1 k1 A1 f1 V1 M1 t1 y1 -> bent_member L2 ei2 ga2 k2 A2 f2 V2 M2 t2 y2 ->
  simple_span L1 ei1 ga1 k1 A1 l1 r1 -> simple_span L2 ei2 ga2 k2 A2 l2 r2 ->
  t1 L1 = t2 0 -> f2 1%nat = - f1 3%nat -> y1 L1 = y2 0 ->
  three_moments L1 ei1 ga1 L2 ei2 ga2 (- f1 1%nat) (f1 3%nat) (f2 3%nat) (y1 0) (y2 0) (y2 L2) r1 l2.
Proof.
  intros HL1 HE1 HL2 HE2 B1 B2 S1 S2 ET EF EY. destruct (end_turns _ _ _ _ _ _ _ _ _ _ _ _ HL1 HE1 B1 S1) as [_ R1]. destruct (end_turns _ _ _ _ _ _ _ _ _ _ _ _ HL2 HE2 B2 S2) as [Lt2 _].
  rewrite R1, Lt2, EF, EY in ET. unfold three_moments. rewrite !shear_is_flex.
  assert (K : 6 * (r1 + (y2 0 - y1 0) / L1 + L1 / (6 * ei1) * (2 * f1 3%nat - f1 1%nat) + (f1 1%nat + f1 3%nat) * flex ga1 / L1) =
    6 * (l2 + (y2 L2 - y2 0) / L2 + L2 / (6 * ei2) * (2 * - f1 3%nat - f2 3%nat) + (- f1 3%nat + f2 3%nat) * flex ga2 / L2)) by (rewrite ET; reflexivity).
  clear - K HL1 HE1 HL2 HE2.
  assert (Z : - f1 1%nat * (L1 / ei1 - 6 * flex ga1 / L1) + f1 3%nat * (2 * (L1 / ei1 + L2 / ei2) + 6 * flex ga1 / L1 + 6 * flex ga2 / L2) + f2 3%nat * (L2 / ei2 - 6 * flex ga2 / L2)
     = 6 * (r1 + (y2 0 - y1 0) / L1 + L1 / (6 * ei1) * (2 * f1 3%nat - f1 1%nat) + (f1 1%nat + f1 3%nat) * flex ga1 / L1)
       - 6 * (l2 + (y2 L2 - y2 0) / L2 + L2 / (6 * ei2) * (2 * - f1 3%nat - f2 3%nat) + (- f1 3%nat + f2 3%nat) * flex ga2 / L2)
       + (6 * (l2 - r1) + 6 * ((y2 L2 - y2 0) / L2 - (y2 0 - y1 0) / L1))) by (field; lra).
  etransitivity; [exact Z|]. rewrite K. ring.
Qed.
Section Beam.
Variable gl : nat -> list (R * R).
Hypothesis G : gauss_rule gl.
Lemma held_moment b n D ef j : (0 < j < n)%nat -> nodes_hold b n D ef -> prescribed b (2 * j + 1) = None -> restraint b (2 * j + 1) = 0 -> ef j 1%nat = - ef (j - 1)%nat 3%nat.
Proof.
  intros Hj NH P R. specialize (NH (2 * j + 1)%nat ltac:(lia)). rewrite P, R in NH. destruct (Rlt_dec 0 0); [lra|]. unfold spring_force in NH. rewrite R in NH. destruct (Rlt_dec 0 0); [lra|].
  unfold nodal_sum in NH. replace ((2 * j + 1) / 2)%nat with j in NH by (rewrite Nat.mul_comm, Nat.div_add_l by lia; cbn; lia). replace ((2 * j + 1) mod 2)%nat with 1%nat in NH by (rewrite Nat.add_comm, Nat.mul_comm, Nat.mod_add by lia; reflexivity).
  destruct (Nat.ltb_spec (2 * j + 1) (2 * n)); [|lia]. destruct (Nat.leb_spec 2 (2 * j + 1)); [|lia]. cbn in NH. lra.
Qed.
Lemma end_moment b n D ef : nodes_hold b n D ef -> (0 < n)%nat ->
  (prescribed b 1 = None -> restraint b 1 = 0 -> ef 0%nat 1%nat = 0) /\ (prescribed b (2 * n + 1) = None -> restraint b (2 * n + 1) = 0 -> ef (n - 1)%nat 3%nat = 0).
Proof.
  intros NH Hn. split; intros P R.
  - specialize (NH 1%nat ltac:(lia)). rewrite P, R in NH. destruct (Rlt_dec 0 0); [lra|]. unfold spring_force in NH. rewrite R in NH. destruct (Rlt_dec 0 0); [lra|].
    unfold nodal_sum in NH. destruct (Nat.ltb_spec 1 (2 * n)); [|lia]. cbn in NH. lra.
  - specialize (NH (2 * n + 1)%nat ltac:(lia)). rewrite P, R in NH. destruct (Rlt_dec 0 0); [lra|]. unfold spring_force in NH. rewrite R in NH. destruct (Rlt_dec 0 0); [lra|].
    unfold nodal_sum in NH. replace ((2 * n + 1) / 2)%nat with n in NH by (rewrite Nat.mul_comm, Nat.div_add_l by lia; cbn; lia). replace ((2 * n + 1) mod 2)%nat with 1%nat in NH by (rewrite Nat.add_comm, Nat.mul_comm, Nat.mod_add by lia; reflexivity).
    destruct (Nat.ltb_spec (2 * n + 1) (2 * n)); [lia|]. destruct (Nat.leb_spec 2 (2 * n + 1)); [|lia]. cbn in NH. lra.
Qed.
Lemma analysis_equation ill a npts check a' o m mb1 mb2 ls ei1 ei2 ga1 ga2 e1 e2 l1 r1 l2 r2 :
  members (an_beam a) (an_n a) prismatic -> exact_loads (an_beam a) (an_n a) -> analyze_core gl ill a npts check = (a', Ok o) ->
  (S m < an_n a)%nat -> member_at (an_beam a) m = Ok mb1 -> member_at (an_beam a) (S m) = Ok mb2 -> parsed_loads (an_beam a) = Ok ls ->
  mb_EI mb1 = RConst ei1 -> mb_GAv mb1 = option_map RConst ga1 -> mb_EI mb2 = RConst ei2 -> mb_GAv mb2 = option_map RConst ga2 ->
  ~ released (mb_type mb1) 3 -> ~ released (mb_type mb2) 1 ->
  prescribed (an_beam a) (2 * m + 3) = None -> restraint (an_beam a) (2 * m + 3) = 0 ->
  member_forces gl (an_beam a) (o_d o) m = Ok e1 -> member_forces gl (an_beam a) (o_d o) (S m) = Ok e2 ->
  simple_span (mb_L mb1) ei1 ga1 (imposed (loads_of ls m)) (actions (mb_L mb1) (loads_of ls m)) l1 r1 ->
  simple_span (mb_L mb2) ei2 ga2 (imposed (loads_of ls (S m))) (actions (mb_L mb2) (loads_of ls (S m))) l2 r2 ->
  e2 1%nat = - e1 3%nat /\
  three_moments (mb_L mb1) ei1 ga1 (mb_L mb2) ei2 ga2 (- e1 1%nat) (e1 3%nat) (e2 3%nat) (o_d o (2 * m)%nat) (o_d o (2 * m + 2)%nat) (o_d o (2 * m + 4)%nat) r1 l2.
Proof.
  intros HP HX H Hm M1 M2 PL E1 Ga1 E2 Ga2 R1 R2 PN RN F1 F2 S1 S2. destruct (analysis_exact gl G _ _ _ _ _ _ HP HX H) as (ef & (B & NH) & EQ).
  assert (Q1 := EQ m e1 ltac:(lia) F1). assert (Q2 := EQ (S m) e2 Hm F2). 
  destruct (B m ltac:(lia)) as (V1 & Mo1 & mb & ls' & ei & ga & t1 & y1 & A1 & A2 & A3 & A4 & B1 & J1). rewrite M1 in A1. inversion A1; subst mb. rewrite PL in A2. inversion A2; subst ls'. rewrite E1 in A3. inversion A3; subst ei. assert (ga = ga1) by (rewrite Ga1 in A4; clear - A4; destruct ga, ga1; cbn in A4; congruence). subst ga. clear A1 A2 A3 A4.
  destruct (B (S m) Hm) as (V2 & Mo2 & mb & ls' & ei & ga & t2 & y2 & A1 & A2 & A3 & A4 & B2 & J2). rewrite M2 in A1. inversion A1; subst mb. rewrite PL in A2. inversion A2; subst ls'. rewrite E2 in A3. inversion A3; subst ei. assert (ga = ga2) by (rewrite Ga2 in A4; clear - A4; destruct ga, ga2; cbn in A4; congruence). subst ga. clear A1 A2 A3 A4.
  assert (P1 := HP m mb1 ltac:(lia) M1). assert (P2 := HP (S m) mb2 Hm M2). destruct (pr_EI _ P1) as (ei & X & HE1). rewrite E1 in X. inversion X; subst ei. clear X. destruct (pr_EI _ P2) as (ei & X & HE2). rewrite E2 in X. inversion X; subst ei. clear X.
  assert (HM : ef (S m) 1%nat = - ef m 3%nat). { assert (W := held_moment _ (an_n a) _ _ (S m) ltac:(lia) NH). replace (2 * S m + 1)%nat with (2 * m + 3)%nat in W by lia. rewrite (W PN RN). replace (S m - 1)%nat with m by lia. reflexivity. }
  destruct J1 as [a1 b1 c1 d1 _], J2 as [a2 b2 c2 d2 _]. unfold ends in *. replace (2 * S m)%nat with (2 * m + 2)%nat in * by lia. specialize (d1 R1). specialize (c2 R2).
  assert (EQN := span_equation _ _ _ _ _ _ _ _ _ _ _ _ _ _ _ _ _ _ _ _ _ _ _ _ (pr_L _ P1) HE1 (pr_L _ P2) HE2 B1 B2 S1 S2).
  rewrite d1, c2, b1, a2 in EQN. replace (2 * m + 2 + 1)%nat with (2 * m + 3)%nat in EQN by lia. rewrite Nat.add_0_r in EQN. specialize (EQN eq_refl HM eq_refl). rewrite a1, b2 in EQN. rewrite Nat.add_0_r in EQN. replace (2 * m + 2 + 2)%nat with (2 * m + 4)%nat in EQN by lia.
  rewrite <- (Q1 3%nat), <- (Q1 1%nat), <- (Q2 1%nat), <- (Q2 3%nat) by lia. split; [exact HM|exact EQN].
Qed.
(** Two spans under uniform and point loads on supports that do not move. *)
Lemma analysis_two_spans ill a npts check a' o mb1 mb2 ls ei1 ei2 e1 e2 :
  members (an_beam a) (an_n a) prismatic -> exact_loads (an_beam a) (an_n a) -> analyze_core gl ill a npts check = (a', Ok o) ->
  an_n a = 2%nat -> member_at (an_beam a) 0 = Ok mb1 -> member_at (an_beam a) 1 = Ok mb2 -> parsed_loads (an_beam a) = Ok ls ->
  mb_EI mb1 = RConst ei1 -> mb_GAv mb1 = None -> mb_EI mb2 = RConst ei2 -> mb_GAv mb2 = None -> mb_type mb1 = 1%nat -> mb_type mb2 = 1%nat ->
  (forall i, In i [1; 3; 5]%nat -> prescribed (an_beam a) i = None /\ restraint (an_beam a) i = 0) ->
  (forall i, In i [0; 2; 4]%nat -> prescribed (an_beam a) i = None /\ restraint (an_beam a) i < 0) ->
  Forall (ordinary (mb_L mb1)) (loads_of ls 0) -> Forall (ordinary (mb_L mb2)) (loads_of ls 1) ->
  member_forces gl (an_beam a) (o_d o) 0 = Ok e1 -> member_forces gl (an_beam a) (o_d o) 1 = Ok e2 ->
  e1 1%nat = 0 /\ e2 3%nat = 0 /\ e2 1%nat = - e1 3%nat /\
  e1 3%nat = - (3 * (lsum (map (turn_right (mb_L mb1) ei1) (loads_of ls 0)) - lsum (map (turn_left (mb_L mb2) ei2) (loads_of ls 1))) / (mb_L mb1 / ei1 + mb_L mb2 / ei2)).
Proof.
  intros HP HX H N M1 M2 PL E1 Ga1 E2 Ga2 T1 T2 RF RS O1 O2 F1 F2. destruct (analysis_exact gl G _ _ _ _ _ _ HP HX H) as (ef & (B & NH) & EQ). clear B. rewrite N in NH, EQ.
  assert (Q1 := EQ 0%nat e1 ltac:(lia) F1). assert (Q2 := EQ 1%nat e2 ltac:(lia) F2). destruct (end_moment _ 2%nat _ _ NH ltac:(lia)) as [Z1 Z2].
  destruct (RF 1%nat ltac:(cbn; auto)) as [p1 q1]. destruct (RF 3%nat ltac:(cbn; auto)) as [p3 q3]. destruct (RF 5%nat ltac:(cbn; auto)) as [p5 q5]. specialize (Z1 p1 q1). specialize (Z2 p5 q5). cbn [Nat.sub] in Z2.
  rewrite (Q1 1%nat) in Z1 by lia. rewrite (Q2 3%nat) in Z2 by lia. split; [exact Z1|]. split; [exact Z2|].
  assert (P1 := HP 0%nat mb1 ltac:(lia) M1). assert (P2 := HP 1%nat mb2 ltac:(lia) M2). destruct (pr_EI _ P1) as (ei & X & HE1). rewrite E1 in X. inversion X; subst ei. clear X. destruct (pr_EI _ P2) as (ei & X & HE2). rewrite E2 in X. inversion X; subst ei. clear X.
  assert (HL1 := pr_L _ P1). assert (HL2 := pr_L _ P2).
  destruct (analysis_equation ill a npts check a' o 0 mb1 mb2 ls ei1 ei2 None None e1 e2 _ _ _ _ HP HX H ltac:(lia) M1 M2 PL E1 Ga1 E2 Ga2 ltac:(rewrite T1; intros []) ltac:(rewrite T2; intros []) p3 q3 F1 F2 (ordinary_simple _ _ _ HL1 HE1 O1) (ordinary_simple _ _ _ HL2 HE2 O2)) as [K EQN].
  split; [exact K|]. assert (DZ : forall i, In i [0; 2; 4]%nat -> o_d o i = 0).
  { intros i I. destruct (RS i I) as [p r]. assert (Hi : (i < 6)%nat) by (cbn in I; lia). specialize (NH i ltac:(lia)). rewrite p in NH. destruct (Rlt_dec (restraint (an_beam a) i) 0); [exact NH|lra]. }
  cbn [Nat.mul Nat.add] in EQN. rewrite (DZ 0%nat), (DZ 2%nat), (DZ 4%nat), Z1, Z2 in EQN by (cbn; auto). unfold three_moments in EQN. cbn [shear_flex] in EQN.
  set (u := lsum (map (turn_right _ _) _)) in *. set (v := lsum (map (turn_left _ _) _)) in *. clearbody u v.
  assert (HS : 0 < mb_L mb1 / ei1 + mb_L mb2 / ei2) by (apply Rplus_lt_0_compat; apply Rdiv_lt_0_compat; assumption). set (s := mb_L mb1 / ei1 + mb_L mb2 / ei2) in *.
  assert (EQ' : 2 * s * e1 3%nat = 6 * (v - u)).
  { transitivity (- 0 * (mb_L mb1 / ei1 - 6 * 0 / mb_L mb1) + e1 3%nat * (2 * s + 6 * 0 / mb_L mb1 + 6 * 0 / mb_L mb2) + 0 * (mb_L mb2 / ei2 - 6 * 0 / mb_L mb2)); [unfold Rdiv; ring|]. rewrite EQN. unfold Rdiv. ring. }
  apply (Rmult_eq_reg_r (2 * s)); [|lra]. rewrite Rmult_comm, EQ'. field. lra.
Qed.
End Beam.
