(** Proofs about the glyphs of the schematic. *)
From Coq Require Import ZArith String Ascii.
From Verif Require Import Base BaseFacts SectionModel ElementModel BeamModel BeamSpec FoundationModel FoundFacts4 BridgeModel UnitsModel BridgeSpec RenderModel RenderSpec InPlotModel SchemModel SchemSpec.
Local Notation length := List.length.
Local Open Scope list_scope.
Open Scope R_scope.

Lemma worth_val n u : val_text n u = worth n u.
Proof. unfold val_text, worth. destruct u as [|c t]; cbn [String.eqb]; reflexivity. Qed.

(** ** Largest values *)
Lemma fold_max_ge {A} (f : A -> R) l : forall m, m <= fold_left (fun m a => Rmax m (f a)) l m.
Proof. induction l as [|a l IH]; intros m; cbn [fold_left]; [lra|]. specialize (IH (Rmax m (f a))). pose proof (Rmax_l m (f a)). lra. Qed.
Lemma fold_max_in {A} (f : A -> R) l a : In a l -> forall m, f a <= fold_left (fun m a => Rmax m (f a)) l m.
Proof.
  induction l as [|b l IH]; intros I m; [contradiction|]. cbn [fold_left]. destruct I as [->|I]; [|exact (IH I _)].
  pose proof (fold_max_ge f l (Rmax m (f a))). pose proof (Rmax_r m (f a)). lra.
Qed.
Lemma top_P_ge l q : In q l -> Rabs (p_P q) <= top_P l.
Proof. intros I. exact (fold_max_in (fun q => Rabs (p_P q)) l q I 0). Qed.
Lemma top_P_nonneg l : 0 <= top_P l.
Proof. exact (fold_max_ge (fun q => Rabs (p_P q)) l 0). Qed.
Lemma top_w_ge l q : In q l -> Rabs (d_w0 q) <= top_w l /\ Rabs (d_w1 q) <= top_w l.
Proof.
  intros I. pose proof (fold_max_in (fun d => Rmax (Rabs (d_w0 d)) (Rabs (d_w1 d))) l q I 0) as H. cbn beta in H. change (Rmax (Rabs (d_w0 q)) (Rabs (d_w1 q)) <= top_w l) in H.
  pose proof (Rmax_l (Rabs (d_w0 q)) (Rabs (d_w1 q))). pose proof (Rmax_r (Rabs (d_w0 q)) (Rabs (d_w1 q))). lra.
Qed.

(** ** Forces *)
Lemma arrow_length_bounds L pm P : 0 < L -> 0 <= pm -> Rabs P <= pm -> 0.088 * L <= arrow_length L pm P <= 0.16 * L.
Proof.
  intros HL Hp HP. unfold arrow_length. destruct (Reqb_spec pm 0) as [E|E]; [nra|].
  assert (Q : 0 <= Rabs P / pm <= 1).
  { split; [apply Rmult_le_pos; [apply Rabs_pos|left; apply Rinv_0_lt_compat; lra]|].
    apply (Rmult_le_reg_r pm); [lra|]. unfold Rdiv. rewrite Rmult_assoc, Rinv_l by exact E. lra. }
  replace (0.45 * Rabs P / pm) with (0.45 * (Rabs P / pm)) by (field; exact E). nra.
Qed.
Lemma arrow_length_mono L pm P P' : 0 < L -> 0 <= pm -> Rabs P <= Rabs P' -> arrow_length L pm P <= arrow_length L pm P'.
Proof.
  intros HL Hp H. unfold arrow_length. destruct (Reqb_spec pm 0) as [E|E]; [lra|]. unfold Rdiv. assert (0 < / pm) by (apply Rinv_0_lt_compat; lra).
  assert (Rabs P * / pm <= Rabs P' * / pm) by (apply Rmult_le_compat_r; lra). apply Rmult_le_compat_l; nra.
Qed.
Lemma arrow_length_strict L pm P P' : 0 < L -> Rabs P < Rabs P' -> Rabs P' <= pm -> arrow_length L pm P < arrow_length L pm P'.
Proof.
  intros HL H HP. pose proof (Rabs_pos P). unfold arrow_length. destruct (Reqb_spec pm 0) as [E|E]; [lra|]. unfold Rdiv. assert (0 < / pm) by (apply Rinv_0_lt_compat; lra).
  assert (Rabs P * / pm < Rabs P' * / pm) by (apply Rmult_lt_compat_r; lra). apply Rmult_lt_compat_l; nra.
Qed.
Lemma arrow_length_top L P : P <> 0 -> arrow_length L (Rabs P) P = 0.16 * L.
Proof. intros H. pose proof (Rabs_no_R0 P H). unfold arrow_length. destruct (Reqb_spec (Rabs P) 0) as [E|E]; [contradiction|]. replace (0.45 * Rabs P / Rabs P) with 0.45 by (field; exact E). lra. Qed.
Section G.
Variable g : R -> string.
Lemma reach_length us L pm sh show q : 0 < L -> 0 <= pm -> Rabs (p_P q) <= pm -> reach (draw_point g us L pm sh show q) = arrow_length L pm (p_P q).
Proof.
  intros HL Hp HP. pose proof (arrow_length_bounds L pm (p_P q) HL Hp HP). unfold reach, draw_point; cbn [pg_arrow ar_tail snd].
  destruct (Rleb_spec 0 (p_P q)); [apply Rabs_pos_eq; nra|]. rewrite Rabs_Ropp. apply Rabs_pos_eq. nra.
Qed.
Lemma point_drawn us L pm show q : 0 < L -> 0 <= pm -> Rabs (p_P q) <= pm -> force_shown g us L show q (draw_point g us L pm (0.05 * L) show q).
Proof.
  intros HL Hp HP. pose proof (arrow_length_bounds L pm (p_P q) HL Hp HP) as B. pose proof (reach_length us L pm (0.05 * L) show q HL Hp HP) as RL.
  split; try (rewrite RL); unfold draw_point; cbn [pg_arrow ar_tail ar_head pg_text fst snd].
  - reflexivity.
  - reflexivity.
  - intros H. destruct (Rleb_spec 0 (p_P q)); [nra|lra].
  - intros H. destruct (Rleb_spec 0 (p_P q)); [lra|nra].
  - lra.
  - intros ->. reflexivity.
  - intros ->. unfold fmt_force. rewrite worth_val. eexists. split; [reflexivity|].
    destruct (Rleb_spec 0 (p_P q)).
    + split; [rewrite Rabs_pos_eq; nra|nra].
    + split; [rewrite Rabs_left; nra|nra].
Qed.

(** ** Distributed loads *)
Lemma sgn_cases w : (0 < w /\ sgn w = 1) \/ (w < 0 /\ sgn w = -1) \/ (w = 0 /\ sgn w = 0).
Proof. unfold sgn. destruct (Rltb_spec 0 w); [left; split; [lra|reflexivity]|]. destruct (Rltb_spec w 0); [right; left; split; [lra|reflexivity]|right; right; split; [lra|reflexivity]]. Qed.
Lemma ratio_unit w wm : 0 < wm -> Rabs w <= wm -> 0 <= Rabs w / wm <= 1.
Proof.
  intros Hm H. split; [apply Rmult_le_pos; [apply Rabs_pos|left; apply Rinv_0_lt_compat; lra]|].
  apply (Rmult_le_reg_r wm); [lra|]. unfold Rdiv. rewrite Rmult_assoc, Rinv_l by lra. lra.
Qed.
Lemma height_side L wm w : 0 < L -> Rabs w <= wm -> same_side (dist_height L wm w) w /\ Rabs (dist_height L wm w) <= 0.07 * L.
Proof.
  intros HL H. pose proof (Rabs_pos w) as PW. unfold dist_height. destruct (Reqb_spec wm 0) as [E|E].
  { assert (w = 0) as -> by (destruct (Req_dec w 0) as [Z|Z]; [exact Z|pose proof (Rabs_no_R0 w Z); lra]).
    rewrite Rabs_R0. split; [repeat split; lra|nra]. }
  assert (Hm : 0 < wm) by lra. destruct (ratio_unit w wm Hm H) as (Q0 & Q1). replace (0.65 * Rabs w / wm) with (0.65 * (Rabs w / wm)) by (field; exact E).
  set (r := Rabs w / wm) in *. assert (U : 0 < 0.07 * L * (0.35 + 0.65 * r) <= 0.07 * L) by nra.
  destruct (sgn_cases w) as [(S & ->)|[(S & ->)|(S & ->)]].
  - split; [split; [intros; nra|split; intros; lra]|rewrite Rabs_pos_eq; nra].
  - split; [split; [intros; lra|split; intros; [nra|lra]]|rewrite Rabs_left; nra].
  - split; [split; [intros; lra|split; intros; lra]|rewrite Rmult_0_l, Rmult_0_l, Rabs_R0; nra].
Qed.
Lemma height_abs L wm w : 0 < L -> 0 < wm -> w <> 0 -> Rabs (dist_height L wm w) = 0.07 * L * (0.35 + 0.65 * Rabs w / wm).
Proof.
  intros HL Hm Hw. pose proof (Rabs_pos w). unfold dist_height. destruct (Reqb_spec wm 0) as [E|E]; [lra|].
  assert (0 <= 0.65 * Rabs w / wm) by (apply Rmult_le_pos; [lra|left; apply Rinv_0_lt_compat; lra]).
  rewrite !Rabs_mult, (Rabs_pos_eq (0.35 + 0.65 * Rabs w / wm)) by lra.
  rewrite (Rabs_pos_eq L) by lra. rewrite (Rabs_pos_eq 0.07) by lra.
  destruct (sgn_cases w) as [(S & ->)|[(S & ->)|(S & ->)]]; [rewrite Rabs_R1; ring|rewrite (Rabs_left (-1)) by lra; ring|contradiction].
Qed.
Lemma height_mono L wm w w' : 0 < L -> Rabs w' <= wm -> Rabs w < Rabs w' -> Rabs (dist_height L wm w) < Rabs (dist_height L wm w').
Proof.
  intros HL Hw H. pose proof (Rabs_pos w) as P. assert (Hm : 0 < wm) by lra.
  assert (W' : w' <> 0) by (intros ->; rewrite Rabs_R0 in H; lra). rewrite (height_abs L wm w' HL Hm W').
  assert (I : 0 < / wm) by (apply Rinv_0_lt_compat; lra).
  destruct (Req_dec w 0) as [->|W].
  - unfold dist_height. destruct (Reqb_spec wm 0); [lra|]. destruct (sgn_cases 0) as [(S & _)|[(S & _)|(S & ->)]]; try lra.
    rewrite !Rmult_0_l, Rabs_R0. unfold Rdiv. assert (0 < 0.65 * Rabs w' * / wm) by (apply Rmult_lt_0_compat; lra). nra.
  - rewrite (height_abs L wm w HL Hm W). unfold Rdiv. assert (0.65 * Rabs w * / wm < 0.65 * Rabs w' * / wm) by (apply Rmult_lt_compat_r; lra). nra.
Qed.
Lemma height_same L wm w w' : 0 < L -> Rabs w' <= wm -> Rabs w = Rabs w' -> Rabs (dist_height L wm w) = Rabs (dist_height L wm w').
Proof.
  intros HL Hw H. pose proof (Rabs_pos w). destruct (Req_dec w 0) as [->|W].
  - assert (w' = 0) as -> by (destruct (Req_dec w' 0) as [Z|Z]; [exact Z|pose proof (Rabs_no_R0 w' Z); rewrite Rabs_R0 in H; lra]). reflexivity.
  - pose proof (Rabs_pos_lt w W). assert (W' : w' <> 0) by (intros ->; rewrite Rabs_R0 in H; lra).
    rewrite (height_abs L wm w), (height_abs L wm w') by lra. rewrite H. reflexivity.
Qed.
Lemma gaps_two L x0 x1 : (2 <= dist_gaps L x0 x1)%nat.
Proof. unfold dist_gaps. destruct (Rltb x0 x1); [|lia]. pose proof (Z.le_max_l 2 (trunc ((x1 - x0) / (0.06 * L)))). lia. Qed.

Lemma dist_drawn us L wm show q : 0 < L -> Rabs (d_w0 q) <= wm -> Rabs (d_w1 q) <= wm -> dist_shown g us L show q (draw_dist g us L wm show q).
Proof.
  intros HL H0 H1. split; unfold left_height, right_height, draw_dist; cbn [dg_top dg_area dg_arrows dg_text fst snd].
  - reflexivity.
  - reflexivity.
  - exact (height_side L wm _ HL H0).
  - exact (height_side L wm _ HL H1).
  - intros HX. exists (dist_gaps L (d_x0 q) (d_x1 q)). pose proof (gaps_two L (d_x0 q) (d_x1 q)) as G2. split; [exact G2|].
    set (n := dist_gaps L (d_x0 q) (d_x1 q)) in *. set (h0 := dist_height L wm (d_w0 q)). set (h1 := dist_height L wm (d_w1 q)).
    assert (NZ : INR n <> 0) by (apply not_0_INR; lia).
    assert (PT : forall k, d_x0 q + INR k * ((d_x1 q - d_x0 q) / INR (n + 1 - 1)) = along (d_x0 q) (d_x1 q) (INR k / INR n)).
    { intros k. replace (n + 1 - 1)%nat with n by lia. unfold along. field. exact NZ. }
    assert (HT : forall k, (if Reqb (d_x1 q) (d_x0 q) then h0 else h0 + (h1 - h0) * (along (d_x0 q) (d_x1 q) (INR k / INR n) - d_x0 q) / (d_x1 q - d_x0 q)) = along h0 h1 (INR k / INR n)).
    { intros k. destruct (Reqb_spec (d_x1 q) (d_x0 q)); [lra|]. unfold along. field. split; [exact NZ|lra]. }
    intros a. rewrite in_map_iff. split.
    + intros (x & <- & I). apply filter_In in I as (I & F). unfold linspace in I. apply in_map_iff in I as (k & <- & K). apply in_seq in K. exists k. split; [lia|]. cbn zeta.
      rewrite PT in F |- *. rewrite HT in F. rewrite HT. split; [|reflexivity].
      destruct (Rltb_spec (Rabs (along h0 h1 (INR k / INR n))) (/ 10^9)); [discriminate F|lra].
    + intros (k & K & HA & ->). exists (along (d_x0 q) (d_x1 q) (INR k / INR n)). rewrite HT. split; [reflexivity|]. apply filter_In. split.
      * unfold linspace. apply in_map_iff. exists k. split; [apply PT|apply in_seq; lia].
      * rewrite HT. destruct (Rltb_spec (Rabs (along h0 h1 (INR k / INR n))) (/ 10^9)); [lra|reflexivity].
  - intros ->. reflexivity.
  - intros -> E. rewrite E. unfold Rminus. rewrite Rplus_opp_r, Rabs_R0. destruct (Rltb_spec 0 (/ 10^9)) as [_|H]; [|exfalso; apply H; apply Rinv_0_lt_compat; apply pow_lt; lra].
    unfold fmt_distributed. rewrite worth_val. eexists. split; [reflexivity|]. cbn [fst]. lra.
  - intros -> D N. destruct (Rltb_spec (Rabs (d_w0 q - d_w1 q)) (/ 10^9)) as [H|_]; [lra|].
    unfold fmt_distributed. destruct (Reqb_spec (Rabs (d_w1 q)) (Rabs (d_w0 q))) as [E|_]; [congruence|]. rewrite worth_val. eexists. split; [reflexivity|]. cbn [fst]. lra.
Qed.

Lemma sides_agree w0 w1 h0 h1 t : same_side h0 w0 -> same_side h1 w1 -> 0 <= w0 * w1 -> 0 <= t <= 1 -> along h0 h1 t <> 0 ->
  0 < along h0 h1 t * along w0 w1 t.
Proof.
  unfold along. intros (L1 & L2 & L3) (R1 & R2 & R3) K T NZ.
  assert (P : forall x y : R, 0 < x -> 0 < y -> 0 < x * y) by (intros; nra).
  assert (M : forall x y : R, x < 0 -> y < 0 -> 0 < x * y) by (intros; nra).
  destruct (Rtotal_order w0 0) as [A|[A|A]], (Rtotal_order w1 0) as [B|[B|B]].
  - specialize (L2 A). specialize (R2 B). apply M; destruct (Req_dec t 1); nra.
  - specialize (L2 A). rewrite (R3 B), B in *. assert (t <> 1) by (intros ->; apply NZ; ring). apply M; nra.
  - exfalso. nra.
  - rewrite (L3 A), A in *. specialize (R2 B). assert (t <> 0) by (intros ->; apply NZ; ring). apply M; nra.
  - exfalso. apply NZ. rewrite (L3 A), (R3 B). ring.
  - rewrite (L3 A), A in *. specialize (R1 B). assert (t <> 0) by (intros ->; apply NZ; ring). apply P; nra.
  - exfalso. nra.
  - specialize (L1 A). rewrite (R3 B), B in *. assert (t <> 1) by (intros ->; apply NZ; ring). apply P; nra.
  - specialize (L1 A). specialize (R1 B). apply P; destruct (Req_dec t 1); nra.
Qed.
(** Each arrow of a load that keeps its sense is on the side of the load there. *)
Lemma dist_sense us L show q gl a : dist_shown g us L show q gl -> 0 <= d_w0 q * d_w1 q -> d_x0 q < d_x1 q -> In a (dg_arrows gl) ->
  0 < snd (ar_tail a) * ordinate q (fst (ar_tail a)).
Proof.
  intros S K HX I. destruct (ds_arrows _ _ _ _ _ _ S HX) as (n & N & A). pose proof (proj1 (A a) I) as I2. cbn zeta in I2. destruct I2 as (k & HK & HH & EA). subst a. cbn [ar_tail fst snd].
  set (h0 := left_height gl) in *. set (h1 := right_height gl) in *. set (t := INR k / INR n) in *.
  assert (P9 : 0 < / 10 ^ 9) by (apply Rinv_0_lt_compat, pow_lt; lra).
  assert (T : 0 <= t <= 1).
  { assert (0 < INR n) by (apply lt_0_INR; lia). assert (INR k <= INR n) by (apply le_INR; lia). pose proof (pos_INR k). unfold t. split.
    - apply Rmult_le_pos; [assumption|left; apply Rinv_0_lt_compat; assumption].
    - apply (Rmult_le_reg_r (INR n)); [assumption|]. unfold Rdiv. rewrite Rmult_assoc, Rinv_l by lra. lra. }
  assert (O : ordinate q (along (d_x0 q) (d_x1 q) t) = along (d_w0 q) (d_w1 q) t).
  { unfold ordinate, along. destruct (Rlt_dec _ (d_x0 q)) as [B|_]; [nra|]. destruct (Rlt_dec (d_x1 q) _) as [B|_]; [nra|]. field. lra. }
  rewrite O. assert (NZ : along h0 h1 t <> 0) by (intros Z; rewrite Z, Rabs_R0 in HH; lra). exact (sides_agree _ _ _ _ t (proj1 (ds_left _ _ _ _ _ _ S)) (proj1 (ds_right _ _ _ _ _ _ S)) K T NZ).
Qed.

(** ** Moments *)
Lemma back_middle x y s b d : middle (x + s * cos (b + d), y + s * sin (b + d)) (x + s * cos (b - d), y + s * sin (b - d)) = (x + s * cos d * cos b, y + s * cos d * sin b).
Proof. unfold middle; cbn [fst snd]. rewrite cos_plus, cos_minus, sin_plus, sin_minus. f_equal; field. Qed.
Lemma cos22 : 0 < cos (radians 22).
Proof. unfold radians. pose proof PI_RGT_0. apply cos_gt_0; lra. Qed.
Lemma moment_drawn us L show q : 0 < L -> moment_shown g us L show q (draw_moment g us (0.045 * L) (0.05 * L) show q).
Proof.
  intros HL. pose proof cos22 as C22.
  set (a := radians (if Rleb 0 (m_M q) then 230 else -50)).
  set (e := if Rleb 0 (m_M q) then PI / 2 else - (PI / 2)).
  assert (HD : heading (draw_moment g us (0.045 * L) (0.05 * L) show q) = (0.5 * (0.05 * L) * cos (radians 22) * - cos (a + e + PI), 0.5 * (0.05 * L) * cos (radians 22) * - sin (a + e + PI))).
  { unfold heading, draw_moment; cbn [mg_tip mg_back fst snd]. fold a e. rewrite back_middle. unfold minus; cbn [fst snd]. f_equal; ring. }
  assert (CE : cos (a + e + PI) = - cos (a + e)) by apply neg_cos. assert (SE : sin (a + e + PI) = - sin (a + e)) by apply neg_sin.
  assert (RAD : minus (mg_tip (draw_moment g us (0.045 * L) (0.05 * L) show q)) (mg_centre (draw_moment g us (0.045 * L) (0.05 * L) show q)) = (0.045 * L * cos a, 0.045 * L * sin a)).
  { unfold draw_moment, minus; cbn [mg_tip mg_centre fst snd]. fold a. f_equal; ring. }
  pose proof (sin2_cos2 a) as SC. unfold Rsqr in SC.
  assert (S : 0 < 0.045 * L * (0.5 * (0.05 * L) * cos (radians 22))) by (apply Rmult_lt_0_compat; [lra|]; apply Rmult_lt_0_compat; lra).
  split; try (rewrite HD, RAD; rewrite CE, SE; unfold dot, cross; cbn [fst snd]).
  - reflexivity.
  - cbn [draw_moment mg_radius]. nra.
  - cbn [draw_moment mg_arc fst snd]. lra.
  - unfold circle_point, draw_moment; cbn [mg_tip mg_centre mg_radius mg_arc fst snd]. unfold radians.
    destruct (Rleb_spec 0 (m_M q)), (Rle_dec 0 (m_M q)); try contradiction; try lra; f_equal; ring.
  - unfold e. destruct (Rleb 0 (m_M q)).
    + rewrite cos_plus, sin_plus, cos_PI2, sin_PI2. ring.
    + rewrite cos_plus, sin_plus, cos_neg, sin_neg, cos_PI2, sin_PI2. ring.
  - intros H. unfold e. destruct (Rleb_spec 0 (m_M q)); [|lra]. rewrite cos_plus, sin_plus, cos_PI2, sin_PI2.
    replace (_ - _) with (0.045 * L * (0.5 * (0.05 * L) * cos (radians 22)) * (sin a * sin a + cos a * cos a)) by ring. rewrite SC. lra.
  - intros H. unfold e. destruct (Rleb_spec 0 (m_M q)); [lra|]. rewrite cos_plus, sin_plus, cos_neg, sin_neg, cos_PI2, sin_PI2.
    replace (_ - _) with (- (0.045 * L * (0.5 * (0.05 * L) * cos (radians 22)) * (sin a * sin a + cos a * cos a))) by ring. rewrite SC. lra.
  - intros ->. reflexivity.
  - intros ->. unfold draw_moment; cbn [mg_text mg_radius]. unfold fmt_moment. rewrite worth_val. eexists. split; [reflexivity|nra].
Qed.
End G.
