(** Moments caused by the equivalent loads. *)
From Coquelicot Require Import Coquelicot.
From Coq Require Import Lia Sorting.
From Verif Require Import Base BaseFacts LoadModel LoadSpec LoadFacts DiagFacts LMFacts BeamModel ResultsModel ResultsSpec ResultsFacts
  PrestressModel PrestressSpec PrestressFacts PrestressFacts2 PrestressFacts3 SuperFacts.
Open Scope R_scope.

Lemma chain_last segs : forall x0 e0 xe ee d, chain x0 e0 segs xe ee -> segs <> [] -> sg_e2 (last segs d) = ee.
Proof.
  induction segs as [|s t IH]; intros x0 e0 xe ee d C Hn; [congruence|]. cbn [chain] in C. destruct C as (_ & _ & _ & C).
  destruct t as [|s' t'].
  - cbn in *. exact (proj2 C).
  - change (last (s :: s' :: t') d) with (last (s' :: t') d). apply (IH _ _ _ _ d C). discriminate.
Qed.

Lemma if_kept_ordinary L v ld : ordinary L ld -> Forall (ordinary L) (if_kept v ld).
Proof. intros H. unfold if_kept. destruct (Rltb tol (Rabs v)); repeat constructor. exact H. Qed.
Lemma if_kept_moments L v m a : moments (actions L (if_kept v (LML m a))) = if Rltb tol (Rabs v) then [(m, a)] else [].
Proof. unfold if_kept. destruct (Rltb tol (Rabs v)); reflexivity. Qed.
Lemma if_kept_no_moments L v P a : moments (actions L (if_kept v (LPL P a))) = [].
Proof. unfold if_kept. destruct (Rltb tol (Rabs v)); reflexivity. Qed.
Lemma if_kept_gsum v c a x : gsum (if_kept v (LPL (c * v) a)) x = c * kept v * MB (x - a).
Proof. unfold if_kept, kept, gsum. destruct (Rltb tol (Rabs v)); cbn; ring. Qed.
Lemma if_kept_gtot L v c a : gtot L (if_kept v (LPL (c * v) a)) = c * kept v.
Proof. unfold if_kept, kept, gtot. destruct (Rltb tol (Rabs v)); cbn; ring. Qed.
Lemma if_kept_gsumM v m a x : gsum (if_kept v (LML m a)) x = 0.
Proof. unfold if_kept, gsum. destruct (Rltb tol (Rabs v)); cbn; ring. Qed.
Lemma if_kept_gtotM L v m a : gtot L (if_kept v (LML m a)) = 0.
Proof. unfold if_kept, gtot. destruct (Rltb tol (Rabs v)); cbn; ring. Qed.

(** Everything about the loads of one span in one place: [a0], [aL] are the moments applied at
    its ends, [q0], [qL] the point loads there. *)
Record span_statics (L F : R) (segs : list seg) (s0 : seg) (lds : list load) (a0 aL q0 qL : R) : Prop := {
  ss_ord : Forall (ordinary L) lds;
  ss_g : forall x, 0 <= x <= L -> gsum lds x = F * rep kept None segs x + q0 * x;
  ss_t : gtot L lds = F * rep1 kept None segs + q0 + qL;
  ss_away : forall x, 0 < x < L -> away_from x (moments (actions L lds));
  ss_left : forall x, 0 < x < L -> left_of x (fun _ => 1) (moments (actions L lds)) = a0;
  ss_all : lsum (map fst (moments (actions L lds))) = a0 + aL }.

Lemma statics L F segs s0 e0 ee (b0 b1 c0 c1 : bool) lds :
  0 < L -> chain 0 e0 segs L ee -> segs <> [] -> Forall (fun s => tol < sg_x1 s < L - tol) (tl segs) -> get segs 0 = Ok s0 ->
  lds = span_loads L F segs None
      ++ (if b0 then if_kept (sg_e1 s0) (LML (F * sg_e1 s0) 0) else [])
      ++ (if b1 then if_kept (sg_e2 (last segs s0)) (LML (- F * sg_e2 (last segs s0)) L) else [])
      ++ (if c0 then if_kept (sl0 s0) (LPL (F * sl0 s0) 0) else [])
      ++ (if c1 then if_kept (sl1 (last segs s0)) (LPL (- F * sl1 (last segs s0)) L) else []) ->
  span_statics L F segs s0 lds (if b0 then F * kept e0 else 0) (if b1 then - F * kept ee else 0)
    (if c0 then F * kept (sl0 s0) else 0) (if c1 then - F * kept (sl1 (last segs s0)) else 0).
Proof.
  intros HL C Hn HJ E0 El.
  rewrite (chain_last _ _ _ _ _ s0 C Hn) in El. set (sl := last segs s0) in *.
  assert (Ee : sg_e1 s0 = e0).
  { destruct segs as [|s t]; [congruence|]. cbn in E0. apply ok_inv in E0. subst s0. cbn in C. tauto. }
  rewrite Ee in El.
  destruct (span_facts L F segs None 0 e0 ee C ltac:(lra) ltac:(reflexivity) ltac:(congruence) HJ) as (O & G & T).
  assert (EM : moments (actions L lds) = (if b0 then if Rltb tol (Rabs e0) then [(F * e0, 0)] else [] else []) ++
               (if b1 then if Rltb tol (Rabs ee) then [(- F * ee, L)] else [] else [])).
  { rewrite El, !moments_app, span_no_moments. cbn [app]. destruct b0, b1, c0, c1; rewrite ?if_kept_moments, ?if_kept_no_moments; cbn [actions fold_right no_action moments app]; rewrite ?app_nil_r; reflexivity. }
  constructor.
  - rewrite El. repeat (apply Forall_app; split); [exact O|..]; [destruct b0|destruct b1|destruct c0|destruct c1];
      try constructor; apply if_kept_ordinary; cbn; lra.
  - intros x Hx. rewrite El, !gsum_app, (G x Hx). destruct b0, b1, c0, c1; rewrite ?if_kept_gsum, ?if_kept_gsumM; try change (gsum [] x) with 0;
      rewrite ?(MB_pos (x - 0)), ?(MB_neg (x - L)) by lra; ring.
  - rewrite El, !gtot_app, T. destruct b0, b1, c0, c1; rewrite ?if_kept_gtot, ?if_kept_gtotM; try change (gtot L []) with 0; ring.
  - intros x Hx. rewrite EM. intros pa Hin. apply in_app_or in Hin. destruct b0, b1, (Rltb tol (Rabs e0)), (Rltb tol (Rabs ee)); cbn in Hin;
      destruct Hin as [Hin|Hin]; try destruct Hin as [<-|[]]; try contradiction; cbn; lra.
  - intros x Hx. rewrite EM, left_of_app. unfold kept.
    assert (A1 : left_of x (fun _ => 1) (if b0 then if Rltb tol (Rabs e0) then [(F * e0, 0)] else [] else []) = if b0 then F * (if Rltb tol (Rabs e0) then e0 else 0) else 0).
    { destruct b0; [|apply left_nil]. destruct (Rltb tol (Rabs e0)); [|rewrite left_nil; ring]. rewrite left_one. cbn. destruct (Rlt_dec 0 x); [ring|lra]. }
    assert (A2 : left_of x (fun _ => 1) (if b1 then if Rltb tol (Rabs ee) then [(- F * ee, L)] else [] else []) = 0).
    { destruct b1; [|apply left_nil]. destruct (Rltb tol (Rabs ee)); [|apply left_nil]. rewrite left_one. cbn. destruct (Rlt_dec L x); [lra|ring]. }
    rewrite A1, A2. ring.
  - rewrite EM, map_app, lsum_app. unfold kept. destruct b0, b1, (Rltb tol (Rabs e0)), (Rltb tol (Rabs ee)); cbn; ring.
Qed.

Lemma span_of Ls rs f ps LM ls i p t L F : equivalent_loads Ls rs f ps = Ok LM -> parse_LM LM = Ok ls ->
  nth_error Ls i = Some L -> force_in f i F -> nth_error ps i = Some (Some p) ->
  tip_of rs i t -> placed p L t ->
  exists segs s0 (lf rf : bool), laid p L t segs /\ get segs 0 = Ok s0 /\
    (lf = true <-> free_node rs 0) /\ (rf = true <-> free_node rs (length Ls)) /\
    span_statics L F segs s0 (loads_of ls i)
      (if Nat.eqb i 0 then F * kept (drape p L t 0) else 0)
      (if Nat.eqb (i + 1) (length Ls) then - F * kept (drape p L t L) else 0)
      (if (Nat.eqb i 0 && lf)%bool then F * kept (sl0 s0) else 0)
      (if (Nat.eqb (i + 1) (length Ls) && rf)%bool then - F * kept (sl1 (last segs s0)) else 0).
Proof.
  intros E EP EL EF Ep Ht HP.
  destruct (equivalent_loads_span _ _ _ _ _ _ _ _ _ _ E EP EL EF Ep) as (t' & segs & s0 & lf & rf & Ht' & Es & E0 & Hl & Hr & El).
  rewrite (tip_unique _ _ _ _ Ht' Ht) in Es. pose proof (segments_laid p L t segs Es HP) as LD.
  exists segs, s0, lf, rf. do 4 (split; [assumption|]).
  exact (statics L F segs s0 _ _ _ _ _ _ _ (proj1 HP) (ld_chain _ _ _ _ LD) (ld_some _ _ _ _ LD) (ld_joints _ _ _ _ LD) E0 El).
Qed.

(** The drape in terms of what is kept and lost. *)
Lemma drape_rep p L t segs s0 x : laid p L t segs -> get segs 0 = Ok s0 -> 0 <= x <= L ->
  drape p L t x = drape p L t 0 + sl0 s0 * x + rep kept None segs x + rep lost None segs x.
Proof.
  intros LD E0 Hx. rewrite <- (ld_val _ _ _ _ LD x Hx). destruct segs as [|s u]; [destruct (ld_some _ _ _ _ LD eq_refl)|].
  cbn in E0. apply ok_inv in E0. subst s0. rewrite (rep_value s u 0 _ L _ x (ld_chain _ _ _ _ LD) Hx), rep_split. ring.
Qed.
Lemma slope_rep p L t segs s0 : laid p L t segs -> get segs 0 = Ok s0 ->
  sl1 (last segs s0) = sl0 s0 + rep1 kept None segs + rep1 lost None segs.
Proof.
  intros LD E0. rewrite (rep1_value segs (sl0 s0) s0 (ld_some _ _ _ _ LD)). destruct segs as [|s u]; [destruct (ld_some _ _ _ _ LD eq_refl)|].
  cbn in E0. apply ok_inv in E0. subst s0. pose proof (rep1_split None (s :: u)) as E. cbn [rep1] in *. replace (sl0 s - sl0 s) with 0 by ring. lra.
Qed.
Lemma lost_bounds p L t segs x : laid p L t segs -> 0 <= x <= L ->
  Rabs (rep lost None segs x) <= tol * (x ^ 2 / 2 + 4 * x) /\ Rabs (rep1 lost None segs) <= tol * (L + 4).
Proof.
  intros LD Hx. pose proof (ld_chain _ _ _ _ LD) as C. pose proof (ld_some _ _ _ _ LD) as Hn. pose proof tol_pos as TP.
  assert (J : joints None segs <= 4).
  { unfold joints. pose proof (le_INR _ _ (ld_count _ _ _ _ LD)) as H. cbn in H. lra. }
  split.
  - eapply Rle_trans; [apply (rep_lost_bound segs None 0 _ L _ x C (fun _ => Hn)); lra|]. apply Rmult_le_compat_l; [lra|].
    unfold hh. rewrite MB_pos, MB_neg by lra. assert (joints None segs * (x - 0) <= 4 * (x - 0)) by (apply Rmult_le_compat_r; lra). lra.
  - eapply Rle_trans; [apply (rep1_lost_bound segs None 0 _ L _ C (fun _ => Hn))|]. apply Rmult_le_compat_l; lra.
Qed.

Lemma abs_le a b : - b <= a <= b -> Rabs a <= b.
Proof. intros H. apply Rabs_le. lra. Qed.
Lemma abs_inv a b : Rabs a <= b -> - b <= a <= b.
Proof. intros H. unfold Rabs in H. destruct (Rcase_abs a); lra. Qed.

Lemma scaled_bound F v B C : Rabs v <= tol * B -> B <= C -> Rabs (F * v) <= Rabs F * 1e-9 * C.
Proof.
  intros Hv HB. rewrite Rabs_mult, Rmult_assoc. apply Rmult_le_compat_l; [apply Rabs_pos|]. eapply Rle_trans; [exact Hv|].
  change (1e-9) with tol. apply Rmult_le_compat_l; [apply Rlt_le, tol_pos|exact HB].
Qed.

Theorem span_balance Ls rs f ps LM ls i p t L F va ma mb V M x : equivalent_loads Ls rs f ps = Ok LM -> parse_LM LM = Ok ls ->
  nth_error Ls i = Some L -> force_in f i F -> nth_error ps i = Some (Some p) ->
  tip_of rs i t -> placed p L t ->
  cut_equilibrium L (actions L (loads_of ls i)) va ma mb V M -> 0 < x < L ->
  let left_end := - ma + (if Nat.eqb i 0 then 0 else F * drape p L t 0) in
  let right_end := mb + (if Nat.eqb (i + 1) (length Ls) then 0 else F * drape p L t L) in
  Rabs (M x + F * drape p L t x - ((1 - x / L) * left_end + x / L * right_end)) <= neglected F L.
Proof.
  intros E EP EL EF Ep Ht HP HC Hx le re.
  destruct (span_of _ _ _ _ _ _ _ _ _ _ _ E EP EL EF Ep Ht HP) as (segs & s0 & lf & rf & LD & E0 & _ & _ & ST).
  destruct (cut_moments L _ va ma mb V M ltac:(lra) (ss_ord _ _ _ _ _ _ _ _ _ ST) HC) as [HM Hmb].
  rewrite (HM x ltac:(lra) (ss_away _ _ _ _ _ _ _ _ _ ST x Hx)).
  rewrite (ss_left _ _ _ _ _ _ _ _ _ ST x Hx), (ss_g _ _ _ _ _ _ _ _ _ ST x ltac:(lra)).
  rewrite (ss_g _ _ _ _ _ _ _ _ _ ST L ltac:(lra)), (ss_all _ _ _ _ _ _ _ _ _ ST) in Hmb.
  pose proof (drape_rep p L t segs s0 x LD E0 ltac:(lra)) as Dx. pose proof (drape_rep p L t segs s0 L LD E0 ltac:(lra)) as DL.
  destruct (lost_bounds p L t segs x LD ltac:(lra)) as [Bx _]. destruct (lost_bounds p L t segs L LD ltac:(lra)) as [BL _].
  pose proof (lost_small (drape p L t 0)) as b0. pose proof (lost_small (drape p L t L)) as bL. unfold lost in b0, bL.
  set (r := x / L). assert (Hr : 0 <= r <= 1).
  { unfold r. split; [apply Rmult_le_pos; [lra|left; apply Rinv_0_lt_compat; lra]|]. apply Rmult_le_reg_r with L; [lra|]. unfold Rdiv. rewrite Rmult_assoc, Rinv_l by lra. lra. }
  assert (Ex : x = r * L) by (unfold r; field; lra).
  set (d0 := drape p L t 0) in *. set (dL := drape p L t L) in *. set (k0 := kept d0) in *. set (kL := kept dL) in *.
  set (Kx := rep kept None segs x) in *. set (KL := rep kept None segs L) in *. set (lx := rep lost None segs x) in *. set (lL := rep lost None segs L) in *.
  set (e0 := if Nat.eqb i 0 then d0 - k0 else 0). set (eL := if Nat.eqb (i + 1) (length Ls) then dL - kL else 0).
  replace (_ - _) with (F * (lx - r * lL + (1 - r) * e0 + r * eL)).
  2:{ unfold le, re. rewrite Hmb, Dx, Ex. unfold e0, eL. destruct (Nat.eqb i 0), (Nat.eqb (i + 1) (length Ls)); fold d0; rewrite ?DL; ring. }
  pose proof tol_pos as TP.
  assert (B0 : Rabs e0 <= tol) by (unfold e0; destruct (Nat.eqb i 0); [exact b0|rewrite Rabs_R0; lra]).
  assert (B1 : Rabs eL <= tol) by (unfold eL; destruct (Nat.eqb (i + 1) (length Ls)); [exact bL|rewrite Rabs_R0; lra]).
  unfold neglected. apply scaled_bound with (B := L ^ 2 + 8 * L + 1); [|nra].
  apply abs_inv in Bx. apply abs_inv in BL. apply abs_inv in B0. apply abs_inv in B1.
  assert (Bx' : - (tol * (L ^ 2 / 2 + 4 * L)) <= lx <= tol * (L ^ 2 / 2 + 4 * L)).
  { assert (tol * (x ^ 2 / 2 + 4 * x) <= tol * (L ^ 2 / 2 + 4 * L)) by (apply Rmult_le_compat_l; nra). lra. }
  apply abs_le. set (W := tol * (L ^ 2 / 2 + 4 * L)) in *.
  assert (- W <= r * lL <= W) by nra. assert (- tol <= (1 - r) * e0 + r * eL <= tol) by nra.
  replace (tol * (L ^ 2 + 8 * L + 1)) with (2 * W + tol) by (unfold W; field). lra.
Qed.

Theorem left_tip_balance Ls rs f ps LM ls p L F V M x : equivalent_loads Ls rs f ps = Ok LM -> parse_LM LM = Ok ls ->
  nth_error Ls 0 = Some L -> force_in f 0 F -> nth_error ps 0 = Some (Some p) ->
  free_node rs 0 -> placed p L (Some TipLeft) -> forall mb,
  cut_equilibrium L (actions L (loads_of ls 0)) 0 0 mb V M -> 0 < x < L ->
  Rabs (M x + F * drape p L (Some TipLeft) x) <= neglected F L.
Proof.
  intros E EP EL EF Ep Ht HP mb HC Hx.
  destruct (span_of _ _ _ _ _ _ _ _ (Some TipLeft) _ _ E EP EL EF Ep Ht HP) as (segs & s0 & lf & rf & LD & E0 & Hl & _ & ST).
  apply Hl in Ht. subst lf. cbn [Nat.eqb andb] in ST.
  destruct (cut_moments L _ 0 0 mb V M ltac:(lra) (ss_ord _ _ _ _ _ _ _ _ _ ST) HC) as [HM _].
  rewrite (HM x ltac:(lra) (ss_away _ _ _ _ _ _ _ _ _ ST x Hx)).
  rewrite (ss_left _ _ _ _ _ _ _ _ _ ST x Hx), (ss_g _ _ _ _ _ _ _ _ _ ST x ltac:(lra)).
  rewrite (drape_rep p L _ segs s0 x LD E0 ltac:(lra)).
  destruct (lost_bounds p L _ segs x LD ltac:(lra)) as [Bx _].
  set (d0 := drape p L (Some TipLeft) 0) in *.
  pose proof (lost_small d0) as b0. pose proof (lost_small (sl0 s0)) as b1. unfold lost in b0, b1.
  replace (_ + _) with (F * (rep lost None segs x + (sl0 s0 - kept (sl0 s0)) * x + (d0 - kept d0))) by ring.
  pose proof tol_pos as TP. unfold neglected. apply scaled_bound with (B := L ^ 2 / 2 + 5 * L + 1); [|nra].
  apply abs_inv in Bx. apply abs_inv in b0. apply abs_inv in b1. set (lx := rep lost None segs x) in *. set (u := sl0 s0 - kept (sl0 s0)) in *. set (v := d0 - kept d0) in *.
  assert (- (tol * (L ^ 2 / 2 + 4 * L)) <= lx <= tol * (L ^ 2 / 2 + 4 * L)).
  { assert (tol * (x ^ 2 / 2 + 4 * x) <= tol * (L ^ 2 / 2 + 4 * L)) by (apply Rmult_le_compat_l; nra). lra. }
  assert (- (tol * L) <= u * x <= tol * L) by nra.
  apply abs_le. replace (tol * (L ^ 2 / 2 + 5 * L + 1)) with (tol * (L ^ 2 / 2 + 4 * L) + tol * L + tol) by field. lra.
Qed.

Lemma total_of L lds W : 0 <= L -> Forall (ordinary L) lds -> total_load L (actions L lds) W -> W = gtot L lds.
Proof.
  intros HL O (I & i1 & E). destruct (actions_total L lds O HL) as (J & j1 & <-).
  assert (I = J) as -> by (rewrite <- (is_RInt_unique _ _ _ _ i1); apply is_RInt_unique; exact j1).
  rewrite E. assert (Z : lsum (map (fun ma : R * R => fst ma * 0) (moments (actions L lds))) = 0).
  { generalize (moments (actions L lds)). intros l. induction l as [|a l IH]; [reflexivity|]. cbn [map]. change (fst a * 0 + lsum (map (fun ma : R * R => fst ma * 0) l) = 0). rewrite IH. ring. }
  rewrite Z. ring.
Qed.

Theorem right_tip_balance Ls rs f ps LM ls i p t L F va ma V M x : equivalent_loads Ls rs f ps = Ok LM -> parse_LM LM = Ok ls ->
  (i + 1)%nat = length Ls -> nth_error Ls i = Some L -> force_in f i F -> nth_error ps i = Some (Some p) ->
  free_node rs (i + 1) -> tip_of rs i t -> placed p L t ->
  total_load L (actions L (loads_of ls i)) va ->
  cut_equilibrium L (actions L (loads_of ls i)) va ma 0 V M -> 0 < x < L ->
  Rabs (M x + F * drape p L t x) <= neglected F L.
Proof.
  intros E EP Hi EL EF Ep Hfr Ht HP HT HC Hx.
  destruct (span_of _ _ _ _ _ _ _ _ _ _ _ E EP EL EF Ep Ht HP) as (segs & s0 & lf & rf & LD & E0 & _ & Hr & ST).
  rewrite <- Hi in Hr. apply Hr in Hfr. subst rf. rewrite Hi, Nat.eqb_refl in ST. cbn [andb] in ST.
  apply total_of in HT; [|lra|exact (ss_ord _ _ _ _ _ _ _ _ _ ST)]. rewrite (ss_t _ _ _ _ _ _ _ _ _ ST) in HT.
  destruct (cut_moments L _ va ma 0 V M ltac:(lra) (ss_ord _ _ _ _ _ _ _ _ _ ST) HC) as [HM Hmb].
  rewrite (HM x ltac:(lra) (ss_away _ _ _ _ _ _ _ _ _ ST x Hx)).
  rewrite (ss_left _ _ _ _ _ _ _ _ _ ST x Hx), (ss_g _ _ _ _ _ _ _ _ _ ST x ltac:(lra)).
  rewrite (ss_g _ _ _ _ _ _ _ _ _ ST L ltac:(lra)), (ss_all _ _ _ _ _ _ _ _ _ ST) in Hmb.
  pose proof (drape_rep p L t segs s0 x LD E0 ltac:(lra)) as Dx. pose proof (drape_rep p L t segs s0 L LD E0 ltac:(lra)) as DL.
  destruct (lost_bounds p L t segs x LD ltac:(lra)) as [Bx B1]. destruct (lost_bounds p L t segs L LD ltac:(lra)) as [BL _].
  pose proof (slope_rep p L t segs s0 LD E0) as DS.
  set (dL := drape p L t L) in *. set (d0 := drape p L t 0) in *.
  pose proof (lost_small dL) as bL. pose proof (lost_small (sl1 (last segs s0))) as bs. unfold lost in bL, bs.
  set (se := sl1 (last segs s0)) in *. set (ks := kept se) in *. set (kL := kept dL) in *.
  set (Kx := rep kept None segs x) in *. set (KL := rep kept None segs L) in *. set (lx := rep lost None segs x) in *. set (lL := rep lost None segs L) in *.
  set (K1 := rep1 kept None segs) in *. set (l1 := rep1 lost None segs) in *.
  set (a0 := if Nat.eqb i 0 then _ else _) in *. set (q0 := if (Nat.eqb i 0 && lf)%bool then _ else _) in *.
  replace (_ + _) with (F * ((L - x) * (l1 - (se - ks)) + (dL - kL) - (lL - lx))).
  2:{ assert (Ma : - ma - a0 = - (va * L) + (F * KL + q0 * L) + - F * kL) by lra.
      replace (- ma + va * x - (F * Kx + q0 * x) - a0) with ((- ma - a0) + va * x - (F * Kx + q0 * x)) by ring. rewrite Ma, HT, Dx.
      replace (dL) with (d0 + sl0 s0 * L + KL + lL) at 1 by lra. replace se with (sl0 s0 + K1 + l1) at 1 by lra. ring. }
  pose proof tol_pos as TP. unfold neglected. apply scaled_bound with (B := 2 * L ^ 2 + 13 * L + 1); [|lra].
  apply abs_inv in Bx. apply abs_inv in BL. apply abs_inv in B1. apply abs_inv in bL. apply abs_inv in bs.
  assert (- (tol * (L ^ 2 / 2 + 4 * L)) <= lx <= tol * (L ^ 2 / 2 + 4 * L)).
  { assert (tol * (x ^ 2 / 2 + 4 * x) <= tol * (L ^ 2 / 2 + 4 * L)) by (apply Rmult_le_compat_l; nra). lra. }
  set (B := tol * (L ^ 2 / 2 + 4 * L)) in *. set (y := L - x). assert (Hy : 0 <= y <= L) by (unfold y; lra).
  set (u := l1) in *. set (v := se - ks) in *.
  assert (- (L * (tol * (L + 4))) <= y * u <= L * (tol * (L + 4))) by (set (W := tol * (L + 4)) in *; nra).
  assert (- (L * tol) <= y * v <= L * tol) by nra.
  apply abs_le. replace (y * (u - v)) with (y * u - y * v) by ring.
  replace (tol * (2 * L ^ 2 + 13 * L + 1)) with (L * (tol * (L + 4)) + L * tol + tol + 2 * B) by (unfold B; field). lra.
Qed.

(** ** Self-equilibrium of the tendon's actions on a free span *)
Lemma first_of L lds W : 0 <= L -> Forall (ordinary L) lds -> first_moment L (actions L lds) W ->
  W = L * gtot L lds - gsum lds L - lsum (map fst (moments (actions L lds))).
Proof.
  intros HL O (I & i1 & E). destruct (actions_total L lds O HL) as (J & j1 & <-).
  destruct (actions_moment L lds L O ltac:(lra)) as (K & k1 & <-). rewrite <- (actions_far L lds O).
  assert (EI : I = L * J - K).
  { rewrite <- (is_RInt_unique _ _ _ _ i1). apply is_RInt_unique.
    apply (is_RInt_ext (fun t => minus (scal L (1 * intensity (actions L lds) t)) ((L - t) * intensity (actions L lds) t))).
    - intros t _. change (L * (1 * intensity (actions L lds) t) + - ((L - t) * intensity (actions L lds) t) = t * intensity (actions L lds) t). ring.
    - change (L * J - K) with (minus (scal L J) K). exact (is_RInt_minus _ _ _ _ _ _ (is_RInt_scal _ _ _ L _ j1) k1). }
  rewrite E, EI.
  assert (Z : lsum (map (fun ma : R * R => fst ma * 1) (moments (actions L lds))) = lsum (map fst (moments (actions L lds)))).
  { f_equal. apply map_ext. intros a. ring. }
  assert (Y : forall l : list (R * R), lsum (map (fun pa : R * R => fst pa * snd pa) l) =
     L * lsum (map (fun pa : R * R => fst pa * 1) l) - lsum (map (fun pa : R * R => fst pa * (L - snd pa)) l)).
  { induction l as [|a l IH]; [unfold lsum; cbn; ring|]. cbn [map]. unfold lsum in *. cbn [fold_right]. rewrite IH. ring. }
  rewrite Z, Y. ring.
Qed.

Theorem free_span_balance L rs F p LM ls W0 W1 : equivalent_loads [L] rs (FScalar F) [Some p] = Ok LM -> parse_LM LM = Ok ls ->
  free_node rs 0 -> free_node rs 1 -> placed p L (Some TipLeft) ->
  total_load L (actions L (loads_of ls 0)) W0 -> first_moment L (actions L (loads_of ls 0)) W1 ->
  Rabs W0 <= neglected F L /\ Rabs W1 <= neglected F L.
Proof.
  intros E EP H0 H1 HP HT HF.
  destruct (span_of [L] rs (FScalar F) [Some p] LM ls 0 p (Some TipLeft) L F E EP eq_refl eq_refl eq_refl H0 HP)
    as (segs & s0 & lf & rf & LD & E0 & Hl & Hr & ST).
  apply Hl in H0. apply Hr in H1. subst lf rf. cbn [Nat.eqb Nat.add length andb] in ST. pose proof (proj1 HP) as HL.
  apply total_of in HT; [|lra|exact (ss_ord _ _ _ _ _ _ _ _ _ ST)].
  apply first_of in HF; [|lra|exact (ss_ord _ _ _ _ _ _ _ _ _ ST)].
  rewrite (ss_t _ _ _ _ _ _ _ _ _ ST) in HT, HF. rewrite (ss_g _ _ _ _ _ _ _ _ _ ST L ltac:(lra)), (ss_all _ _ _ _ _ _ _ _ _ ST) in HF.
  pose proof (drape_rep p L _ segs s0 L LD E0 ltac:(lra)) as DL.
  destruct (lost_bounds p L _ segs L LD ltac:(lra)) as [BL B1].
  pose proof (slope_rep p L _ segs s0 LD E0) as DS.
  set (dL := drape p L _ L) in *. set (d0 := drape p L _ 0) in *.
  pose proof (lost_small dL) as bL. pose proof (lost_small d0) as b0.
  pose proof (lost_small (sl1 (last segs s0))) as bs. pose proof (lost_small (sl0 s0)) as bq. unfold lost in bL, bs, b0, bq.
  set (se := sl1 (last segs s0)) in *. set (ks := kept se) in *. set (kL := kept dL) in *. set (k0 := kept d0) in *. set (sq := sl0 s0) in *. set (kq := kept sq) in *.
  set (KL := rep kept None segs L) in *. set (lL := rep lost None segs L) in *.
  set (K1 := rep1 kept None segs) in *. set (l1 := rep1 lost None segs) in *.
  apply abs_inv in BL. apply abs_inv in B1. apply abs_inv in bL. apply abs_inv in bs. apply abs_inv in b0. apply abs_inv in bq.
  pose proof tol_pos as TP. unfold neglected. split.
  - replace W0 with (F * ((se - ks) - (sq - kq) - l1)) by (rewrite HT, DS; ring).
    apply scaled_bound with (B := L + 6); [|nra]. apply abs_le.
    replace (tol * (L + 6)) with (tol * (L + 4) + tol + tol) by ring. lra.
  - replace W1 with (F * (L * (se - ks) - L * l1 + lL + (d0 - k0) - (dL - kL))).
    2:{ rewrite HF. replace dL with (d0 + sq * L + KL + lL) at 1 by lra. replace se with (sq + K1 + l1) at 1 by lra. ring. }
    apply scaled_bound with (B := L ^ 2 * (3 / 2) + 9 * L + 2); [|nra]. apply abs_le.
    assert (- (L * tol) <= L * (se - ks) <= L * tol) by nra.
    assert (- (L * (tol * (L + 4))) <= L * l1 <= L * (tol * (L + 4))) by (set (W := tol * (L + 4)) in *; nra).
    replace (tol * (L ^ 2 * (3 / 2) + 9 * L + 2)) with (L * tol + L * (tol * (L + 4)) + tol * (L ^ 2 / 2 + 4 * L) + tol + tol) by field. lra.
Qed.

(** ** The drawn drape *)
Lemma eval_cval segs : forall x0 e0 xe ee x, chain x0 e0 segs xe ee -> segs <> [] -> x0 <= x <= xe ->
  (forall s, In s (tl segs) -> ~ (sg_x1 s < x <= sg_x1 s + tol)) -> eval_e segs x = Ok (cval segs x).
Proof.
  pose proof tol_pos as TP.
  induction segs as [|s t IH]; intros x0 e0 xe ee x C Hn Hx Hb; [congruence|]. cbn [chain] in C. destruct C as (E & _ & H & C).
  cbn [eval_e cval]. destruct (Rleb_spec (sg_x1 s - tol) x) as [_|N]; [|lra]. cbn [andb].
  assert (V : (do q <- slope_start s; Ok (sg_e1 s + q * (x - sg_x1 s) + 5e-1 * sg_epp s * (x - sg_x1 s) ^ 2)) = Ok (sval s x)).
  { rewrite (slope_start_ok s H). cbn [rbind]. f_equal. unfold sval. lra. }
  destruct (Rle_dec x (sg_x2 s)) as [Hle|Hgt].
  - destruct (Rleb_spec x (sg_x2 s + tol)) as [_|N]; [|lra]. exact V.
  - destruct t as [|s' t'].
    + cbn in C. destruct C. lra.
    + assert (Hb' := Hb s' (or_introl eq_refl)). cbn in C. assert (sg_x1 s' = sg_x2 s) as Es by tauto.
      destruct (Rleb_spec x (sg_x2 s + tol)) as [Hc|_]; [exfalso; apply Hb'; lra|].
      apply (IH _ _ _ _ x C); [discriminate|lra|]. intros s1 H1. apply Hb. right. exact H1.
Qed.
Theorem drawn_drape p L t segs x : segments p L t = Ok segs -> placed p L t -> 0 <= x <= L ->
  (forall b, In b (breaks p L t) -> ~ (b < x <= b + 1e-9)) -> eval_e segs x = Ok (drape p L t x).
Proof.
  intros E HP Hx Hb. pose proof (segments_laid _ _ _ _ E HP) as LD.
  rewrite <- (ld_val _ _ _ _ LD x Hx). apply (eval_cval segs 0 _ L _ x (ld_chain _ _ _ _ LD) (ld_some _ _ _ _ LD) Hx).
  intros s Hs. change tol with 1e-9. apply Hb. rewrite <- (ld_breaks _ _ _ _ LD). apply in_map. exact Hs.
Qed.
