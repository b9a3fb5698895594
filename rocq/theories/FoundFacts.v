(** Element matrices as integrals (C42). *)
From Coquelicot Require Import Coquelicot.
From Verif Require Import Base BaseFacts SectionModel LoadModel ElementModel FoundationModel ElementSpec AnalysisSpec FoundSpec.
Open Scope R_scope.

Definition cub (a0 a1 a2 a3 x : R) : R := a0 + a1 * x + a2 * x ^ 2 + a3 * x ^ 3.
Lemma cub_derive a0 a1 a2 a3 x : is_derive (cub a0 a1 a2 a3) x (a1 + 2 * a2 * x + 3 * a3 * x ^ 2).
Proof. unfold cub. auto_derive; [auto|ring]. Qed.
Lemma cub_derive2 a0 a1 a2 a3 x : Derive_n (cub a0 a1 a2 a3) 2 x = 2 * a2 + 6 * a3 * x.
Proof.
  cbn [Derive_n]. rewrite (Derive_ext _ (fun t => a1 + 2 * a2 * t + 3 * a3 * t ^ 2)) by (intros t; apply is_derive_unique, cub_derive).
  apply is_derive_unique. auto_derive; [auto|ring].
Qed.
Lemma cubic_form L d u : cubic_between L d u -> exists a0 a1 a2 a3, (forall x, u x = cub a0 a1 a2 a3 x) /\ (forall x, Derive_n u 2 x = 2 * a2 + 6 * a3 * x) /\
  d 0%nat = a0 /\ d 1%nat = a1 /\ d 2%nat = cub a0 a1 a2 a3 L /\ d 3%nat = a1 + 2 * a2 * L + 3 * a3 * L ^ 2.
Proof.
  intros ((a0 & a1 & a2 & a3 & E) & E0 & E1 & E2 & E3). exists a0, a1, a2, a3. change (forall x, u x = cub a0 a1 a2 a3 x) in E.
  split; [exact E|]. split; [intros x; rewrite (Derive_n_ext u (cub a0 a1 a2 a3)) by exact E; apply cub_derive2|].
  rewrite (Derive_ext u (cub a0 a1 a2 a3)) in E1 by exact E. rewrite (Derive_ext u (cub a0 a1 a2 a3)) in E3 by exact E.
  rewrite (is_derive_unique _ _ _ (cub_derive a0 a1 a2 a3 0)) in E1. rewrite (is_derive_unique _ _ _ (cub_derive a0 a1 a2 a3 L)) in E3.
  rewrite <- E0, <- E1, <- E2, <- E3, !E. unfold cub. repeat split; ring.
Qed.
(** The cubic exists and is the only one. *)
Definition coef2 (L : R) (d : vec) : R := (3 * (d 2%nat - d 0%nat) - L * (2 * d 1%nat + d 3%nat)) / L ^ 2.
Definition coef3 (L : R) (d : vec) : R := (2 * (d 0%nat - d 2%nat) + L * (d 1%nat + d 3%nat)) / L ^ 3.
Definition herm (L : R) (d : vec) : R -> R := cub (d 0%nat) (d 1%nat) (coef2 L d) (coef3 L d).
Lemma herm_cubic L d : 0 < L -> cubic_between L d (herm L d).
Proof.
  intros HL. unfold cubic_between, herm. split; [do 4 eexists; intros x; reflexivity|].
  rewrite (is_derive_unique _ _ _ (cub_derive _ _ _ _ 0)), (is_derive_unique _ _ _ (cub_derive _ _ _ _ L)). unfold cub, coef2, coef3.
  repeat split; field; lra.
Qed.
Lemma cubic_unique L d u : 0 < L -> cubic_between L d u -> forall x, u x = herm L d x.
Proof.
  intros HL H x. destruct (cubic_form L d u H) as (a0 & a1 & a2 & a3 & E & _ & E0 & E1 & E2 & E3). rewrite E. unfold herm, coef2, coef3. rewrite E0, E1, E2, E3. unfold cub. field. lra.
Qed.
Lemma shape_exists L d : 0 < L -> exists u, cubic_between L d u /\ forall w, cubic_between L d w -> forall x, w x = u x.
Proof. intros HL. exists (herm L d). split; [apply herm_cubic, HL|]. intros w H. apply cubic_unique; assumption. Qed.

Lemma bending_integral EI L d e u w : 0 < L -> cubic_between L d u -> cubic_between L e w ->
  is_RInt (fun x => EI * Derive_n u 2 x * Derive_n w 2 x) 0 L (form (k_ebeam EI L) d e).
Proof.
  intros HL Hu Hw. destruct (cubic_form L d u Hu) as (a0 & a1 & a2 & a3 & Eu & Du & E0 & E1 & E2 & E3). destruct (cubic_form L e w Hw) as (b0 & b1 & b2 & b3 & Ew & Dw & F0 & F1 & F2 & F3).
  apply (is_RInt_ext (fun x => EI * (2 * a2 + 6 * a3 * x) * (2 * b2 + 6 * b3 * x))); [intros x _; rewrite Du, Dw; reflexivity|].
  set (G := fun x => EI * (4 * a2 * b2 * x + 6 * (a2 * b3 + a3 * b2) * x ^ 2 + 12 * a3 * b3 * x ^ 3)).
  replace (form (k_ebeam EI L) d e) with (minus (G L) (G 0)).
  - apply (is_RInt_derive G); intros x _; unfold G; [auto_derive; [auto|ring]|]. apply (ex_derive_continuous (K := R_AbsRing) (V := R_NormedModule)). auto_derive. auto.
  - unfold G, form, end_forces, mulmv, k_ebeam, minus, plus, opp. cbn [rsum mat4 vec4 AbelianGroup.opp AbelianGroup.plus]. cbn. rewrite E0, E1, E2, E3, F0, F1, F2, F3. unfold cub. field. lra.
Qed.
Lemma found_integral kf L d e u w : 0 < L -> cubic_between L d u -> cubic_between L e w ->
  is_RInt (fun x => kf * u x * w x) 0 L (form (k_found kf L) d e).
Proof.
  intros HL Hu Hw. destruct (cubic_form L d u Hu) as (a0 & a1 & a2 & a3 & Eu & Du & E0 & E1 & E2 & E3). destruct (cubic_form L e w Hw) as (b0 & b1 & b2 & b3 & Ew & Dw & F0 & F1 & F2 & F3).
  apply (is_RInt_ext (fun x => kf * cub a0 a1 a2 a3 x * cub b0 b1 b2 b3 x)); [intros x _; rewrite Eu, Ew; reflexivity|].
  set (G := fun x => kf * (a0 * b0 * x + (a0 * b1 + a1 * b0) * x ^ 2 / 2 + (a0 * b2 + a1 * b1 + a2 * b0) * x ^ 3 / 3 + (a0 * b3 + a1 * b2 + a2 * b1 + a3 * b0) * x ^ 4 / 4
     + (a1 * b3 + a2 * b2 + a3 * b1) * x ^ 5 / 5 + (a2 * b3 + a3 * b2) * x ^ 6 / 6 + a3 * b3 * x ^ 7 / 7)).
  replace (form (k_found kf L) d e) with (minus (G L) (G 0)).
  - apply (is_RInt_derive G); intros x _; unfold G, cub; [auto_derive; [auto|field]|]. apply (ex_derive_continuous (K := R_AbsRing) (V := R_NormedModule)). auto_derive. auto.
  - unfold G, form, end_forces, mulmv, k_found, minus, plus, opp. cbn. rewrite E0, E1, E2, E3, F0, F1, F2, F3. unfold cub. field.
Qed.

Ltac four i := destruct i as [|[|[|[|i]]]]; [..|exfalso; lia].
Lemma bend_sym EI L : symmetric4 (k_ebeam EI L).
Proof. intros i j Hi Hj. unfold k_ebeam. four i; four j; cbn; ring. Qed.
Lemma found_sym kf L : symmetric4 (k_found kf L).
Proof. intros i j Hi Hj. unfold k_found. four i; four j; cbn; ring. Qed.
Lemma form_energy k d : form k d d = energy k d.
Proof. reflexivity. Qed.
Lemma bend_energy EI L d : 0 < L -> energy (k_ebeam EI L) d =
  EI / L ^ 3 * ((d 1%nat * L - d 3%nat * L) ^ 2 + 3 * (2 * d 0%nat + L * d 1%nat - 2 * d 2%nat + L * d 3%nat) ^ 2).
Proof. intros HL. unfold energy, end_forces, mulmv, k_ebeam. cbn [rsum mat4 vec4]. field. lra. Qed.
Lemma found_energy kf L d : energy (k_found kf L) d =
  let A0 := d 0%nat in let A1 := L * d 1%nat in let A2 := -3 * d 0%nat - 2 * L * d 1%nat + 3 * d 2%nat - L * d 3%nat in let A3 := 2 * d 0%nat + L * d 1%nat - 2 * d 2%nat + L * d 3%nat in
  kf * L * ((A0 + A1 / 2 + A2 / 3 + A3 / 4) ^ 2 + (A1 / 2 + A2 / 2 + 9 / 20 * A3) ^ 2 / 3 + (A2 / 6 + A3 / 4) ^ 2 / 5 + (A3 / 20) ^ 2 / 7).
Proof. unfold energy, end_forces, mulmv, k_found. cbn [rsum mat4 vec4]. cbv zeta. field. Qed.
Lemma sq_sum2 a b : 0 <= a ^ 2 + 3 * b ^ 2 /\ (a ^ 2 + 3 * b ^ 2 = 0 -> a = 0 /\ b = 0).
Proof. split; [nra|]. intros H. split; nra. Qed.
Lemma bend_nonneg EI L d : 0 < EI -> 0 < L -> 0 <= energy (k_ebeam EI L) d.
Proof.
  intros HE HL. rewrite bend_energy by exact HL. apply Rmult_le_pos; [|apply sq_sum2]. apply Rlt_le, Rmult_lt_0_compat; [exact HE|]. apply Rinv_0_lt_compat, pow_lt, HL.
Qed.
Lemma bend_zero EI L d : 0 < EI -> 0 < L -> (energy (k_ebeam EI L) d = 0 <-> rigid_motion L d).
Proof.
  intros HE HL. rewrite bend_energy by exact HL. assert (P : 0 < EI / L ^ 3) by (apply Rmult_lt_0_compat; [exact HE|]; apply Rinv_0_lt_compat, pow_lt, HL). split.
  - intros H. apply Rmult_integral in H as [H|H]; [lra|]. apply sq_sum2 in H as [H1 H2]. assert (E : d 3%nat = d 1%nat) by (apply (Rmult_eq_reg_r L); lra).
    exists (d 0%nat), (d 1%nat). intros i Hi. four i; cbn; try reflexivity; [|exact E]. rewrite E in H2. lra.
  - intros (c & t & H). rewrite (H 0%nat), (H 1%nat), (H 2%nat), (H 3%nat) by lia. cbn. ring.
Qed.
Lemma found_nonneg kf L d : 0 <= kf -> 0 < L -> 0 <= energy (k_found kf L) d.
Proof.
  intros HE HL. rewrite found_energy. cbv zeta. apply Rmult_le_pos; [apply Rmult_le_pos; lra|].
  assert (S : forall a b c e : R, 0 <= a ^ 2 + b ^ 2 / 3 + c ^ 2 / 5 + e ^ 2 / 7) by (intros a b c e; assert (Pa := pow2_ge_0 a); assert (Pb := pow2_ge_0 b); assert (Pc := pow2_ge_0 c); assert (Pe := pow2_ge_0 e); lra). apply S.
Qed.
Lemma sq_sum4 a b c e : a ^ 2 + b ^ 2 / 3 + c ^ 2 / 5 + e ^ 2 / 7 = 0 -> a = 0 /\ b = 0 /\ c = 0 /\ e = 0.
Proof.
  assert (S : forall x : R, x ^ 2 = 0 -> x = 0) by (intros x; apply (Rsqr_0_uniq x) || (intros Hx; rewrite <- Rsqr_pow2 in Hx; apply Rsqr_0_uniq; exact Hx)).
  assert (Pa := pow2_ge_0 a). assert (Pb := pow2_ge_0 b). assert (Pc := pow2_ge_0 c). assert (Pe := pow2_ge_0 e). intros H. repeat split; apply S; lra.
Qed.
Lemma found_pos kf L d : 0 < kf -> 0 < L -> nonzero4 d -> 0 < energy (k_found kf L) d.
Proof.
  intros HE HL (i & Hi & N). destruct (Rle_lt_dec (energy (k_found kf L) d) 0) as [H|H]; [|exact H]. exfalso.
  assert (Z : energy (k_found kf L) d = 0) by (apply Rle_antisym; [exact H|apply found_nonneg; lra]). rewrite found_energy in Z. cbv zeta in Z.
  set (A0 := d 0%nat) in *. set (A1 := L * d 1%nat) in *. set (A2 := -3 * A0 - 2 * L * d 1%nat + 3 * d 2%nat - L * d 3%nat) in *. set (A3 := 2 * A0 + A1 - 2 * d 2%nat + L * d 3%nat) in *.
  apply Rmult_integral in Z as [Z|Z]; [assert (0 < kf * L) by (apply Rmult_lt_0_compat; lra); lra|].
  apply sq_sum4 in Z as (Y0 & Y1 & Y2 & Y3). assert (Z3 : A3 = 0) by lra. assert (Z2 : A2 = 0) by lra. assert (Z1 : A1 = 0) by lra. assert (Z0 : A0 = 0) by lra. clear Y0 Y1 Y2 Y3.
  assert (D1 : d 1%nat = 0) by (apply (Rmult_eq_reg_l L); unfold A1 in Z1; lra). assert (X : 3 * d 2%nat - L * d 3%nat = 0 /\ - 2 * d 2%nat + L * d 3%nat = 0) by (unfold A2, A3 in *; rewrite Z0, D1 in *; rewrite Z1 in *; split; lra).
  assert (D2 : d 2%nat = 0) by lra. assert (D3 : d 3%nat = 0) by (apply (Rmult_eq_reg_l L); lra). apply N. four i; assumption.
Qed.
