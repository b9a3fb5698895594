(** Solvability, symmetry and positivity of the condensed member (C41). *)
From Coquelicot Require Import Coquelicot.
From Verif Require Import Base BaseFacts Linalg LinalgFacts SectionModel FlexModel LoadModel FoundationModel ElementModel ElementSpec AnalysisSpec AnalysisFacts AnalysisFacts2 LinearFacts FoundSpec FoundFacts FoundFacts2.
Open Scope R_scope.

Lemma rsum_z k : rsum k (fun _ => 0) = 0.
Proof. apply rsum_0. reflexivity. Qed.
Lemma chain_work ks n d u : rsum (2 * (n + 1)) (fun i => mulmv (2 * (n + 1)) (assemble_chain ks n) d i * u i) = rsum n (fun m => form (ks m) (ends u m) (ends d m)).
Proof.
  rewrite (rsum_ext _ _ (fun i => nodal_sum n (fun m => end_forces (ks m) (ends d m)) i * u i)) by (intros i Hi; rewrite chain_nodal by exact Hi; reflexivity).
  rewrite virtual_work. apply rsum_ext. intros m _. unfold form. apply rsum_ext. intros q _. unfold ends at 2. ring.
Qed.
Lemma chain_sym ks n i j : (forall m, (m < n)%nat -> symmetric4 (ks m)) -> assemble_chain ks n i j = assemble_chain ks n j i.
Proof.
  intros H. rewrite !chain_blk. apply rsum_ext. intros m Hm. unfold blk, scat.
  destruct (Nat.leb_spec (2 * m) i), (Nat.ltb_spec i (2 * m + 4)), (Nat.leb_spec (2 * m) j), (Nat.ltb_spec j (2 * m + 4)); cbn [andb]; try reflexivity. apply H; lia.
Qed.
Lemma form_plus k d e g : form k d (fun i => e i + g i) = form k d e + form k d g.
Proof. unfold form, end_forces, mulmv. cbn [rsum]. ring. Qed.
Lemma form_plus_l k d e g : form k (fun i => e i + g i) d = form k e d + form k g d.
Proof. unfold form, end_forces, mulmv. cbn [rsum]. ring. Qed.
Lemma form_sym k d e : symmetric4 k -> form k d e = form k e d.
Proof.
  intros S4. unfold form, end_forces, mulmv. cbn [rsum].
  rewrite (S4 1%nat 0%nat), (S4 2%nat 0%nat), (S4 3%nat 0%nat), (S4 2%nat 1%nat), (S4 3%nat 1%nat), (S4 3%nat 2%nat) by lia. ring.
Qed.
Lemma form_ext k d e d' e' : eq4 d d' -> eq4 e e' -> form k d e = form k d' e'.
Proof. intros H H'. unfold form, end_forces, mulmv. cbn [rsum]. rewrite !H, !H' by lia. reflexivity. Qed.
Lemma form_mat k1 k2 d e : form (fun i j => k1 i j + k2 i j) d e = form k1 d e + form k2 d e.
Proof. unfold form, end_forces, mulmv. cbn [rsum]. ring. Qed.
Lemma form_zero k d e : eq4 d (fun _ => 0) -> form k d e = 0.
Proof. intros H. unfold form. cbn [rsum]. rewrite !H by lia. ring. Qed.

Section Elem.
Variable f : felem.
Hypothesis Hn : (1 <= fe_n f)%nat.
Hypothesis HL : 0 < fe_L f.
Hypothesis HE : 0 < fe_EI f.
Hypothesis Hk : 0 <= fe_kf f.
Let n := fe_n f.
Lemma h_pos : 0 < fe_h f.
Proof. unfold fe_h. apply Rdiv_lt_0_compat; [exact HL|]. apply lt_0_INR. lia. Qed.
Lemma ke_sym : symmetric4 (fe_ke f).
Proof. intros i j Hi Hj. unfold fe_ke. rewrite (bend_sym _ _ i j Hi Hj), (found_sym _ _ i j Hi Hj). reflexivity. Qed.
Lemma ke_nonneg d : 0 <= form (fe_ke f) d d.
Proof.
  unfold fe_ke. rewrite form_mat, !form_energy. assert (A := bend_nonneg (fe_EI f) (fe_h f) d HE h_pos). assert (B := found_nonneg (fe_kf f) (fe_h f) d Hk h_pos). lra.
Qed.
Lemma ke_zero d : form (fe_ke f) d d = 0 -> rigid_motion (fe_h f) d.
Proof.
  unfold fe_ke. rewrite form_mat, !form_energy. intros H. assert (A := bend_nonneg (fe_EI f) (fe_h f) d HE h_pos). assert (B := found_nonneg (fe_kf f) (fe_h f) d Hk h_pos).
  apply (bend_zero (fe_EI f) (fe_h f) d HE h_pos). lra.
Qed.
Lemma K_sym i j : fe_K f i j = fe_K f j i.
Proof. apply chain_sym. intros m _. apply ke_sym. Qed.

(** Zero at the start and rigid in every sub-element: zero throughout. *)
Lemma rigid_chain h d k : d 0%nat = 0 -> d 1%nat = 0 -> (forall m, (m < k)%nat -> rigid_motion h (ends d m)) -> d (2 * k)%nat = 0 /\ d (2 * k + 1)%nat = 0.
Proof.
  intros H0 H1. induction k as [|k IH]; intros H; [split; assumption|]. destruct IH as [A B]; [intros m Hm; apply H; lia|].
  destruct (H k ltac:(lia)) as (c & t & E). assert (E0 := E 0%nat ltac:(lia)). assert (E1 := E 1%nat ltac:(lia)). assert (E2 := E 2%nat ltac:(lia)). assert (E3 := E 3%nat ltac:(lia)).
  unfold ends in *. cbn [vec4] in *. rewrite Nat.add_0_r in E0. replace (2 * S k)%nat with (2 * k + 2)%nat by lia. replace (2 * k + 2 + 1)%nat with (2 * k + 3)%nat by lia.
  rewrite E2, E3. rewrite <- E0, <- E1, A, B. split; ring.
Qed.

Lemma solvable : exists B, fe_Kcc_inv f = Ok B.
Proof.
  unfold fe_Kcc_inv, inv. destruct (proj2 (solve_some_iff (fe_nc f) (fun i j => fe_K f (fe_c i) (fe_c j)) (fun _ => 0))) as [x ->]; [|eauto].
  intros y Hy. set (d := fun g => if Nat.ltb g 2 then 0 else if Nat.ltb g (2 * n) then y (g - 2)%nat else 0).
  assert (Dr : forall p, (p < 4)%nat -> d (fe_r f p) = 0).
  { intros p Hp. assert (Q : (1 <= n)%nat) by exact Hn. destruct p as [|[|[|[|p]]]]; [reflexivity|reflexivity|..|lia]; rewrite ?(fr2 f Hn), ?(fr3 f Hn); fold n; unfold d;
    match goal with |- context [Nat.ltb ?a 2] => destruct (Nat.ltb_spec a 2); [lia|] end; match goal with |- context [Nat.ltb ?a (2 * n)] => destruct (Nat.ltb_spec a (2 * n)); [lia|] end; reflexivity. }
  assert (Dc : forall q, (q < fe_nc f)%nat -> d (fe_c q) = y q).
  { intros q Hq. rewrite fnc in Hq by exact Hn. fold n in Hq. unfold d, fe_c. destruct (Nat.ltb_spec (q + 2) 2); [lia|]. destruct (Nat.ltb_spec (q + 2) (2 * n)); [|lia]. f_equal. lia. }
  assert (W : rsum n (fun m => form (fe_ke f) (ends d m) (ends d m)) = 0).
  { rewrite <- (chain_work (fun _ => fe_ke f) n d d). fold (fe_K f). unfold n. rewrite (split_f f Hn). rewrite (rsum_ext 4 _ (fun _ => 0)) by (intros p Hp; rewrite Dr by exact Hp; ring).
    rewrite rsum_z. rewrite (rsum_ext (fe_nc f) _ (fun _ => 0)); [rewrite rsum_z; ring|]. intros q Hq.
    assert (E : mulmv (2 * (fe_n f + 1)) (fe_K f) d (fe_c q) = 0); [|unfold fe_K in E; rewrite E; ring].
    unfold mulmv. rewrite (split_f f Hn). rewrite (rsum_ext 4 _ (fun _ => 0)) by (intros p Hp; rewrite Dr by exact Hp; ring). rewrite rsum_z.
    specialize (Hy q Hq). unfold mulmv in Hy. rewrite (rsum_ext (fe_nc f) _ (fun j => fe_K f (fe_c q) (fe_c j) * y j)) by (intros j Hj; rewrite Dc by exact Hj; reflexivity). lra. }
  assert (Z : forall m, (m < n)%nat -> form (fe_ke f) (ends d m) (ends d m) = 0).
  { apply rsum_nonneg_0; [intros m _; apply ke_nonneg|exact W]. }
  intros q Hq. rewrite <- (Dc q Hq). assert (Hq' := Hq). rewrite fnc in Hq' by exact Hn. fold n in Hq'. unfold fe_c.
  assert (E := Nat.div_mod (q + 2) 2 ltac:(lia)). assert (M := Nat.mod_upper_bound (q + 2) 2 ltac:(lia)). set (j := ((q + 2) / 2)%nat) in *. set (p := ((q + 2) mod 2)%nat) in *. rewrite E.
  destruct (rigid_chain (fe_h f) d j) as [A B]; [reflexivity|reflexivity|intros m Hm; apply ke_zero, Z; lia|].
  destruct p as [|[|p]]; [rewrite Nat.add_0_r; exact A|exact B|lia].
Qed.

Section Inverse.
Variable B : mat.
Hypothesis HB : fe_Kcc_inv f = Ok B.
Lemma B_sym i j : (i < fe_nc f)%nat -> (j < fe_nc f)%nat -> B i j = B j i.
Proof. apply (inv_sym (fe_nc f) _ B (inverse f B HB)). intros a b _ _. apply K_sym. Qed.
Lemma cond_sym : symmetric4 (k_cond f B).
Proof.
  intros i j _ _. unfold k_cond. f_equal; [apply K_sym|]. unfold G.
  rewrite (rsum_ext (fe_nc f) _ (fun p => rsum (fe_nc f) (fun q => fe_K f (fe_r f i) (fe_c q) * B q p * fe_K f (fe_c p) (fe_r f j)))) by (intros p _; rewrite rsum_scal_r; reflexivity).
  rewrite rsum_swap. apply rsum_ext. intros q Hq. rewrite <- rsum_scal_r. apply rsum_ext. intros p Hp. rewrite (B_sym q p Hq Hp), (K_sym (fe_r f i) (fe_c q)), (K_sym (fe_c p) (fe_r f j)). ring.
Qed.
Lemma r_cond_zero i : r_cond f B (fun _ _ => 0) i = 0.
Proof.
  assert (Z : forall g, assemble_vec (fun _ _ => 0) (fe_n f) g = 0).
  { intros g. rewrite vec_scat. rewrite (rsum_ext _ _ (fun _ => 0)); [apply rsum_z|]. intros m _. unfold scat. destruct (_ && _)%bool; reflexivity. }
  unfold r_cond. rewrite Z. rewrite (rsum_ext _ _ (fun _ => 0)) by (intros p _; rewrite Z; ring). rewrite rsum_z. ring.
Qed.
Lemma state_work d dr u : mesh_state n (fe_ke f) (fun _ _ => 0) dr d ->
  rsum n (fun m => form (fe_ke f) (ends u m) (ends d m)) = rsum 4 (fun p => end_forces (k_cond f B) dr p * u (fe_r f p)).
Proof.
  intros H. assert (E := ends_condensed f Hn B HB _ dr d H). apply (state_rows f Hn) in H as [_ H].
  assert (Z : forall g, assemble_vec (fun _ _ => 0) (fe_n f) g = 0).
  { intros g. rewrite vec_scat. rewrite (rsum_ext _ _ (fun _ => 0)); [apply rsum_z|]. intros m _. unfold scat. destruct (_ && _)%bool; reflexivity. }
  assert (Q : forall i, mulmv (2 * (n + 1)) (assemble_chain (fun _ => fe_ke f) n) d i = row_force f (fun _ _ => 0) d i) by (intros i; unfold row_force; rewrite Z; unfold fe_K; fold n; ring).
  rewrite <- (chain_work (fun _ => fe_ke f) n d u). rewrite (rsum_ext _ _ (fun i => row_force f (fun _ _ => 0) d i * u i)) by (intros i _; rewrite Q; reflexivity).
  unfold n. rewrite (split_f f Hn). rewrite (rsum_ext (fe_nc f) _ (fun _ => 0)) by (intros q Hq; rewrite H by exact Hq; ring). rewrite rsum_z, Rplus_0_r.
  apply rsum_ext. intros p Hp. rewrite (row_ends f Hn) by exact Hp. rewrite E, r_cond_zero by exact Hp. ring.
Qed.
(** The condensed energy is the energy of the mesh in equilibrium, *)
Lemma cond_energy d dr : mesh_state n (fe_ke f) (fun _ _ => 0) dr d -> energy (k_cond f B) dr = rsum n (fun m => energy (fe_ke f) (ends d m)).
Proof.
  intros H. rewrite (rsum_ext n _ (fun m => form (fe_ke f) (ends d m) (ends d m))) by (intros m _; rewrite form_energy; reflexivity). rewrite (state_work d dr d H).
  apply (state_rows f Hn) in H as [E _]. unfold energy. apply rsum_ext. intros p Hp. rewrite E by exact Hp. ring.
Qed.
(** and no other mesh displacement with the same ends has less. *)
Lemma cond_least dr d : (forall p, (p < 4)%nat -> d (fe_r f p) = dr p) -> energy (k_cond f B) dr <= rsum n (fun m => energy (fe_ke f) (ends d m)).
Proof.
  intros E. assert (H := recovered_state f Hn B HB (fun _ _ => 0) dr). set (s := recovered f B (fun _ _ => 0) dr) in *. set (g := fun i => d i - s i).
  rewrite (cond_energy s dr H). assert (W := state_work s dr g H). rewrite (rsum_ext 4 _ (fun _ => 0)) in W.
  2:{ intros p Hp. apply (state_rows f Hn) in H as [E' _]. unfold g. rewrite E, E' by exact Hp. ring. }
  rewrite rsum_z in W. rewrite (rsum_ext n (fun m => energy (fe_ke f) (ends d m)) (fun m => energy (fe_ke f) (ends s m) + (2 * form (fe_ke f) (ends g m) (ends s m) + form (fe_ke f) (ends g m) (ends g m)))).
  2:{ intros m _. rewrite <- !form_energy. rewrite (form_ext (fe_ke f) (ends d m) (ends d m) (fun i => ends s m i + ends g m i) (fun i => ends s m i + ends g m i)) by (intros i _; unfold ends, g; ring).
      rewrite form_plus, !form_plus_l. rewrite (form_sym _ (ends s m) (ends g m) ke_sym). ring. }
  rewrite rsum_plus, rsum_plus, rsum_scal, W. assert (P : 0 <= rsum n (fun m => form (fe_ke f) (ends g m) (ends g m))) by (apply rsum_nonneg; intros m _; apply ke_nonneg). lra.
Qed.
Lemma cond_nonneg dr : 0 <= energy (k_cond f B) dr.
Proof.
  rewrite (cond_energy _ dr (recovered_state f Hn B HB (fun _ _ => 0) dr)). apply rsum_nonneg. intros m _. rewrite <- form_energy. apply ke_nonneg.
Qed.
Lemma cond_pos dr : 0 < fe_kf f -> nonzero4 dr -> 0 < energy (k_cond f B) dr.
Proof.
  intros Hk' Hz. assert (H := recovered_state f Hn B HB (fun _ _ => 0) dr). assert (E := cond_energy _ dr H). apply (state_rows f Hn) in H as [Er _]. set (s := recovered f B (fun _ _ => 0) dr) in *.
  destruct (cond_nonneg dr) as [P|P]; [exact P|exfalso]. rewrite <- P in E.
  assert (Z : forall m, (m < n)%nat -> energy (fe_ke f) (ends s m) = 0).
  { apply rsum_nonneg_0; [intros m _; rewrite <- form_energy; apply ke_nonneg|symmetry; exact E]. }
  assert (Z4 : forall m q, (m < n)%nat -> (q < 4)%nat -> s (2 * m + q)%nat = 0).
  { intros m q Hm Hq. destruct (Req_dec (s (2 * m + q)%nat) 0) as [|N]; [assumption|exfalso]. specialize (Z m Hm). rewrite <- form_energy in Z. unfold fe_ke in Z. rewrite form_mat, !form_energy in Z.
    assert (A := bend_nonneg (fe_EI f) (fe_h f) (ends s m) HE h_pos). assert (C := found_pos (fe_kf f) (fe_h f) (ends s m) Hk' h_pos (ex_intro _ q (conj Hq N))). lra. }
  destruct Hz as (p & Hp & N). apply N. rewrite <- Er by exact Hp. assert (Q : (1 <= n)%nat) by exact Hn. destruct p as [|[|[|[|p]]]]; [..|lia].
  - apply (Z4 0%nat 0%nat); lia.
  - apply (Z4 0%nat 1%nat); lia.
  - rewrite (fr2 f Hn). fold n. replace (2 * n)%nat with (2 * (n - 1) + 2)%nat by lia. apply Z4; lia.
  - rewrite (fr3 f Hn). fold n. replace (2 * n + 1)%nat with (2 * (n - 1) + 3)%nat by lia. apply Z4; lia.
Qed.
End Inverse.
End Elem.
