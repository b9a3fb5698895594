(** Every member formulation is a condensed chord expansion of a positive definite 2x2
    stiffness (C05, C06). *)
From Coquelicot Require Import Coquelicot.
From Coq Require Import String.
From Verif Require Import Base BaseFacts Linalg LinalgFacts SectionModel FlexModel LoadModel LoadSpec
  FoundationModel ElementModel ElementSpec ElementFacts.
Open Scope R_scope.

(** ** Flexibility is a Gram matrix *)
Lemma qsum_ok g nd v : qsum g nd = Ok v ->
  exists vs, Forall2 (fun xw y => g (fst xw) = Ok y) nd vs /\
    v = lsum (map (fun p => snd (fst p) * snd p) (combine nd vs)).
Proof.
  unfold qsum. intros Hq. apply rbind_ok in Hq as (ys & Hm & [= <-]).
  revert ys Hm. induction nd as [|[x w] nd IH]; cbn [mapM]; intros ys Hm.
  - injection Hm as <-. exists []. split; constructor.
  - apply rbind_ok in Hm as (y & Hy & Hm). apply rbind_ok in Hm as (yt & Ht & [= <-]).
    apply rbind_ok in Hy as (z & Hz & [= <-]). destruct (IH yt Ht) as (vs & Hv & E).
    exists (z :: vs). split; [constructor; auto|]. cbn [combine map]. rewrite !lsum_cons. cbn. rewrite E. reflexivity.
Qed.

Definition pos_nodes (s : sect) (nd : list (R * R)) : Prop :=
  forall x w, In (x, w) nd -> 0 < w /\ forall v, sect_eval s x = Ok v -> 0 < v.

Lemma gauss_nodes_pos gl s nd : gauss_rule gl -> positive_rigidity (RSect s) ->
  gauss_nodes gl s = Ok nd -> pos_nodes s nd.
Proof.
  intros G [P1 P2] Hn x w Hin. unfold gauss_nodes in Hn.
  assert (E : nd = concat (map (piece_nodes gl) (s_pieces s))) by (destruct (s_pieces s); congruence).
  subst nd. apply in_concat in Hin as (l & Hl & Hin). apply in_map_iff in Hl as (p & <- & Hp).
  unfold piece_nodes in Hin. apply in_map_iff in Hin as ([t u] & [= <- <-] & Hin). cbn [fst snd] in *.
  rewrite Forall_forall in P1. specialize (P1 p Hp). cbn in P1.
  specialize (G (match p_degree p with O => 2%nat | _ => Nat.max (2 * p_degree p + 8) 16 end)).
  assert (Hg : -1 < t < 1 /\ 0 < u).
  { rewrite Forall_forall in G. specialize (G (t, u)). cbn [fst snd] in G. apply G.
    destruct (p_degree p); exact Hin. }
  split; [nra|]. intros v Hv. refine (P2 p _ v Hp _ Hv). nra.
Qed.

(** Quadratic form of a 2x2 symmetric matrix. *)
Definition q22 (F : m22) (a b : R) : R := a * a * m00 F + 2 * a * b * m01 F + b * b * m11 F.

Lemma gram_nonneg s (f g : R -> R) nd a b f00 f01 f11 : pos_nodes s nd ->
  qsum (fun x => do e <- sect_eval s x; Ok (f x * f x / e)) nd = Ok f00 ->
  qsum (fun x => do e <- sect_eval s x; Ok (f x * g x / e)) nd = Ok f01 ->
  qsum (fun x => do e <- sect_eval s x; Ok (g x * g x / e)) nd = Ok f11 ->
  0 <= a * a * f00 + 2 * a * b * f01 + b * b * f11.
Proof.
  unfold qsum. intros P H0 H1 H2.
  apply rbind_ok in H0 as (l0 & H0 & [= <-]). apply rbind_ok in H1 as (l1 & H1 & [= <-]).
  apply rbind_ok in H2 as (l2 & H2 & [= <-]).
  revert l0 l1 l2 H0 H1 H2. induction nd as [|[x w] nd IH]; cbn [mapM fst snd]; intros l0 l1 l2 H0 H1 H2.
  - injection H0 as <-. injection H1 as <-. injection H2 as <-. cbn. lra.
  - apply rbind_ok in H0 as (y0 & Y0 & H0). apply rbind_ok in H0 as (t0 & H0 & [= <-]).
    apply rbind_ok in H1 as (y1 & Y1 & H1). apply rbind_ok in H1 as (t1 & H1 & [= <-]).
    apply rbind_ok in H2 as (y2 & Y2 & H2). apply rbind_ok in H2 as (t2 & H2 & [= <-]).
    destruct (sect_eval s x) as [e|] eqn:He; cbn [rbind] in *; [|discriminate].
    injection Y0 as <-. injection Y1 as <-. injection Y2 as <-.
    rewrite !lsum_cons.
    assert (IH' := IH ltac:(intros x' w' Hin; apply P; right; auto) t0 t1 t2 H0 H1 H2).
    destruct (P x w ltac:(left; auto)) as [Hw He']. specialize (He' e He).
    assert (0 <= w * ((a * f x + b * g x)^2 / e)).
    { apply Rmult_le_pos; [lra|]. apply Rmult_le_pos; [apply pow2_ge_0|]. left. apply Rinv_0_lt_compat; auto. }
    replace (w * ((a * f x + b * g x)^2 / e)) with
      (a * a * (w * (f x * f x / e)) + 2 * a * b * (w * (f x * g x / e)) + b * b * (w * (g x * g x / e))) in H by (field; lra).
    lra.
Qed.

Lemma flexibility_psd gl s L F : gauss_rule gl -> positive_rigidity (RSect s) ->
  flexibility gl s L = Ok F -> m01 F = m10 F /\ forall a b, 0 <= q22 F a b.
Proof.
  intros G P HF. unfold flexibility in HF. apply rbind_ok in HF as (nd & Hn & HF).
  apply rbind_ok in HF as (f00 & H0 & HF). apply rbind_ok in HF as (f01 & H1 & HF).
  apply rbind_ok in HF as (f11 & H2 & [= <-]). split; [reflexivity|]. intros a b. unfold q22; cbn [m00 m01 m10 m11].
  apply (gram_nonneg s (fun x => 1 - x / L) (fun x => - x / L) nd); auto.
  eapply gauss_nodes_pos; eauto.
Qed.

Lemma qsum_nonneg g nd v : (forall x w, In (x, w) nd -> 0 < w) ->
  (forall x w y, In (x, w) nd -> g x = Ok y -> 0 <= y) -> qsum g nd = Ok v -> 0 <= v.
Proof.
  intros Hw Hg Hv. unfold qsum in Hv. apply rbind_ok in Hv as (l & Hl & [= <-]).
  revert l Hl. induction nd as [|[x w] nd IH]; cbn [mapM fst snd]; intros l Hl.
  - injection Hl as <-. cbn. lra.
  - apply rbind_ok in Hl as (y & Hy & Hl). apply rbind_ok in Hl as (t & Ht & [= <-]).
    apply rbind_ok in Hy as (z & Hz & [= <-]). rewrite lsum_cons.
    assert (0 <= lsum t) by (apply IH; auto; intros; [eapply Hw|eapply Hg]; eauto; right; eauto).
    assert (0 < w) by (eapply Hw; left; eauto).
    assert (0 <= z) by (eapply Hg; [left; eauto|auto]). nra.
Qed.

Lemma shear_nonneg gl g L v : gauss_rule gl -> positive_rigidity g -> 0 < L ->
  shear_flexibility gl g L = Ok v -> 0 <= v.
Proof.
  intros G P HL Hv. unfold shear_flexibility in Hv. apply rbind_ok in Hv as (I & HI & [= <-]).
  apply Rmult_le_pos; [|left; apply Rinv_0_lt_compat; nra].
  destruct g as [c|s].
  - injection HI as <-. cbn in P. left. apply Rdiv_lt_0_compat; auto.
  - apply rbind_ok in HI as (nd & Hn & HI).
    pose proof (gauss_nodes_pos gl s nd G P Hn) as PN.
    eapply qsum_nonneg; [| |exact HI].
    + intros x' w' Hin. exact (proj1 (PN x' w' Hin)).
    + intros x w y Hin Hy. apply rbind_ok in Hy as (e & He & [= <-]).
      destruct (PN x w Hin) as [_ Pe]. specialize (Pe e He).
      unfold Rdiv. rewrite Rmult_1_l. left. apply Rinv_0_lt_compat; auto.
Qed.

Lemma timo_psd gl EI GAv L F : gauss_rule gl -> positive_rigidity EI -> positive_rigidity GAv -> 0 < L ->
  timo_flexibility gl EI GAv L = Ok F -> m01 F = m10 F /\ forall a b, 0 <= q22 F a b.
Proof.
  intros G PE PG HL HF. unfold timo_flexibility in HF.
  apply rbind_ok in HF as (B & HB & HF). apply rbind_ok in HF as (sh & Hs & [= <-]). cbn [m00 m01 m10 m11].
  apply shear_nonneg in Hs; auto.
  assert (m01 B = m10 B /\ forall a b, 0 <= q22 B a b) as [Es Ps].
  { destruct EI as [e|s].
    - injection HB as <-. cbn [m00 m01 m10 m11]. split; auto. intros a b. unfold q22; cbn [m00 m01 m10 m11].
      cbn in PE. replace (a*a*(L/(3*e)) + 2*a*b*(-L/(6*e)) + b*b*(L/(3*e)))
        with ((L/e) * ((a - b/2)^2 + 3/4 * b^2) / 3) by (field; lra).
      assert (0 < L / e) by (apply Rdiv_lt_0_compat; auto).
      pose proof (pow2_ge_0 (a - b/2)). pose proof (pow2_ge_0 b).
      apply Rmult_le_pos; [apply Rmult_le_pos|]; lra.
    - eapply flexibility_psd; eauto. }
  split; [congruence|]. intros a b. specialize (Ps a b). unfold q22 in *; cbn [m00 m01 m10 m11].
  pose proof (pow2_ge_0 (a + b)). nra.
Qed.

Lemma psd_inv_pd F K : m01 F = m10 F -> (forall a b, 0 <= q22 F a b) -> inv22 F = Ok K -> pd22 K.
Proof.
  intros Es Ps HK. apply inv22_ok in HK as (Hd & E00 & E01 & E10 & E11).
  set (det := m00 F * m11 F - m01 F * m10 F) in *.
  assert (A0 := Ps 1 0). assert (A1 := Ps 0 1). unfold q22 in A0, A1.
  assert (A2 := Ps (m11 F) (- m01 F)). unfold q22 in A2.
  assert (A3 := Ps (- m01 F) (m00 F)). unfold q22 in A3.
  assert (D2 : m11 F * m11 F * m00 F + 2 * m11 F * - m01 F * m01 F + - m01 F * - m01 F * m11 F = m11 F * det)
    by (unfold det; rewrite <- Es; ring).
  assert (Dpos : 0 < det).
  { destruct (Rle_lt_dec det 0) as [Hle|]; auto. exfalso.
    assert (det < 0) by lra. rewrite D2 in A2.
    assert (m11 F = 0) by nra.
    assert (m00 F = 0).
    { replace (- m01 F * - m01 F * m00 F + 2 * - m01 F * m00 F * m01 F + m00 F * m00 F * m11 F) with (m00 F * det) in A3
        by (unfold det; rewrite <- Es; ring). nra. }
    assert (A4 := Ps 1 1). assert (A5 := Ps 1 (-1)). unfold q22 in A4, A5.
    assert (m01 F = 0) by nra. unfold det in H. rewrite <- Es in H. nra. }
  assert (0 < m11 F).
  { destruct (Rle_lt_dec (m11 F) 0) as [Hle|]; auto. exfalso. assert (m11 F = 0) by nra.
    unfold det in Dpos. rewrite H, <- Es in Dpos. nra. }
  unfold pd22. rewrite E00, E01, E10, E11, Es. repeat split.
  - apply Rdiv_lt_0_compat; auto.
  - replace (m11 F / det * (m00 F / det) - - m10 F / det * (- m10 F / det))
      with (1 / det); [apply Rdiv_lt_0_compat; lra|].
    assert (Ed : det = m00 F * m11 F - m10 F * m10 F) by (unfold det; rewrite Es; ring).
    replace (m11 F / det * (m00 F / det) - - m10 F / det * (- m10 F / det))
      with ((m00 F * m11 F - m10 F * m10 F) / (det * det)) by (field; lra).
    rewrite <- Ed. field. lra.
Qed.

(** ** Base stiffness of a member *)
Definition base_K (gl : nat -> list (R * R)) (m : member) : result m22 :=
  match mb_GAv m, mb_EI m with
  | Some g, e => do F <- timo_flexibility gl e g (mb_L m); inv22 F
  | None, RSect s => k_theta gl s (mb_L m)
  | None, RConst e => Ok {| m00 := 4 * e / mb_L m; m01 := 2 * e / mb_L m;
                            m10 := 2 * e / mb_L m; m11 := 4 * e / mb_L m |}
  end.

Lemma base_K_type gl m t : base_K gl (set_type m t) = base_K gl m.
Proof. reflexivity. Qed.

Lemma base_K_pd gl m K : gauss_rule gl -> sound_member m -> base_K gl m = Ok K -> pd22 K.
Proof.
  intros G [HL HE HG _ _] HK. unfold base_K in HK.
  destruct (mb_GAv m) as [g|].
  - apply rbind_ok in HK as (F & HF & HK).
    destruct (timo_psd gl _ _ _ F G HE (HG g eq_refl) HL HF). eapply psd_inv_pd; eauto.
  - destruct (mb_EI m) as [e|s].
    + injection HK as <-. cbn in HE. unfold pd22; cbn. assert (0 < e / mb_L m) by (apply Rdiv_lt_0_compat; auto).
      unfold Rdiv in *. repeat split; nra.
    + unfold k_theta in HK. apply rbind_ok in HK as (F & HF & HK).
      destruct (flexibility_psd gl s _ F G HE HF). eapply psd_inv_pd; eauto.
Qed.

(** The closed-form Timoshenko stiffness inverts the shear-augmented flexibility. *)
Lemma k_FF_timo_flex gl e g L F K : 0 < L -> 0 < e -> 0 < g ->
  timo_flexibility gl (RConst e) (RConst g) L = Ok F -> inv22 F = Ok K ->
  meq4 (expand K L) (k_FF_timo e g L).
Proof.
  intros HL He Hg HF HK. unfold timo_flexibility, shear_flexibility in HF. cbn [rbind] in HF.
  injection HF as <-. apply inv22_ok in HK as (Hd & E00 & E01 & E10 & E11). cbn [m00 m01 m10 m11] in *.
  assert (Hp : 0 < g * L^2 + 12 * e) by nra.
  intros i j Hi Hj. unfold expand, k_FF_timo. rewrite E00, E01, E10, E11.
  assert (Ed : (L/(3*e) + L/g/(L*L)) * (L/(3*e) + L/g/(L*L)) - (-L/(6*e) + L/g/(L*L)) * (-L/(6*e) + L/g/(L*L))
     = (g*L^2 + 12*e) / (12*e*e*g)) by (field; lra).
  rewrite Ed.
  four i; four j; cbn [Tchord vec4 mat4]; field; repeat split; nra.
Qed.

Lemma timo_flex_const gl e g L : 0 < L -> 0 < e -> 0 < g ->
  exists F K, timo_flexibility gl (RConst e) (RConst g) L = Ok F /\ inv22 F = Ok K.
Proof.
  intros HL He Hg. unfold timo_flexibility, shear_flexibility. cbn [rbind]. do 2 eexists. split; [reflexivity|].
  unfold inv22. destruct Req_EM_T as [E|E]; [exfalso|reflexivity]. cbn in E.
  assert (Ed : (L/(3*e) + L/g/(L*L)) * (L/(3*e) + L/g/(L*L)) - (-L/(6*e) + L/g/(L*L)) * (-L/(6*e) + L/g/(L*L))
     = (g*L^2 + 12*e) / (12*e*e*g)) by (field; lra).
  rewrite Ed in E.
  assert (0 < (g*L^2 + 12*e) / (12*e*e*g)) by (apply Rdiv_lt_0_compat; [nra|]; repeat apply Rmult_lt_0_compat; lra).
  lra.
Qed.

(** ** Prismatic closed forms *)
Definition prism_K (e L : R) : m22 := {| m00 := 4*e/L; m01 := 2*e/L; m10 := 2*e/L; m11 := 4*e/L |}.

Lemma k_FF_expand e L : 0 < L -> meq4 (expand (prism_K e L) L) (k_FF e L).
Proof. intros HL i j Hi Hj. unfold expand, k_FF. four i; four j; cbn; field; lra. Qed.

Lemma prism_condense e L t : 0 < L -> 0 < e -> (1 <= t <= 4)%nat ->
  exists kr, condense (expand (prism_K e L) L) t = Ok kr /\
    meq4 kr (match t with 2%nat => k_FP e L | 3%nat => k_PF e L | 4%nat => k_PP e L | _ => k_FF e L end).
Proof.
  intros HL He Ht.
  assert (Hp : 0 < e / L) by (apply Rdiv_lt_0_compat; auto).
  assert (E33 : expand (prism_K e L) L 3%nat 3%nat = 4*e/L) by (unfold expand; cbn; ring).
  assert (E11 : expand (prism_K e L) L 1%nat 1%nat = 4*e/L) by (unfold expand; cbn; ring).
  assert (E13 : expand (prism_K e L) L 1%nat 3%nat = 2*e/L) by (unfold expand; cbn; ring).
  assert (E31 : expand (prism_K e L) L 3%nat 1%nat = 2*e/L) by (unfold expand; cbn; ring).
  destruct t as [|[|[|[|[|t]]]]]; try lia; cbn [condense].
  - eexists. split; [reflexivity|]. apply k_FF_expand; auto.
  - unfold condense1. rewrite E33. destruct Req_EM_T as [E|E]; [unfold Rdiv in *; lra|].
    eexists. split; [reflexivity|]. intros i j Hi Hj. unfold k_FP, expand. four i; four j; cbn; try ring; field; lra.
  - unfold condense1. rewrite E11. destruct Req_EM_T as [E|E]; [unfold Rdiv in *; lra|].
    eexists. split; [reflexivity|]. intros i j Hi Hj. unfold k_PF, expand. four i; four j; cbn; try ring; field; lra.
  - unfold condense13. rewrite E11, E33, E13, E31. unfold inv22; cbn [m00 m01 m10 m11].
    assert (Ed : 4*e/L*(4*e/L) - 2*e/L*(2*e/L) = 12 * (e/L) * (e/L)) by (field; lra).
    destruct Req_EM_T as [E|E]; [rewrite Ed in E; assert (0 < e/L*(e/L)) by nra; lra|].
    cbn [rbind]. rewrite Ed.
    eexists. split; [reflexivity|]. intros i j Hi Hj. unfold k_PP, expand. four i; four j; cbn; try ring; field; lra.
Qed.

Lemma span_k_form gl m k : gauss_rule gl -> sound_member m -> span_k gl m = Ok k ->
  exists K kr, base_K gl m = Ok K /\ condense (expand K (mb_L m)) (mb_type m) = Ok kr /\ meq4 kr k.
Proof.
  intros G S Hk. pose proof S as [HL HE HG Hf Ht]. unfold span_k in Hk. rewrite Hf in Hk. unfold base_K.
  destruct (mb_GAv m) as [g|].
  - specialize (HG g eq_refl).
    destruct g as [g|g], (mb_EI m) as [e|e].
    + cbn in HG, HE. destruct (timo_flex_const gl e g (mb_L m) HL HE HG) as (F & K & HF & HK).
      exists K. rewrite HF. cbn [rbind].
      assert (Em := k_FF_timo_flex gl e g _ F K HL HE HG HF HK).
      destruct (condense_meq (k_FF_timo e g (mb_L m)) (expand K (mb_L m)) (mb_type m) k) as (kr & Hkr & E).
      { intros i j Hi Hj. symmetry. apply Em; auto. } { exact Hk. }
      exists kr. repeat split; auto. intros i j Hi Hj. symmetry. apply E; auto.
    + unfold k_timoshenko in Hk. apply rbind_ok in Hk as (F & HF & Hk). apply rbind_ok in Hk as (K & HK & Hk).
      exists K, k. rewrite HF. repeat split; auto.
    + unfold k_timoshenko in Hk. apply rbind_ok in Hk as (F & HF & Hk). apply rbind_ok in Hk as (K & HK & Hk).
      exists K, k. rewrite HF. repeat split; auto.
    + unfold k_timoshenko in Hk. apply rbind_ok in Hk as (F & HF & Hk). apply rbind_ok in Hk as (K & HK & Hk).
      exists K, k. rewrite HF. repeat split; auto.
  - destruct (mb_EI m) as [e|s].
    + injection Hk as <-. cbn in HE. destruct (prism_condense e (mb_L m) (mb_type m) HL HE Ht) as (kr & H1 & H2).
      exists (prism_K e (mb_L m)), kr. auto.
    + unfold k_nonprismatic in Hk. apply rbind_ok in Hk as (K & HK & Hk). exists K, k. repeat split; auto.
Qed.

Lemma span_k_good gl m k : gauss_rule gl -> sound_member m -> span_k gl m = Ok k -> good (mb_L m) k.
Proof.
  intros G S Hk. destruct (span_k_form gl m k G S Hk) as (K & kr & HK & Hc & E).
  apply (meq4_good _ kr); auto. apply (condense_good _ (expand K (mb_L m)) (mb_type m)); auto.
  - apply (sm_type _ S).
  - apply expand_good; [apply (sm_L _ S)|]. eapply base_K_pd; eauto.
Qed.

Lemma span_k_zero_energy gl m k d : gauss_rule gl -> sound_member m -> mb_type m = 1%nat ->
  span_k gl m = Ok k -> (energy k d = 0 <-> rigid_motion (mb_L m) d).
Proof.
  intros G S Ht Hk. destruct (span_k_form gl m k G S Hk) as (K & kr & HK & Hc & E).
  rewrite Ht in Hc. injection Hc as <-. rewrite <- (meq4_energy _ _ d E).
  apply expand_zero_energy; [apply (sm_L _ S)|]. eapply base_K_pd; eauto.
Qed.

Lemma sound_set_type m t : sound_member m -> (1 <= t <= 4)%nat -> sound_member (set_type m t).
Proof. intros [H1 H2 H3 H4 H5] Ht. constructor; auto. Qed.

(** Releasing a member's ends: stiffness. *)
Lemma span_k_let_go gl m t k kr : gauss_rule gl -> sound_member m -> (1 <= t <= 4)%nat ->
  span_k gl (set_type m 1) = Ok k -> span_k gl (set_type m t) = Ok kr ->
  let_go t k (fun _ => 0) kr (fun _ => 0).
Proof.
  intros G S Ht Hk Hkr.
  destruct (span_k_form gl _ k G (sound_set_type m 1 S ltac:(lia)) Hk) as (K & k1 & HK & Hc & E).
  destruct (span_k_form gl _ kr G (sound_set_type m t S Ht) Hkr) as (K' & k2 & HK' & Hc' & E').
  rewrite base_K_type in HK, HK'. assert (K' = K) by congruence. subst K'. cbn in Hc, Hc'.
  injection Hc as <-.
  apply (meq4_let_go t (expand K (mb_L m)) k (fun _ => 0) (fun _ => 0) k2 kr (fun _ => 0) (fun _ => 0)); auto;
    try (intros ? ?; reflexivity).
  apply condense_let_go; auto.
Qed.

(** Pin-pin members have no stiffness. *)
Lemma condense13_zero K L kr : L <> 0 -> condense13 (expand K L) = Ok kr -> meq4 kr (fun _ _ => 0).
Proof.
  intros HL Hk. unfold condense13 in Hk. apply rbind_ok in Hk as (B & HB & [= <-]).
  apply inv22_ok in HB. cbn [m00 m01 m10 m11] in HB. destruct HB as (Hdet & E00 & E01 & E10 & E11).
  assert (X11 : expand K L 1%nat 1%nat = m00 K) by (unfold expand; cbn; ring).
  assert (X13 : expand K L 1%nat 3%nat = m01 K) by (unfold expand; cbn; ring).
  assert (X31 : expand K L 3%nat 1%nat = m10 K) by (unfold expand; cbn; ring).
  assert (X33 : expand K L 3%nat 3%nat = m11 K) by (unfold expand; cbn; ring).
  rewrite X11, X13, X31, X33 in *.
  intros i j Hi Hj. cbn beta. rewrite E00, E01, E10, E11.
  four i; four j; cbn [Nat.eqb orb]; auto; unfold expand; cbn [Tchord vec4]; field; auto.
Qed.

Lemma span_k_PP gl m k : gauss_rule gl -> sound_member m -> mb_type m = 4%nat ->
  span_k gl m = Ok k -> forall i j, (i < 4)%nat -> (j < 4)%nat -> k i j = 0.
Proof.
  intros G S Ht Hk. destruct (span_k_form gl m k G S Hk) as (K & kr & HK & Hc & E).
  rewrite Ht in Hc. cbn [condense] in Hc. intros i j Hi Hj. rewrite <- E by auto.
  apply (condense13_zero K (mb_L m)); auto. pose proof (sm_L _ S). lra.
Qed.

(** ** Released end forces of loads *)
Lemma cond1_meq k k' r e v : (r < 4)%nat -> meq4 k k' -> cond1 k r e v -> cond1 k' r e v.
Proof. intros Hr E C i Hi. rewrite <- !E by auto. apply C; auto. Qed.

Definition rel_dof (t : nat) : nat := match t with 2%nat => 3%nat | _ => 1%nat end.

Lemma release_from_cond c Ma Mb L kff k t e v : (t = 2 \/ t = 3)%nat -> kff = Ok k ->
  release_from c Ma Mb L kff 1 = Ok e -> release_from c Ma Mb L kff t = Ok v -> cond1 k (rel_dof t) e v.
Proof.
  intros Ht -> [= <-] Hv. unfold release_from in Hv.
  destruct Ht as [-> | ->]; cbn [rbind rel_dof] in *; destruct Req_EM_T as [E|E]; try discriminate;
    injection Hv as <-; intros i Hi; reflexivity.
Qed.

Lemma release_from_kff c Ma Mb L kff t v : (t = 2 \/ t = 3)%nat ->
  release_from c Ma Mb L kff t = Ok v -> exists k, kff = Ok k.
Proof.
  intros [-> | ->] Hv; unfold release_from in Hv; cbn [rbind] in Hv; destruct kff; eauto; discriminate.
Qed.

Lemma ref_one_cond gl m ld t k e v : gauss_rule gl -> sound_member m -> (t = 2 \/ t = 3)%nat ->
  span_k gl (set_type m 1) = Ok k ->
  ref_one gl (set_type m 1) ld = Ok e -> ref_one gl (set_type m t) ld = Ok v ->
  cond1 k (rel_dof t) e v.
Proof.
  intros G S Ht Hk He Hv.
  destruct (span_k_form gl _ k G (sound_set_type m 1 S ltac:(lia)) Hk) as (K & k1 & HK & Hc & E).
  injection Hc as <-. cbn [set_type mb_L] in E.
  assert (Hr : (rel_dof t < 4)%nat) by (destruct Ht as [-> | ->]; cbn; lia).
  apply (cond1_meq (expand K (mb_L m))); auto.
  unfold base_K in HK. cbn [set_type mb_GAv mb_EI mb_L] in HK.
  unfold ref_one in He, Hv. cbn [set_type mb_GAv mb_EI mb_L mb_type] in He, Hv.
  pose proof (sm_L _ S) as HL.
  destruct (mb_GAv m) as [g|].
  - unfold ref_timoshenko in He, Hv.
    apply rbind_ok in He as (c & Hc & He). rewrite Hc in Hv. cbn [rbind] in Hv.
    apply rbind_ok in He as (M & HM & He). rewrite HM in Hv. cbn [rbind] in Hv.
    apply rbind_ok in HK as (F & HF & HK).
    eapply release_from_cond; [exact Ht| |exact He|exact Hv].
    unfold k_timoshenko. rewrite HF. cbn [rbind]. rewrite HK. reflexivity.
  - destruct (mb_EI m) as [ei|s] eqn:EE.
    + apply rbind_ok in He as (c & Hc & [= <-]). apply rbind_ok in Hv as (c' & Hc' & [= <-]).
      unfold load_get_ref in Hc, Hc'. apply rbind_ok in Hc as (q & Hq & [= <-]). rewrite Hq in Hc'.
      injection Hc' as <-. injection HK as <-.
      assert (Hei : 0 < ei) by (pose proof (sm_EI _ S) as HE; rewrite EE in HE; exact HE).
      intros i Hi. unfold expand. destruct Ht as [-> | ->]; four i; cbn; field; lra.
    + unfold ref_nonprismatic in He, Hv.
      apply rbind_ok in He as (th & Hth & He). rewrite Hth in Hv. cbn [rbind] in Hv.
      apply rbind_ok in He as (K2 & HK2 & He). rewrite HK2 in Hv. cbn [rbind] in Hv.
      apply rbind_ok in He as (c & Hc & He). rewrite Hc in Hv. cbn [rbind] in Hv.
      eapply release_from_cond; [exact Ht| |exact He|exact Hv].
      unfold k_nonprismatic. rewrite HK. reflexivity.
Qed.

Lemma span_ref_cond gl m lds t k : gauss_rule gl -> sound_member m -> (t = 2 \/ t = 3)%nat ->
  span_k gl (set_type m 1) = Ok k -> forall e v,
  span_ref gl (set_type m 1) lds = Ok e -> span_ref gl (set_type m t) lds = Ok v ->
  cond1 k (rel_dof t) e v.
Proof.
  intros G S Ht Hk e v. unfold span_ref. cbn [set_type mb_kf]. rewrite (sm_kf _ S).
  assert (forall e0 v0, cond1 k (rel_dof t) e0 v0 ->
    foldM (fun acc ld => do v <- ref_one gl (set_type m 1) ld; Ok (fun i => acc i + v i)) lds e0 = Ok e ->
    foldM (fun acc ld => do v <- ref_one gl (set_type m t) ld; Ok (fun i => acc i + v i)) lds v0 = Ok v ->
    cond1 k (rel_dof t) e v) as X.
  { induction lds as [|ld lds IH]; cbn [foldM]; intros e0 v0 C He Hv.
    - injection He as <-. injection Hv as <-. exact C.
    - apply rbind_ok in He as (e1 & He1 & He). apply rbind_ok in Hv as (v1 & Hv1 & Hv).
      apply rbind_ok in He1 as (a & Ha & [= <-]). apply rbind_ok in Hv1 as (b & Hb & [= <-]).
      eapply IH; [|exact He|exact Hv].
      assert (C1 := ref_one_cond gl m ld t k a b G S Ht Hk Ha Hb).
      intros i Hi. cbn beta. rewrite C, C1 by auto. unfold Rdiv. ring. }
  intros He Hv. eapply X; [|exact He|exact Hv]. intros i _. unfold Rdiv. ring.
Qed.

Lemma span_let_go gl m t lds k kr e v : gauss_rule gl -> sound_member m -> (t = 2 \/ t = 3)%nat ->
  span_k gl (set_type m 1) = Ok k -> span_k gl (set_type m t) = Ok kr ->
  span_ref gl (set_type m 1) lds = Ok e -> span_ref gl (set_type m t) lds = Ok v ->
  let_go t k e kr v.
Proof.
  intros G S Ht Hk Hkr He Hv.
  assert (Ht' : (1 <= t <= 4)%nat) by lia.
  destruct (span_k_form gl _ k G (sound_set_type m 1 S ltac:(lia)) Hk) as (K & k1 & HK & Hc & E).
  destruct (span_k_form gl _ kr G (sound_set_type m t S Ht') Hkr) as (K' & k2 & HK' & Hc' & E').
  rewrite base_K_type in HK, HK'. assert (K' = K) by congruence. subst K'. cbn [set_type mb_type mb_L] in Hc, Hc'.
  injection Hc as <-.
  assert (C := span_ref_cond gl m lds t k G S Ht Hk e v He Hv).
  assert (Hr : (rel_dof t < 4)%nat) by (destruct Ht as [-> | ->]; cbn; lia).
  apply (meq4_let_go t (expand K (mb_L m)) k e e k2 kr v v); auto; try (intros ? ?; reflexivity).
  apply (condense1_let_go _ (rel_dof t)).
  - destruct Ht as [-> | ->]; cbn; auto.
  - destruct Ht as [-> | ->]; exact Hc'.
  - apply (cond1_meq k); auto. intros i j Hi Hj. symmetry. apply E; auto.
Qed.
