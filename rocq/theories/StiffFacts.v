(** Stiffening a beam (C79): member energies grow, the work of nodal forces shrinks. *)
From Verif Require Import Base BaseFacts Linalg LinalgFacts SectionModel FlexModel LoadModel LoadSpec
  ClampFacts FoundationModel ElementModel ElementSpec ElementFacts ElementFacts2 UtilsModel BeamModel AnalysisModel
  AnalysisSpec LMFacts LinearFacts AnalysisFacts AnalysisFacts2 SuperFacts BalanceFacts MechFacts StiffSpec.
Open Scope R_scope.

(** ** Flexibility *)
Definition inverse (F K : m22) : Prop :=
  m00 F * m00 K + m01 F * m10 K = 1 /\ m00 F * m01 K + m01 F * m11 K = 0 /\
  m10 F * m00 K + m11 F * m10 K = 0 /\ m10 F * m01 K + m11 F * m11 K = 1.
Lemma inv22_inverse F K : inv22 F = Ok K -> inverse F K.
Proof.
  intros H. apply inv22_ok in H as (Hd & E00 & E01 & E10 & E11). unfold inverse. rewrite E00, E01, E10, E11.
  repeat split; field; exact Hd.
Qed.

(** A smaller flexibility has a larger inverse. *)
Lemma inverse_order F F' K K' : m01 F = m10 F -> m01 F' = m10 F' -> m01 K = m10 K -> m01 K' = m10 K' ->
  (forall a b, 0 <= q22 F' a b) -> (forall a b, q22 F' a b <= q22 F a b) -> inverse F K -> inverse F' K' ->
  forall x y, q22 K x y <= q22 K' x y.
Proof.
  intros SF SF' SK SK' P O I I' x y.
  set (f := m00 K * x + m01 K * y). set (g := m10 K * x + m11 K * y).
  set (f' := m00 K' * x + m01 K' * y). set (g' := m10 K' * x + m11 K' * y).
  assert (A : m00 F * f + m01 F * g = x /\ m10 F * f + m11 F * g = y).
  { destruct I as (I1 & I2 & I3 & I4). unfold f, g. split.
    - replace (m00 F * (m00 K * x + m01 K * y) + m01 F * (m10 K * x + m11 K * y))
        with ((m00 F * m00 K + m01 F * m10 K) * x + (m00 F * m01 K + m01 F * m11 K) * y) by ring. rewrite I1, I2. ring.
    - replace (m10 F * (m00 K * x + m01 K * y) + m11 F * (m10 K * x + m11 K * y))
        with ((m10 F * m00 K + m11 F * m10 K) * x + (m10 F * m01 K + m11 F * m11 K) * y) by ring. rewrite I3, I4. ring. }
  assert (A' : m00 F' * f' + m01 F' * g' = x /\ m10 F' * f' + m11 F' * g' = y).
  { destruct I' as (I1 & I2 & I3 & I4). unfold f', g'. split.
    - replace (m00 F' * (m00 K' * x + m01 K' * y) + m01 F' * (m10 K' * x + m11 K' * y))
        with ((m00 F' * m00 K' + m01 F' * m10 K') * x + (m00 F' * m01 K' + m01 F' * m11 K') * y) by ring. rewrite I1, I2. ring.
    - replace (m10 F' * (m00 K' * x + m01 K' * y) + m11 F' * (m10 K' * x + m11 K' * y))
        with ((m10 F' * m00 K' + m11 F' * m10 K') * x + (m10 F' * m01 K' + m11 F' * m11 K') * y) by ring. rewrite I3, I4. ring. }
  assert (QK : q22 K x y = f * x + g * y) by (unfold q22, f, g; rewrite SK; ring).
  assert (QK' : q22 K' x y = f' * x + g' * y) by (unfold q22, f', g'; rewrite SK'; ring).
  clearbody f g f' g'.
  assert (QF : q22 F f g = f * (m00 F * f + m01 F * g) + g * (m10 F * f + m11 F * g)) by (unfold q22; rewrite SF; ring).
  assert (QF' : q22 F' f' g' = f' * (m00 F' * f' + m01 F' * g') + g' * (m10 F' * f' + m11 F' * g')) by (unfold q22; rewrite SF'; ring).
  assert (D := P (f - f') (g - g')). assert (O1 := O f g).
  assert (E : q22 F' (f - f') (g - g') = q22 F' f g - 2 * (f * (m00 F' * f' + m01 F' * g') + g * (m10 F' * f' + m11 F' * g')) + q22 F' f' g')
    by (unfold q22; rewrite SF'; ring).
  destruct A as [A1 A2], A' as [A1' A2']. rewrite A1, A2 in QF. rewrite A1', A2' in QF', E. lra.
Qed.

(** ** Quadratures with smaller integrands *)
Lemma nodes_same gl s s' nd : Forall2 (fun p p' => p_x0 p' = p_x0 p /\ p_x1 p' = p_x1 p /\ p_degree p' = p_degree p) (s_pieces s) (s_pieces s') ->
  gauss_nodes gl s = Ok nd -> gauss_nodes gl s' = Ok nd.
Proof.
  intros H. unfold gauss_nodes. destruct H as [|p p' ps ps' H0 H]; [discriminate|]. intros [= <-]. f_equal. symmetry.
  assert (E : forall q q', p_x0 q' = p_x0 q /\ p_x1 q' = p_x1 q /\ p_degree q' = p_degree q -> piece_nodes gl q = piece_nodes gl q')
    by (intros q q' (E1 & E2 & E3); unfold piece_nodes; rewrite E1, E2, E3; reflexivity).
  cbn [map concat]. rewrite (E p p' H0). f_equal. clear H0. induction H as [|q q' qs qs' H0 H IH]; [reflexivity|].
  cbn [map concat]. rewrite (E q q' H0), IH. reflexivity.
Qed.

Lemma node_in_piece gl s nd x w : gauss_rule gl -> positive_rigidity (RSect s) -> gauss_nodes gl s = Ok nd -> In (x, w) nd ->
  0 < w /\ exists p, In p (s_pieces s) /\ p_x0 p <= x <= p_x1 p.
Proof.
  intros G [P1 P2] Hn Hin. unfold gauss_nodes in Hn.
  assert (E : nd = concat (map (piece_nodes gl) (s_pieces s))) by (destruct (s_pieces s); congruence).
  subst nd. apply in_concat in Hin as (l & Hl & Hin). apply in_map_iff in Hl as (p & <- & Hp).
  unfold piece_nodes in Hin. apply in_map_iff in Hin as ([t u] & [= <- <-] & Hin). cbn [fst snd] in *.
  rewrite Forall_forall in P1. specialize (P1 p Hp). cbn in P1.
  specialize (G (match p_degree p with O => 2%nat | _ => Nat.max (2 * p_degree p + 8) 16 end)).
  assert (Hg : -1 < t < 1 /\ 0 < u).
  { rewrite Forall_forall in G. specialize (G (t, u)). cbn [fst snd] in G. apply G. destruct (p_degree p); exact Hin. }
  split; [nra|]. exists p. split; [exact Hp|]. nra.
Qed.

Lemma gram_order s s' (f g : R -> R) nd a b f00 f01 f11 g00 g01 g11 :
  (forall x w, In (x, w) nd -> 0 < w /\ forall v v', sect_eval s x = Ok v -> sect_eval s' x = Ok v' -> 0 < v <= v') ->
  qsum (fun x => do e <- sect_eval s x; Ok (f x * f x / e)) nd = Ok f00 ->
  qsum (fun x => do e <- sect_eval s x; Ok (f x * g x / e)) nd = Ok f01 ->
  qsum (fun x => do e <- sect_eval s x; Ok (g x * g x / e)) nd = Ok f11 ->
  qsum (fun x => do e <- sect_eval s' x; Ok (f x * f x / e)) nd = Ok g00 ->
  qsum (fun x => do e <- sect_eval s' x; Ok (f x * g x / e)) nd = Ok g01 ->
  qsum (fun x => do e <- sect_eval s' x; Ok (g x * g x / e)) nd = Ok g11 ->
  a * a * g00 + 2 * a * b * g01 + b * b * g11 <= a * a * f00 + 2 * a * b * f01 + b * b * f11.
Proof.
  unfold qsum. intros P H0 H1 H2 J0 J1 J2.
  apply rbind_ok in H0 as (l0 & H0 & [= <-]). apply rbind_ok in H1 as (l1 & H1 & [= <-]). apply rbind_ok in H2 as (l2 & H2 & [= <-]).
  apply rbind_ok in J0 as (k0 & J0 & [= <-]). apply rbind_ok in J1 as (k1 & J1 & [= <-]). apply rbind_ok in J2 as (k2 & J2 & [= <-]).
  revert l0 l1 l2 k0 k1 k2 H0 H1 H2 J0 J1 J2. induction nd as [|[x w] nd IH]; cbn [mapM fst snd]; intros l0 l1 l2 k0 k1 k2 H0 H1 H2 J0 J1 J2.
  - injection H0 as <-. injection H1 as <-. injection H2 as <-. injection J0 as <-. injection J1 as <-. injection J2 as <-. cbn. lra.
  - apply rbind_ok in H0 as (y0 & Y0 & H0). apply rbind_ok in H0 as (t0 & H0 & [= <-]).
    apply rbind_ok in H1 as (y1 & Y1 & H1). apply rbind_ok in H1 as (t1 & H1 & [= <-]).
    apply rbind_ok in H2 as (y2 & Y2 & H2). apply rbind_ok in H2 as (t2 & H2 & [= <-]).
    apply rbind_ok in J0 as (z0 & Z0 & J0). apply rbind_ok in J0 as (u0 & J0 & [= <-]).
    apply rbind_ok in J1 as (z1 & Z1 & J1). apply rbind_ok in J1 as (u1 & J1 & [= <-]).
    apply rbind_ok in J2 as (z2 & Z2 & J2). apply rbind_ok in J2 as (u2 & J2 & [= <-]).
    destruct (sect_eval s x) as [e|] eqn:He; cbn [rbind] in *; [|discriminate].
    destruct (sect_eval s' x) as [e'|] eqn:He'; cbn [rbind] in *; [|discriminate].
    injection Y0 as <-. injection Y1 as <-. injection Y2 as <-. injection Z0 as <-. injection Z1 as <-. injection Z2 as <-.
    rewrite !lsum_cons.
    assert (IH' := IH ltac:(intros x' w' Hin; apply P; right; auto) _ _ _ _ _ _ H0 H1 H2 J0 J1 J2).
    destruct (P x w ltac:(left; auto)) as [Hw Hv]. destruct (Hv e e' He He') as [E1 E2].
    assert (IV : / e' <= / e) by (apply Rinv_le_contravar; lra).
    assert (Q : w * ((a * f x + b * g x)^2 * / e') <= w * ((a * f x + b * g x)^2 * / e)).
    { apply Rmult_le_compat_l; [lra|]. apply Rmult_le_compat_l; [apply pow2_ge_0|exact IV]. }
    replace (w * ((a * f x + b * g x)^2 * / e)) with
      (a * a * (w * (f x * f x / e)) + 2 * a * b * (w * (f x * g x / e)) + b * b * (w * (g x * g x / e))) in Q by (field; lra).
    replace (w * ((a * f x + b * g x)^2 * / e')) with
      (a * a * (w * (f x * f x / e')) + 2 * a * b * (w * (f x * g x / e')) + b * b * (w * (g x * g x / e'))) in Q by (field; lra).
    lra.
Qed.

Definition bend_F (gl : nat -> list (R * R)) (e : rigid) (L : R) : result m22 :=
  match e with
  | RSect s => flexibility gl s L
  | RConst e => Ok {| m00 := L / (3 * e); m01 := - L / (6 * e); m10 := - L / (6 * e); m11 := L / (3 * e) |}
  end.

Lemma order_nodes gl s s' nd : gauss_rule gl -> positive_rigidity (RSect s) -> stiffer_rigid (RSect s) (RSect s') -> gauss_nodes gl s = Ok nd ->
  forall x w, In (x, w) nd -> 0 < w /\ forall v v', sect_eval s x = Ok v -> sect_eval s' x = Ok v' -> 0 < v <= v'.
Proof.
  intros G P [_ O] Hn x w Hin. destruct (node_in_piece gl s nd x w G P Hn Hin) as (Hw & p & Hp & Hx). split; [exact Hw|].
  intros v v' E E'. destruct P as [_ P]. split; [exact (P p x v Hp Hx E)|exact (O p x v v' Hp Hx E E')].
Qed.

Lemma bend_order gl e e' L B B' : gauss_rule gl -> 0 < L -> positive_rigidity e -> stiffer_rigid e e' ->
  bend_F gl e L = Ok B -> bend_F gl e' L = Ok B' -> m01 B = m10 B /\ m01 B' = m10 B' /\ forall a b, q22 B' a b <= q22 B a b.
Proof.
  intros G HL P O H H'. destruct e as [e|s], e' as [e'|s']; try contradiction.
  - cbn in P, O, H, H'. injection H as <-. injection H' as <-. split; [reflexivity|]. split; [reflexivity|]. intros a b. unfold q22; cbn [m00 m01 m10 m11].
    assert (IV : / e' <= / e) by (apply Rinv_le_contravar; lra).
    replace (a*a*(L/(3*e)) + 2*a*b*(-L/(6*e)) + b*b*(L/(3*e))) with (L * ((a - b/2)^2 + 3/4 * b^2) / 3 * / e) by (field; lra).
    replace (a*a*(L/(3*e')) + 2*a*b*(-L/(6*e')) + b*b*(L/(3*e'))) with (L * ((a - b/2)^2 + 3/4 * b^2) / 3 * / e') by (field; lra).
    apply Rmult_le_compat_l; [|exact IV]. pose proof (pow2_ge_0 (a - b/2)). pose proof (pow2_ge_0 b). apply Rmult_le_pos; [|lra]. apply Rmult_le_pos; lra.
  - cbn [bend_F] in H, H'. unfold flexibility in H, H'.
    apply rbind_ok in H as (nd & Hn & H). apply rbind_ok in H as (f00 & H0 & H). apply rbind_ok in H as (f01 & H1 & H). apply rbind_ok in H as (f11 & H2 & [= <-]).
    rewrite (nodes_same gl s s' nd (proj1 O) Hn) in H'. cbn [rbind] in H'.
    apply rbind_ok in H' as (g00 & J0 & H'). apply rbind_ok in H' as (g01 & J1 & H'). apply rbind_ok in H' as (g11 & J2 & [= <-]).
    split; [reflexivity|]. split; [reflexivity|]. intros a b. unfold q22; cbn [m00 m01 m10 m11].
    apply (gram_order s s' (fun x => 1 - x / L) (fun x => - x / L) nd); auto. exact (order_nodes gl s s' nd G P O Hn).
Qed.

Lemma shear_order gl g g' L v v' : gauss_rule gl -> 0 < L -> positive_rigidity g -> stiffer_rigid g g' ->
  shear_flexibility gl g L = Ok v -> shear_flexibility gl g' L = Ok v' -> v' <= v.
Proof.
  intros G HL P O H H'. unfold shear_flexibility in H, H'. apply rbind_ok in H as (I & HI & [= <-]). apply rbind_ok in H' as (I' & HI' & [= <-]).
  apply Rmult_le_compat_r; [left; apply Rinv_0_lt_compat; nra|].
  destruct g as [c|s], g' as [c'|s']; try contradiction.
  - cbn in P, O. injection HI as <-. injection HI' as <-. apply Rmult_le_compat_l; [lra|]. apply Rinv_le_contravar; lra.
  - apply rbind_ok in HI as (nd & Hn & HI). rewrite (nodes_same gl s s' nd (proj1 O) Hn) in HI'. cbn [rbind] in HI'.
    assert (P' := order_nodes gl s s' nd G P O Hn). unfold qsum in HI, HI'.
    apply rbind_ok in HI as (l & HI & [= <-]). apply rbind_ok in HI' as (l' & HI' & [= <-]). clear Hn.
    revert l l' HI HI'. induction nd as [|[x w] nd IH]; cbn [mapM fst snd]; intros l l' HI HI'.
    + injection HI as <-. injection HI' as <-. lra.
    + apply rbind_ok in HI as (y & Y & HI). apply rbind_ok in HI as (t & HI & [= <-]).
      apply rbind_ok in HI' as (y' & Y' & HI'). apply rbind_ok in HI' as (t' & HI' & [= <-]).
      destruct (sect_eval s x) as [e|] eqn:He; cbn [rbind] in *; [|discriminate].
      destruct (sect_eval s' x) as [e'|] eqn:He'; cbn [rbind] in *; [|discriminate].
      injection Y as <-. injection Y' as <-. rewrite !lsum_cons.
      assert (IH' := IH ltac:(intros x' w' Hin; apply P'; right; auto) _ _ HI HI').
      destruct (P' x w ltac:(left; auto)) as [Hw Hv]. destruct (Hv e e' He He') as [E1 E2].
      assert (IV : / e' <= / e) by (apply Rinv_le_contravar; lra). assert (w * / e' <= w * / e) by (apply Rmult_le_compat_l; lra).
      unfold Rdiv. rewrite !Rmult_1_l. lra.
Qed.

(** ** Member energies *)
Lemma base_flex gl m K : gauss_rule gl -> sound_member m -> base_K gl m = Ok K -> exists B sh, bend_F gl (mb_EI m) (mb_L m) = Ok B /\
  match mb_GAv m with None => sh = 0 | Some g => shear_flexibility gl g (mb_L m) = Ok sh end /\
  inverse {| m00 := m00 B + sh; m01 := m01 B + sh; m10 := m10 B + sh; m11 := m11 B + sh |} K.
Proof.
  intros G [HL HE HG _ _] H. unfold base_K in H. destruct (mb_GAv m) as [g|].
  - apply rbind_ok in H as (F & HF & H). unfold timo_flexibility in HF. apply rbind_ok in HF as (B & HB & HF). apply rbind_ok in HF as (sh & Hs & [= <-]).
    exists B, sh. split; [destruct (mb_EI m); exact HB|]. split; [exact Hs|]. apply inv22_inverse. exact H.
  - destruct (mb_EI m) as [e|s].
    + injection H as <-. cbn in HE. eexists _, 0. split; [reflexivity|]. split; [reflexivity|]. unfold inverse. cbn [m00 m01 m10 m11]. repeat split; field; lra.
    + unfold k_theta in H. apply rbind_ok in H as (F & HF & H). exists F, 0. split; [exact HF|]. split; [reflexivity|].
      apply inv22_inverse in H. destruct F as [a b c d]. unfold inverse in *. cbn [m00 m01 m10 m11] in *. rewrite !Rplus_0_r. exact H.
Qed.

Lemma bend_psd gl e L B : gauss_rule gl -> 0 < L -> positive_rigidity e -> bend_F gl e L = Ok B -> m01 B = m10 B /\ forall a b, 0 <= q22 B a b.
Proof.
  intros G HL P H. destruct e as [e|s].
  - injection H as <-. split; [reflexivity|]. intros a b. unfold q22; cbn [m00 m01 m10 m11]. cbn in P.
    replace (a*a*(L/(3*e)) + 2*a*b*(-L/(6*e)) + b*b*(L/(3*e))) with ((L/e) * ((a - b/2)^2 + 3/4 * b^2) / 3) by (field; lra).
    assert (0 < L / e) by (apply Rdiv_lt_0_compat; auto). pose proof (pow2_ge_0 (a - b/2)). pose proof (pow2_ge_0 b).
    apply Rmult_le_pos; [apply Rmult_le_pos|]; lra.
  - eapply flexibility_psd; eauto.
Qed.

Lemma base_order gl m m' K K' : gauss_rule gl -> sound_member m -> sound_member m' -> stiffer_member m m' ->
  base_K gl m = Ok K -> base_K gl m' = Ok K' -> forall x y, q22 K x y <= q22 K' x y.
Proof.
  intros G S S' O H H'. assert (PK := base_K_pd gl m K G S H). assert (PK' := base_K_pd gl m' K' G S' H').
  destruct (base_flex gl m K G S H) as (B & sh & HB & Hs & I). destruct (base_flex gl m' K' G S' H') as (B' & sh' & HB' & Hs' & I').
  rewrite (st_L _ _ O) in HB', Hs'.
  destruct (bend_order gl _ _ _ B B' G (sm_L _ S) (sm_EI _ S) (st_EI _ _ O) HB HB') as (Y & Y' & OB).
  destruct (bend_psd gl _ _ B' G (sm_L _ S) (sm_EI _ S') HB') as (_ & PB').
  assert (SH : 0 <= sh' <= sh).
  { assert (OG := st_GAv _ _ O). assert (PG := sm_GAv _ S). assert (PG' := sm_GAv _ S').
    destruct (mb_GAv m) as [g|], (mb_GAv m') as [g'|]; try contradiction.
    - split; [exact (shear_nonneg gl g' _ _ G (PG' g' eq_refl) (sm_L _ S) Hs')|exact (shear_order gl g g' _ _ _ G (sm_L _ S) (PG g eq_refl) OG Hs Hs')].
    - subst sh'. split; [lra|]. exact (shear_nonneg gl g _ _ G (PG g eq_refl) (sm_L _ S) Hs).
    - subst sh sh'. lra. }
  assert (Q : forall X t a b, q22 {| m00 := m00 X + t; m01 := m01 X + t; m10 := m10 X + t; m11 := m11 X + t |} a b = q22 X a b + t * (a + b)^2)
    by (intros X t a b; unfold q22; cbn [m00 m01 m10 m11]; ring).
  refine (inverse_order _ _ K K' _ _ (proj1 PK) (proj1 PK') _ _ I I').
  - cbn [m01 m10]. rewrite Y. reflexivity.
  - cbn [m01 m10]. rewrite Y'. reflexivity.
  - intros a b. rewrite Q. specialize (PB' a b). pose proof (pow2_ge_0 (a + b)). nra.
  - intros a b. rewrite !Q. specialize (OB a b). pose proof (pow2_ge_0 (a + b)). nra.
Qed.

Definition symmetric_psd (k : mat) : Prop := symmetric4 k /\ forall d, 0 <= energy k d.

(** Letting go takes the rotation of least energy. *)
Lemma go_least t k kr d d' : symmetric_psd k -> let_go t k (fun _ => 0) kr (fun _ => 0) -> (1 <= t <= 4)%nat ->
  (forall i, (i < 4)%nat -> ~ released t i -> d' i = d i) -> energy kr d <= energy k d'.
Proof.
  intros [Sy P] LG Ht A. destruct (LG d) as [(u & U1 & U2) X]. specialize (X u U1 U2).
  assert (E1 : energy kr d = rsum 4 (fun i => d' i * end_forces k u i)).
  { unfold energy. apply rsum_ext. intros i Hi. specialize (X i Hi). cbn beta in X. rewrite !Rplus_0_r in X. rewrite <- X.
    assert (Dc : released t i \/ ~ released t i) by (unfold released; destruct t as [|[|[|[|[|t]]]]]; lia).
    destruct Dc as [R|R]; [|rewrite (A i Hi R); reflexivity]. specialize (U2 i Hi R). cbn beta in U2. rewrite Rplus_0_r in U2. rewrite U2. ring. }
  assert (E2 : energy k u = rsum 4 (fun i => d' i * end_forces k u i)).
  { unfold energy. apply rsum_ext. intros i Hi.
    assert (Dc : released t i \/ ~ released t i) by (unfold released; destruct t as [|[|[|[|[|t]]]]]; lia).
    destruct Dc as [R|R]; [|rewrite (A i Hi R), (U1 i Hi R); reflexivity]. specialize (U2 i Hi R). cbn beta in U2. rewrite Rplus_0_r in U2. rewrite U2. ring. }
  assert (D := P (fun i => d' i - u i)).
  assert (E3 : energy k (fun i => d' i - u i) = energy k d' - 2 * rsum 4 (fun i => d' i * end_forces k u i) + energy k u).
  { unfold energy, end_forces, mulmv. cbn [rsum].
    rewrite (Sy 0 1)%nat, (Sy 0 2)%nat, (Sy 0 3)%nat, (Sy 1 2)%nat, (Sy 1 3)%nat, (Sy 2 3)%nat by lia. ring. }
  lra.
Qed.
Lemma go_reached t k kr d : symmetric_psd k -> let_go t k (fun _ => 0) kr (fun _ => 0) -> (1 <= t <= 4)%nat ->
  exists u, (forall i, (i < 4)%nat -> ~ released t i -> u i = d i) /\ energy kr d = energy k u.
Proof.
  intros [Sy P] LG Ht. destruct (LG d) as [(u & U1 & U2) X]. specialize (X u U1 U2). exists u. split; [exact U1|].
  unfold energy. apply rsum_ext. intros i Hi. specialize (X i Hi). cbn beta in X. rewrite !Rplus_0_r in X. rewrite <- X.
  assert (Dc : released t i \/ ~ released t i) by (unfold released; destruct t as [|[|[|[|[|t]]]]]; lia).
  destruct Dc as [R|R]; [|rewrite (U1 i Hi R); reflexivity]. specialize (U2 i Hi R). cbn beta in U2. rewrite Rplus_0_r in U2. rewrite U2. ring.
Qed.

Lemma member_order gl m m' k k' d : gauss_rule gl -> sound_member m -> sound_member m' -> stiffer_member m m' ->
  span_k gl m = Ok k -> span_k gl m' = Ok k' -> energy k d <= energy k' d.
Proof.
  intros G S S' O H H'.
  destruct (span_k_form gl m k G S H) as (K & kr & HK & Hc & E). destruct (span_k_form gl m' k' G S' H') as (K' & kr' & HK' & Hc' & E').
  rewrite (st_L _ _ O) in Hc'. rewrite <- (meq4_energy _ _ d E), <- (meq4_energy _ _ d E').
  assert (HL := sm_L _ S). assert (PK := base_K_pd gl m K G S HK). assert (PK' := base_K_pd gl m' K' G S' HK').
  assert (OK := base_order gl m m' K K' G S S' O HK HK').
  assert (SP : forall X, pd22 X -> symmetric_psd (expand X (mb_L m))).
  { intros X PX. assert (Gd := expand_good X (mb_L m) HL PX). split; [exact (g_sym _ _ Gd)|exact (g_pos _ _ Gd)]. }
  destruct (go_reached _ _ _ d (SP K' PK') (condense_let_go _ _ _ (sm_type _ S') Hc') (sm_type _ S')) as (u & U1 & ->).
  apply Rle_trans with (energy (expand K (mb_L m)) u).
  - apply (go_least _ _ _ d u (SP K PK) (condense_let_go _ _ _ (sm_type _ S) Hc) (sm_type _ S)).
    intros i Hi R. apply U1; [exact Hi|]. intros R'. exact (R (st_type _ _ O i R')).
  - rewrite !expand_energy by lra. specialize (OK (tha (mb_L m) u) (thb (mb_L m) u)). unfold q22 in OK. destruct PK as (Y & _), PK' as (Y' & _). rewrite <- Y, <- Y'. lra.
Qed.
