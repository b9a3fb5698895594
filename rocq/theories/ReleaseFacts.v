(** Releases, off-span loads, imposed curvature. *)
From Coquelicot Require Import Coquelicot.
From Verif Require Import Base BaseFacts SectionModel FlexModel LoadModel LoadSpec LoadFacts
  DiagFacts ClampFacts LMFacts.
Open Scope R_scope.

(** Changing end forces by a self-equilibrated set keeps the balance. *)
Lemma balances_shift L A e e' :
  balances L A e -> c_Va e' + c_Vb e' = c_Va e + c_Vb e ->
  c_Ma e' + c_Mb e' + L * c_Vb e' = c_Ma e + c_Mb e + L * c_Vb e -> balances L A e'.
Proof. intros [H1 H2] E1 E2. split; [rewrite E1|rewrite E2]; assumption. Qed.

Lemma release_balances L A e et : 0 < L -> (et = 1 \/ et = 2 \/ et = 3)%nat ->
  balances L A e -> balances L A (release e L et).
Proof.
  intros HL [->|[->| ->]] B; (eapply balances_shift; [exact B| |]); cbn; field; lra.
Qed.

Lemma release_moments L e :
  c_Mb (release e L 2) = 0 /\ c_Ma (release e L 3) = 0 /\
  c_Ma (release e L 4) = 0 /\ c_Mb (release e L 4) = 0.
Proof. cbn. repeat split; ring. Qed.

(** The pin-pin release: exactly how far it is from balance. *)
Lemma release_PP_error L A e W1 W2 : 0 < L ->
  total_load L A W1 -> first_moment L A W2 ->
  W1 = c_Va e + c_Vb e -> W2 = c_Ma e + c_Mb e + L * c_Vb e ->
  c_Va (release e L 4) + c_Vb (release e L 4) = W1 /\
  c_Ma (release e L 4) + c_Mb (release e L 4) + L * c_Vb (release e L 4) = W2 - 2 * (c_Ma e + c_Mb e).
Proof. intros HL _ _ -> ->. cbn. split; field; lra. Qed.

Lemma resultant_unique L A g dg W1 W2 : resultant L A g dg W1 -> resultant L A g dg W2 -> W1 = W2.
Proof.
  intros (I1 & H1 & ->) (I2 & H2 & ->).
  assert (E : I1 = I2).
  { rewrite <- (is_RInt_unique _ _ _ _ H1), <- (is_RInt_unique _ _ _ _ H2). reflexivity. }
  rewrite E. reflexivity.
Qed.

Lemma release_PP_balances_iff L A e : 0 < L -> balances L A e ->
  (balances L A (release e L 4) <-> c_Ma e + c_Mb e = 0).
Proof.
  intros HL [H1 H2]. split.
  - intros [B1 B2]. pose proof (resultant_unique _ _ _ _ _ _ H2 B2) as E.
    destruct (release_PP_error L A e _ _ HL H1 H2 eq_refl eq_refl) as [_ E2].
    rewrite E2 in E. lra.
  - intros E. eapply balances_shift; [split; eassumption| |]; cbn.
    + field; lra.
    + replace (c_Mb e) with (- c_Ma e) by lra. field; lra.
Qed.

(** ** Off-span loads *)
Lemma trap_overhang w1 w2 a c L : 0 < L -> 0 <= a < L -> L < a + c ->
  trap_resolve w1 w2 a (Some c) L = trap_resolve w1 (w1 + (w2 - w1) * ((L - a) / c)) a (Some (L - a)) L.
Proof.
  intros HL Ha Hc. unfold trap_resolve.
  rleb L a; [lra|]. rleb c 0; [lra|]. rleb (L - a) 0; [lra|]. cbn [orb].
  rcase L (a + c); [|lra]. rcase L (a + (L - a)); [lra|].
  replace (w1 + (w2 - w1) * (L - a) / c) with (w1 + (w2 - w1) * ((L - a) / c)) by (field; lra).
  reflexivity.
Qed.

Lemma trap_off w1 w2 a c L : L <= a -> trap_resolve w1 w2 a c L = (w1, w2, 0, a, 0).
Proof. intros Ha. unfold trap_resolve. rleb L a; [reflexivity|lra]. Qed.

Lemma pudl_overhang w a c L : 0 < L -> 0 <= a <= L -> L < a + c ->
  pudl_cnl w a c L = pudl_cnl w a (L - a) L.
Proof.
  intros HL Ha Hc. unfold pudl_cnl.
  rcase L a; [lra|]. rcase (L - (a + c)) 0; [|lra]. rcase (L - (a + (L - a))) 0; [lra|].
  replace (c + (L - (a + c))) with (L - a) by ring. reflexivity.
Qed.

Lemma pudl_off w a c L : L < a -> pudl_cnl w a c L = Err AttributeError.
Proof. intros Ha. unfold pudl_cnl. rcase L a; [reflexivity|lra]. Qed.

(** A point load beyond the span: the fixed-end forces do not vanish. *)
Lemma pl_off P a L : 0 < L -> L < a ->
  pl_cnl P a L = {| c_Va := 0; c_Ma := 0; c_Vb := P * a / L; c_Mb := 0 |}.
Proof.
  intros HL Ha. unfold pl_cnl. rewrite Rmax_right by lra. apply cnl_eq; cbn; field; lra.
Qed.

(** ** Simpson's rule *)
Lemma simpson_panel q0 q1 q2 q3 x0 h :
  let f x := q0 + q1*x + q2*x^2 + q3*x^3 in
  h / 3 * (f x0 + 4 * f (x0 + h) + f (x0 + 2*h)) =
  P4 q0 q1 q2 q3 0 (x0 + 2*h) - P4 q0 q1 q2 q3 0 x0.
Proof. cbn. unfold P4. field. Qed.

Lemma simpson_cubic n a b q0 q1 q2 q3 f : (0 < n)%nat ->
  (forall x, f x = q0 + q1*x + q2*x^2 + q3*x^3) ->
  simpson n ((b - a) / INR (2 * n)) (fun i => f (grid a b n i)) =
  P4 q0 q1 q2 q3 0 b - P4 q0 q1 q2 q3 0 a.
Proof.
  intros Hn Hf.
  assert (HN : INR (2 * n) <> 0) by (apply not_0_INR; lia).
  set (h := (b - a) / INR (2 * n)).
  assert (G : forall m, rsum m (fun i => h / 3 * (f (grid a b n (2*i)) + 4 * f (grid a b n (2*i+1)) + f (grid a b n (2*i+2))))
     = P4 q0 q1 q2 q3 0 (grid a b n (2 * m)) - P4 q0 q1 q2 q3 0 a).
  { induction m as [|m IH].
    - cbn [rsum]. unfold grid. replace (2*0)%nat with 0%nat by lia. cbn [INR].
      replace (a + 0 * ((b - a) / INR (2 * n))) with a by ring. ring.
    - cbn [rsum]. rewrite IH. rewrite !Hf.
      pose proof (simpson_panel q0 q1 q2 q3 (grid a b n (2*m)) h) as SP. cbn zeta in SP.
      assert (E1 : grid a b n (2*m+1) = grid a b n (2*m) + h).
      { unfold grid. fold h. rewrite plus_INR. cbn [INR]. ring. }
      assert (E2 : grid a b n (2*m+2) = grid a b n (2*m) + 2*h).
      { unfold grid. fold h. rewrite plus_INR. cbn [INR]. ring. }
      assert (E3 : grid a b n (2 * S m) = grid a b n (2*m) + 2*h).
      { rewrite <- E2. f_equal. lia. }
      rewrite E1, E2, E3, SP. ring. }
  unfold simpson. rewrite G. unfold grid at 1. f_equal. f_equal.
  field. exact HN.
Qed.

Lemma simpson_panels_pos : (0 < simpson_panels)%nat.
Proof. unfold simpson_panels. lia. Qed.

Lemma kappa_imp3 k0 k1 k2 x : kappa_imp [k0; k1; k2] x = k0 + k1 * x + k2 * x^2.
Proof. unfold kappa_imp, polyval. cbn. ring. Qed.

Lemma ic_theta_quadratic k0 k1 k2 L : 0 < L ->
  ic_theta0 [k0; k1; k2] [0; L] L =
  (L * k0 / 2 + L^2 * k1 / 6 + L^3 * k2 / 12, - (L * k0 / 2 + L^2 * k1 / 3 + L^3 * k2 / 4)).
Proof.
  intros HL. unfold ic_theta0. cbn [pairs fold_left fst snd]. rleb L 0; [lra|].
  rewrite (simpson_cubic simpson_panels 0 L k0 (k1 - k0 / L) (k2 - k1 / L) (- k2 / L)
     (fun x => (1 - x / L) * kappa_imp [k0;k1;k2] x) simpson_panels_pos).
  2: { intros x. rewrite kappa_imp3. field. lra. }
  rewrite (simpson_cubic simpson_panels 0 L 0 (- k0 / L) (- k1 / L) (- k2 / L)
     (fun x => (- x / L) * kappa_imp [k0;k1;k2] x) simpson_panels_pos).
  2: { intros x. rewrite kappa_imp3. field. lra. }
  unfold P4. f_equal; field; lra.
Qed.

(** Restrained imposed curvature: with the reported end moments the member has no end
    rotation and no relative end deflection. *)
Lemma ic_restrains gl k0 k1 k2 EI L e : 0 < L -> 0 < EI ->
  get_cnl gl (LIC [k0; k1; k2] (Some (RConst EI))) L = Ok e ->
  let M := f_M (mamb_diag (c_Ma e) (c_Mb e) L) in
  is_RInt (fun x => M x / EI + (k0 + k1 * x + k2 * x^2)) 0 L 0 /\
  is_RInt (fun x => (L - x) * (M x / EI + (k0 + k1 * x + k2 * x^2))) 0 L 0.
Proof.
  intros HL HE E. cbn [get_cnl ic_cnl] in E. unfold ic_end_moments in E.
  rewrite ic_theta_quadratic in E by exact HL. cbn in E. injection E as <-. cbn.
  match goal with |- context [fun x => (?va * x - ?ma) / EI + _] => set (V := va); set (MA := ma) end.
  split.
  - apply (is_RInt_ext (fun x => (k0 - MA / EI) + (k1 + V / EI) * x + k2 * x^2 + 0*x^3 + 0*x^4)).
    + intros x _. inR. field. lra.
    + eapply is_RInt_eqval; [apply is_RInt_quartic|]. unfold P4, V, MA. inR. field. lra.
  - apply (is_RInt_ext (fun x => L * (k0 - MA / EI) + (L * (k1 + V / EI) - (k0 - MA / EI)) * x
        + (L * k2 - (k1 + V / EI)) * x^2 + (- k2)*x^3 + 0*x^4)).
    + intros x _. inR. field. lra.
    + eapply is_RInt_eqval; [apply is_RInt_quartic|]. unfold P4, V, MA. inR. field. lra.
Qed.
