(** Shear-deformable fixed-end forces and the Euler-Bernoulli limit (C07). *)
From Coquelicot Require Import Coquelicot.
From Coq Require Import String.
From Verif Require Import Base BaseFacts SectionModel FlexModel LoadModel LoadSpec LoadFacts DiagFacts ClampFacts
  FoundationModel ElementModel ElementSpec ElementFacts ElementFacts2.
Open Scope R_scope.

Definition transverse (ld : load) : Prop :=
  match ld with LUDL _ | LPL _ _ | LPUDL _ _ _ | LTrap _ _ _ _ => True | _ => False end.

Lemma cont_lin (p f : R -> R) (c x : R) : continuous p x -> continuous f x -> continuous (fun t => p t + c * f t) x.
Proof.
  intros Hp Hf. apply (@continuous_plus R_UniformSpace R_AbsRing R_NormedModule p (fun t => c * f t)); auto.
  apply (@continuous_scal_r R_UniformSpace R_AbsRing R_NormedModule c f x Hf).
Qed.

Lemma lin_V_cont w1 s a b L x : continuous (f_V (lin_diag w1 s a b L)) x.
Proof.
  unfold lin_diag; cbn [f_V].
  match goal with |- continuous (fun t => ?c0 - ?c1 * _ - ?c2 * _ + ?c3 * _ + ?c4 * _) x =>
    apply (continuous_ext (fun t => c0 + (-c1) * MB (t-a) + (-c2) * MB (t-a)^2 + c3 * MB (t-b) + c4 * MB (t-b)^2)) end.
  - intros t. inR. ring.
  - apply cont_lin; [apply cont_lin; [apply cont_lin; [apply cont_lin|]|]|].
    + eapply is_derive_cont. apply const_derive.
    + apply MB_cont.
    + eapply is_derive_cont; apply MB_deriv2.
    + apply MB_cont.
    + eapply is_derive_cont; apply MB_deriv2.
Qed.

Lemma lin_trans w1 s a b L : 0 < L -> 0 <= a -> a <= b -> b <= L ->
  (forall x, continuous (f_M (lin_diag w1 s a b L)) x) /\ is_RInt (f_V (lin_diag w1 s a b L)) 0 L 0.
Proof.
  intros HL Ha Hab Hb. split.
  - intros x. eapply is_derive_cont. apply lin_rate_M; auto.
  - eapply is_RInt_eqval.
    + apply (is_RInt_derive (f_M (lin_diag w1 s a b L))).
      * intros x _. apply lin_rate_M; auto.
      * intros x _. apply lin_V_cont.
    + unfold minus, plus, opp; simpl. unfold lin_diag; cbn [f_M].
      rewrite (MB_neg (0 - a)), (MB_neg (0 - b)), (MB_pos (L - a)), (MB_pos (L - b)) by lra. inR. field; lra.
Qed.

Lemma trans_ext d1 d2 L : diag_eq d1 d2 ->
  (forall x, continuous (f_M d1) x) /\ is_RInt (f_V d1) 0 L 0 ->
  (forall x, continuous (f_M d2) x) /\ is_RInt (f_V d2) 0 L 0.
Proof.
  intros (EV & EM & _ & _) [H1 H2]. split.
  - intros x. eapply continuous_ext; [exact EM|apply H1].
  - eapply is_RInt_ext; [|exact H2]. intros x _. apply EV.
Qed.

Lemma trans_cont ld L d : 0 < L -> transverse ld -> within_member L ld -> diag_of ld L = Some d ->
  (forall x, continuous (f_M d) x) /\ is_RInt (f_V d) 0 L 0.
Proof.
  intros HL Ht [Hon Hin] E. destruct ld; try contradiction; cbn in E; injection E as <-; cbn in Hon, Hin.
  - split.
    + intros x. eapply is_derive_cont. cbn. auto_derive; [exact I|reflexivity].
    + eapply is_RInt_eqval.
      * apply (is_RInt_ext (fun x => w*L/2 + (-w)*x + 0*x^2 + 0*x^3 + 0*x^4)); [intros x _; cbn; inR; ring|].
        apply is_RInt_quartic.
      * unfold P4. inR. field.
  - unfold pl_diag. rewrite Rmax_left by lra. cbn [f_M f_V]. split.
    + intros x. apply (continuous_ext (fun t => P * (L - a) / L * t + (-P) * MB (t - a))); [intros t; inR; ring|].
      apply cont_lin; [|apply MB_cont]. eapply is_derive_cont. auto_derive; [exact I|reflexivity].
    + eapply is_RInt_eqval.
      * apply (is_RInt_Chasles _ 0 a L).
        -- apply (is_RInt_ext (fun x => P*(L-a)/L)).
           { intros x Hx. rewrite Rmin_left, Rmax_right in Hx by lra. unfold H.
             destruct (Rlt_dec (x - a) 0); [|lra]. inR. ring. }
           apply (@is_RInt_const R_NormedModule).
        -- apply (is_RInt_ext (fun x => P*(L-a)/L - P)).
           { intros x Hx. rewrite Rmin_left, Rmax_right in Hx by lra. unfold H.
             destruct (Rlt_dec (x - a) 0); [lra|]. destruct (Rlt_dec 0 (x - a)); [|lra]. inR. ring. }
           apply (@is_RInt_const R_NormedModule).
      * unfold scal, plus; simpl. unfold mult; simpl. inR. field; lra.
  - apply (trans_ext (lin_diag w 0 a (a + c) L)).
    { unfold diag_eq, lin_diag, pudl_diag; cbn [f_V f_M f_R f_D]. rewrite (Rplus_comm c a).
      repeat split; intros x; field; lra. }
    apply lin_trans; lra.
  - unfold trap_diag, trap_resolve. destruct Hon as [Ha Hc].
    set (cc := match c with Some c => c | None => L - a end) in *.
    assert (Hc0 : 0 <= cc) by (unfold cc; destruct c; lra).
    clearbody cc. clear Hc.
    assert (Z : (forall x, continuous (fun _ : R => 0) x) /\ is_RInt (fun _ : R => 0) 0 L 0)
      by (split; [intros x; eapply is_derive_cont; apply const_derive|apply is_RInt_zero]).
    rleb L a; cbn [orb]; [rewrite (proj2 (Rleb_true 0 0)) by lra; exact Z|].
    rleb cc 0; [rewrite (proj2 (Rleb_true 0 0)) by lra; exact Z|].
    rcase L (a + cc).
    + rleb (L - a) 0; [lra|].
      apply (trans_ext (lin_diag w1 ((w2 - w1)/cc) a L L)); [|apply lin_trans; lra].
      unfold diag_eq, lin_diag; cbn [f_V f_M f_R f_D]. replace (a + (L - a)) with L by ring.
      repeat split; intros x; field; lra.
    + rleb cc 0; [lra|].
      apply (trans_ext (lin_diag w1 ((w2 - w1)/cc) a (a + cc) L)); [|apply lin_trans; lra].
      unfold diag_eq, lin_diag; cbn [f_V f_M f_R f_D]. repeat split; intros x; field; lra.
Qed.

Lemma timo_clamped gl ld EI GAv L v d : 0 < L -> 0 < EI -> 0 < GAv -> transverse ld -> within_member L ld ->
  diag_of ld L = Some d -> ref_timoshenko gl ld (RConst EI) (RConst GAv) L 1 = Ok v ->
  let D := diag_add (mamb_diag (v 1%nat) (v 3%nat) L) d in
  shear_clamped L EI GAv (action_of L ld) (v 0%nat) (v 1%nat) (v 2%nat) (v 3%nat) (f_V D) (f_M D).
Proof.
  intros HL HE HG Ht Hw Ed Hv.
  unfold ref_timoshenko in Hv. apply rbind_ok in Hv as (c & Hc & Hv). cbn [rbind] in Hv.
  assert (Hk : match ld with LMaMb _ _ | LIC _ _ => False | _ => True end) by (destruct ld; try contradiction; exact I).
  destruct (get_cnl_clamped gl ld L c d HL Hw Hk Hc Ed) as [CS CL CR CVa CVb].
  pose proof (diag_span ld L d HL Hw Ed) as S.
  assert (Ez : end_moments ld = (0, 0)) by (destruct ld; try contradiction; reflexivity).
  rewrite Ez in S. cbn [fst snd] in S.
  destruct (trans_cont ld L d HL Ht Hw Ed) as [TM TV].
  unfold release_from in Hv. injection Hv as <-. cbn [fst snd vec4]. change (L * (L * 1)) with (L^2).
  set (phi := 12 * EI / (GAv * L^2)) in *.
  set (Ma := ((2 + phi) * c_Ma c - phi * c_Mb c) / (2 * (1 + phi))) in *.
  set (Mb := (- phi * c_Ma c + (2 + phi) * c_Mb c) / (2 * (1 + phi))) in *.
  set (D := diag_add (mamb_diag Ma Mb L) d).
  assert (Hphi : 0 < phi) by (apply Rdiv_lt_0_compat; [lra|]; apply Rmult_lt_0_compat; auto; apply pow_lt; auto).
  unfold diag_add in CL, CR, CVa. cbn [f_R f_V mamb_diag] in CL, CR, CVa.
  assert (V0 : f_V d 0 = c_Va c - (c_Ma c + c_Mb c) / L) by lra.
  pose proof (simple_span_add_ends L _ 0 0 d Ma Mb HL S) as SD. rewrite !Rplus_0_r in SD.
  fold D in SD.
  assert (DV0 : f_V D 0 = c_Va c - (c_Ma c + c_Mb c) / L + (Ma + Mb) / L).
  { unfold D, diag_add; cbn [f_V mamb_diag]. rewrite V0. ring. }
  assert (NM : moments (action_of L ld) = []) by (destruct ld; try contradiction; reflexivity).
  split; [|split; [|split]].
  - intros x Hx Hf. destruct (ss_shear _ _ _ _ _ SD x Hx Hf) as (I0 & HI & E). exists I0. split; auto.
    rewrite E, DV0. reflexivity.
  - intros x Hx Hf. destruct (ss_moment _ _ _ _ _ SD x Hx Hf) as (I0 & HI & E). exists I0. split; auto.
    rewrite E, DV0. reflexivity.
  - destruct Hw as [Hon _]. destruct (get_cnl_balances gl ld L c HL Hon Hc) as [B1 B2]. split; cbn [c_Va c_Ma c_Vb c_Mb].
    + replace (c_Va c - (c_Ma c + c_Mb c) / L + (Ma + Mb) / L + (c_Vb c + (c_Ma c + c_Mb c) / L - (Ma + Mb) / L))
        with (c_Va c + c_Vb c) by ring. exact B1.
    + replace (Ma + Mb + L * (c_Vb c + (c_Ma c + c_Mb c) / L - (Ma + Mb) / L))
        with (c_Ma c + c_Mb c + L * c_Vb c) by (field; lra). exact B2.
  - assert (DM : forall x, continuous (f_M D) x).
    { intros x. unfold D, diag_add; cbn [f_M mamb_diag].
      apply (@continuous_plus R_UniformSpace R_AbsRing R_NormedModule (fun t => (Ma + Mb)/L * t - Ma) (f_M d)); [|apply TM].
      eapply is_derive_cont. auto_derive; [exact I|reflexivity]. }
    assert (Rder : forall x, is_derive (f_R D) x (f_M D x)).
    { intros x. apply (ss_slope _ _ _ _ _ SD). rewrite NM. intros ? []. }
    exists (fun x => (f_R D x - f_R D 0) / EI). split; [|split].
    + intros x Hx. apply (is_RInt_ext (fun t => scal (/EI) (f_M D t))).
      { intros t _. unfold scal; simpl. unfold mult; simpl. inR. field; lra. }
      eapply is_RInt_eqval.
      * apply (@is_RInt_scal R_NormedModule). apply (is_RInt_derive (f_R D)); auto.
      * unfold minus, plus, opp, scal; simpl. unfold mult; simpl. inR. field; lra.
    + unfold D, diag_add; cbn [f_R mamb_diag].
      assert (ER : f_R d L = - ((c_Ma c + c_Mb c) / L / 2 * L^2 - c_Ma c * L + (c_Ma c * L / 3 - c_Mb c * L / 6))) by lra.
      assert (E0 : f_R d 0 = - ((c_Ma c + c_Mb c) / L / 2 * 0^2 - c_Ma c * 0 + (c_Ma c * L / 3 - c_Mb c * L / 6))) by lra.
      rewrite ER, E0. unfold Ma, Mb. inR. field. repeat split; lra.
    + assert (I1 : is_RInt (fun t => (f_R D t - f_R D 0) / EI) 0 L (- f_R D 0 * L / EI)).
      { apply (is_RInt_ext (fun t => scal (/EI) (minus (f_R D t) (f_R D 0)))).
        { intros t _. unfold scal, minus, plus, opp; simpl. unfold mult; simpl. inR. field; lra. }
        eapply is_RInt_eqval.
        - apply (@is_RInt_scal R_NormedModule). apply (@is_RInt_minus R_NormedModule).
          + apply (is_RInt_derive (f_D D)).
            * intros x _. apply (ss_deflection _ _ _ _ _ SD).
            * intros x _. eapply is_derive_cont. apply Rder.
          + apply (@is_RInt_const R_NormedModule).
        - change (/ EI * ((f_D D L + - f_D D 0) + - ((L - 0) * f_R D 0)) = - f_R D 0 * L / EI).
          rewrite (ss_left _ _ _ _ _ SD), (ss_right _ _ _ _ _ SD). field; lra. }
      assert (I2 : is_RInt (fun t => f_V D t / GAv) 0 L ((Ma + Mb) / GAv)).
      { apply (is_RInt_ext (fun t => scal (/GAv) (plus ((Ma + Mb)/L) (f_V d t)))).
        { intros t _. unfold D, diag_add, scal, plus; cbn [f_V mamb_diag]; simpl. unfold mult; simpl. inR. field; lra. }
        eapply is_RInt_eqval.
        - apply (@is_RInt_scal R_NormedModule). apply (@is_RInt_plus R_NormedModule).
          + apply (@is_RInt_const R_NormedModule).
          + exact TV.
        - unfold plus, scal; simpl. unfold mult; simpl. inR. field; lra. }
      apply (is_RInt_ext (fun t => minus ((f_R D t - f_R D 0) / EI) (f_V D t / GAv))).
      { intros t _. reflexivity. }
      eapply is_RInt_eqval; [apply (@is_RInt_minus R_NormedModule); [exact I1|exact I2]|].
      unfold minus, plus, opp; simpl. inR.
      unfold D, diag_add; cbn [f_R mamb_diag].
      assert (E0 : f_R d 0 = - (c_Ma c * L / 3 - c_Mb c * L / 6)) by lra.
      rewrite E0.
      assert (HGA : GAv = 12 * EI / (phi * L^2)) by (unfold phi; field; repeat split; try lra; nra).
      rewrite HGA. unfold Ma, Mb. clearbody phi. field. repeat split; lra.
Qed.

(** ** Limits *)
Lemma phi_lim EI L : 0 < L -> is_lim (fun g => 12 * EI / (g * L^2)) p_infty 0.
Proof.
  intros HL. apply (is_lim_ext_loc (fun g => (12 * EI / L^2) * / g)).
  - exists 0. intros g Hg. field. split; lra.
  - replace (Finite 0) with (Rbar_mult (12*EI/L^2) 0) by (cbn; f_equal; ring).
    apply is_lim_scal_l. apply (is_lim_inv (fun g => g) p_infty p_infty); [apply is_lim_id|discriminate].
Qed.

Lemma rat_cont (F : R -> R) (v : R) : ex_derive F 0 -> F 0 = v -> forall f,
  is_lim f p_infty 0 -> is_lim (fun g => F (f g)) p_infty v.
Proof.
  intros HF <- f Hf. apply is_lim_comp_continuous; auto. apply (@ex_derive_continuous R_AbsRing R_NormedModule). exact HF.
Qed.

Lemma k_FF_timo_limit EI L i j : 0 < L -> (i < 4)%nat -> (j < 4)%nat ->
  is_lim (fun g => k_FF_timo EI g L i j) p_infty (k_FF EI L i j).
Proof.
  intros HL Hi Hj.
  assert (P := phi_lim EI L HL).
  assert (forall F v, ex_derive F 0 -> F 0 = v -> (forall g, k_FF_timo EI g L i j = F (12 * EI / (g * L^2))) ->
     is_lim (fun g => k_FF_timo EI g L i j) p_infty v) as X.
  { intros F v HF E0 EF. apply (is_lim_ext (fun g => F (12 * EI / (g * L^2)))); [intros g; symmetry; apply EF|].
    apply rat_cont; auto. }
  unfold k_FF. four i; four j; cbn [mat4 vec4];
  match goal with
  | |- is_lim _ _ (Finite (12 * EI / L^3)) => apply (X (fun p => 12 * (EI / (1 + p)) / L^3))
  | |- is_lim _ _ (Finite (- (12 * EI / L^3))) => apply (X (fun p => - (12 * (EI / (1 + p)) / L^3)))
  | |- is_lim _ _ (Finite (6 * EI / L^2)) => apply (X (fun p => 6 * (EI / (1 + p)) / L^2))
  | |- is_lim _ _ (Finite (- (6 * EI / L^2))) => apply (X (fun p => - (6 * (EI / (1 + p)) / L^2)))
  | |- is_lim _ _ (Finite (4 * EI / L)) => apply (X (fun p => (4 + p) * (EI / (1 + p)) / L))
  | |- is_lim _ _ (Finite (2 * EI / L)) => apply (X (fun p => (2 - p) * (EI / (1 + p)) / L))
  end; try (intros g; reflexivity); try (auto_derive; repeat split; lra); inR; field; lra.
Qed.

Lemma timo_ref_limit gl ld EI L c i : 0 < L -> (i < 4)%nat -> get_cnl gl ld L = Ok c ->
  exists f, (forall g, ref_timoshenko gl ld (RConst EI) (RConst g) L 1 = Ok (f g)) /\
    is_lim (fun g => f g i) p_infty (cnl_vec c i).
Proof.
  intros HL Hi Hc. eexists. split.
  { intros g. unfold ref_timoshenko. rewrite Hc. cbn [rbind release_from]. reflexivity. }
  assert (P := phi_lim EI L HL). cbn [fst snd].
  set (Fa := fun p => ((2 + p) * c_Ma c - p * c_Mb c) / (2 * (1 + p))).
  set (Fb := fun p => (- p * c_Ma c + (2 + p) * c_Mb c) / (2 * (1 + p))).
  four i; cbn [vec4 cnl_vec].
  - apply (rat_cont (fun p => c_Va c - (c_Ma c + c_Mb c) / L + (Fa p + Fb p) / L)) with (f := fun g => 12 * EI / (g * L^2)); auto;
      unfold Fa, Fb; [auto_derive; repeat split; lra|inR; field; lra].
  - apply (rat_cont Fa) with (f := fun g => 12 * EI / (g * L^2)); auto; unfold Fa, Fb; [auto_derive; repeat split; lra|inR; field; lra].
  - apply (rat_cont (fun p => c_Vb c + (c_Ma c + c_Mb c) / L - (Fa p + Fb p) / L)) with (f := fun g => 12 * EI / (g * L^2)); auto;
      unfold Fa, Fb; [auto_derive; repeat split; lra|inR; field; lra].
  - apply (rat_cont Fb) with (f := fun g => 12 * EI / (g * L^2)); auto; unfold Fa, Fb; [auto_derive; repeat split; lra|inR; field; lra].
Qed.

(** ** Concentrated moments: the closed form forgets the shear rotation *)
Lemma timo_moment_wrong gl : exists v,
  ref_timoshenko gl (LML 8 1) (RConst 1) (RConst 3) 2 1 = Ok v /\
  forall V M, ~ shear_clamped 2 1 3 (action_of 2 (LML 8 1)) (v 0%nat) (v 1%nat) (v 2%nat) (v 3%nat) V M.
Proof.
  eexists. split; [reflexivity|]. intros V M (HV & HM & _ & psi & Hpsi & HL & HD).
  cbn [vec4 fst snd ml_cnl c_Va c_Ma c_Vb c_Mb action_of intensity forces moments] in HV, HM.
  assert (EV : forall x, 0 <= x <= 2 -> V x = 5).
  { intros x Hx. destruct (HV x Hx ltac:(intros ? [])) as (I0 & HI & E).
    assert (E0 := is_RInt_unique _ _ _ _ HI). rewrite (is_RInt_unique _ _ _ _ (is_RInt_zero 0 x)) in E0.
    rewrite E, <- E0. unfold left_of; cbn. field. }
  assert (EM : forall x, 0 <= x <= 2 -> x <> 1 -> M x = -1 + 5 * x - (if Rlt_dec 1 x then 8 else 0)).
  { intros x Hx Hne. destruct (HM x Hx ltac:(intros pa [<-|[]]; cbn; auto)) as (I0 & HI & E).
    assert (E0 := is_RInt_unique _ _ _ _ HI).
    rewrite (is_RInt_unique _ _ _ _ (is_RInt_mult_zero (fun t => x - t) 0 x)) in E0.
    rewrite E, <- E0. unfold left_of; cbn. destruct (Rlt_dec 1 x); field. }
  assert (P1 : forall x, 0 <= x <= 1 -> is_RInt (fun t => M t / 1) 0 x (- x + 5 / 2 * x^2)).
  { intros x Hx. apply (is_RInt_ext (fun t => -1 + 5*t + 0*t^2 + 0*t^3 + 0*t^4)).
    - intros t Ht. rewrite Rmin_left, Rmax_right in Ht by lra. rewrite EM by lra.
      destruct (Rlt_dec 1 t); [lra|]. inR. field.
    - eapply is_RInt_eqval; [apply is_RInt_quartic|]. unfold P4. inR. field. }
  assert (P2 : forall x, 1 <= x <= 2 -> is_RInt (fun t => M t / 1) 0 x (- x + 5 / 2 * x^2 - 8 * (x - 1))).
  { intros x Hx. eapply is_RInt_eqval.
    - apply (is_RInt_Chasles _ 0 1 x); [apply P1; lra|].
      apply (is_RInt_ext (fun t => -9 + 5*t + 0*t^2 + 0*t^3 + 0*t^4)).
      + intros t Ht. rewrite Rmin_left, Rmax_right in Ht by lra. rewrite EM by lra.
        destruct (Rlt_dec 1 t); [|lra]. inR. field.
      + apply is_RInt_quartic.
    - unfold P4, plus; simpl. inR. field. }
  assert (Q : is_RInt (fun t => psi t - V t / 3) 0 2 (-8/3)).
  { eapply is_RInt_eqval.
    - apply (is_RInt_Chasles _ 0 1 2).
      + apply (is_RInt_ext (fun t => -5/3 + (-1)*t + (5/2)*t^2 + 0*t^3 + 0*t^4)).
        * intros t Ht. rewrite Rmin_left, Rmax_right in Ht by lra. rewrite EV by lra.
          assert (Ep := is_RInt_unique _ _ _ _ (Hpsi t ltac:(lra))).
          rewrite (is_RInt_unique _ _ _ _ (P1 t ltac:(lra))) in Ep. rewrite <- Ep. inR. field.
        * apply is_RInt_quartic.
      + apply (is_RInt_ext (fun t => (8 - 5/3) + (-9)*t + (5/2)*t^2 + 0*t^3 + 0*t^4)).
        * intros t Ht. rewrite Rmin_left, Rmax_right in Ht by lra. rewrite EV by lra.
          assert (Ep := is_RInt_unique _ _ _ _ (Hpsi t ltac:(lra))).
          rewrite (is_RInt_unique _ _ _ _ (P2 t ltac:(lra))) in Ep. rewrite <- Ep. inR. field.
        * apply is_RInt_quartic.
    - unfold P4, plus; simpl. inR. field. }
  assert (E := is_RInt_unique _ _ _ _ Q). rewrite (is_RInt_unique _ _ _ _ HD) in E.
  cbn in E. change (0 = -8/3) in E. lra.
Qed.
