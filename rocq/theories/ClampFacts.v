(** Clamped compatibility, rates of the diagrams, tabulation. *)
From Coquelicot Require Import Coquelicot.
From Verif Require Import Base BaseFacts SectionModel FlexModel LoadModel LoadSpec LoadFacts DiagFacts.
Open Scope R_scope.

(** Virtual-work fixed-end forces balance the load. *)
Lemma resultant_plus L A g1 dg1 g2 dg2 W1 W2 :
  resultant L A g1 dg1 W1 -> resultant L A g2 dg2 W2 ->
  resultant L A (fun x => g1 x + g2 x) (fun x => dg1 x + dg2 x) (W1 + W2).
Proof.
  intros (I1 & H1 & ->) (I2 & H2 & ->). exists (I1 + I2). split.
  - apply (is_RInt_ext (fun x => plus (g1 x * intensity A x) (g2 x * intensity A x))).
    + intros x _. unfold plus; simpl. inR. ring.
    + apply (is_RInt_plus (V := R_NormedModule)); assumption.
  - assert (E : forall (h1 h2 : R -> R) l, lsum (map (fun pa : R * R => fst pa * (h1 (snd pa) + h2 (snd pa))) l)
      = lsum (map (fun pa => fst pa * h1 (snd pa)) l) + lsum (map (fun pa => fst pa * h2 (snd pa)) l)).
    { intros h1 h2 l. induction l as [|p l IH]; cbn [map]; [cbn; ring|]. rewrite !lsum_cons, IH. ring. }
    rewrite !E. ring.
Qed.

Lemma resultant_scal L A g dg c W :
  resultant L A g dg W -> resultant L A (fun x => c * g x) (fun x => c * dg x) (c * W).
Proof.
  intros (I1 & H1 & ->). exists (c * I1). split.
  - apply (is_RInt_ext (fun x => scal c (g x * intensity A x))).
    + intros x _. unfold scal; simpl. unfold mult; simpl. inR. ring.
    + apply (is_RInt_scal (V := R_NormedModule)); assumption.
  - assert (E : forall (h1 : R -> R) l, lsum (map (fun pa : R * R => fst pa * (c * h1 (snd pa))) l)
      = c * lsum (map (fun pa => fst pa * h1 (snd pa)) l)).
    { intros h1 l. induction l as [|p l IH]; cbn [map]; [cbn; ring|]. rewrite !lsum_cons, IH. ring. }
    rewrite !E. ring.
Qed.

Lemma resultant_ext L A g1 dg1 g2 dg2 W :
  (forall x, g1 x = g2 x) -> (forall x, dg1 x = dg2 x) ->
  resultant L A g1 dg1 W -> resultant L A g2 dg2 W.
Proof.
  intros Eg Ed (I1 & H1 & ->). exists I1. split.
  - apply (is_RInt_ext (fun x => g1 x * intensity A x)); [|exact H1]. intros x _. rewrite Eg. reflexivity.
  - f_equal; [f_equal|]; f_equal; apply map_ext; intros p; rewrite ?Eg, ?Ed; reflexivity.
Qed.

Lemma fef_balances L A e : 0 < L -> fixed_end_forces L A e -> balances L A e.
Proof.
  intros HL (R1 & R2 & R3 & R4). split.
  - eapply resultant_ext; [| |exact (resultant_plus _ _ _ _ _ _ _ _ R1 R3)]; intros x; cbn.
    + unfold N1, N3. ring.
    + unfold dN1, dN3. field. lra.
  - eapply resultant_ext;
      [| |exact (resultant_plus _ _ _ _ _ _ _ _ (resultant_plus _ _ _ _ _ _ _ _ R2 R4)
                  (resultant_scal _ _ _ _ L _ R3))]; intros x; cbn.
    + unfold N2, N3, N4. field. lra.
    + unfold dN2, dN3, dN4. field. lra.
Qed.

(** [balances] for an action without load: self-equilibrated end forces. *)
Lemma no_action_balances L e :
  c_Va e + c_Vb e = 0 -> c_Ma e + c_Mb e + L * c_Vb e = 0 -> balances L no_action e.
Proof.
  intros H1 H2. split; [rewrite H1|rewrite H2]; (apply resultant_point; [reflexivity|cbn; ring]).
Qed.

Lemma ic_cnl_form gl k EI L e : ic_cnl gl k EI L = Ok e ->
  exists Ma Mb, e = {| c_Va := (Ma + Mb) / L; c_Vb := - (Ma + Mb) / L; c_Ma := Ma; c_Mb := Mb |}.
Proof.
  unfold ic_cnl. destruct EI as [r|]; [|discriminate].
  destruct (ic_end_moments gl k r L) as [[Ma Mb]|]; cbn; [|discriminate].
  intros E. injection E as <-. exists Ma, Mb. reflexivity.
Qed.

(** Every load on the member. *)
Lemma get_cnl_fef gl ld L e : 0 < L -> on_member L ld ->
  match ld with LMaMb _ _ | LIC _ _ => False | _ => True end ->
  get_cnl gl ld L = Ok e -> fixed_end_forces L (action_of L ld) e.
Proof.
  intros HL Hon Hk E. destruct ld; cbn [get_cnl] in E; try contradiction.
  - injection E as <-. apply udl_fef; auto.
  - injection E as <-. apply pl_fef; auto.
  - cbn in Hon. eapply pudl_fef; eauto; tauto.
  - injection E as <-. cbn in Hon. apply trap_fef; tauto.
  - injection E as <-. apply ml_fef; auto.
Qed.

Lemma get_cnl_balances gl ld L e : 0 < L -> on_member L ld ->
  get_cnl gl ld L = Ok e -> balances L (action_of L ld) e.
Proof.
  intros HL Hon E.
  destruct ld; try (apply fef_balances; auto; eapply get_cnl_fef; eauto; exact I).
  - cbn in E. injection E as <-. apply no_action_balances; cbn; field; lra.
  - cbn in E. apply ic_cnl_form in E. destruct E as (Ma' & Mb' & ->).
    apply no_action_balances; cbn; field; lra.
Qed.

(** On the member the fixed-end forces are defined (no exception) for every closed-form load. *)
Lemma get_cnl_ok gl ld L : on_member L ld ->
  match ld with LIC _ _ => False | _ => True end -> exists e, get_cnl gl ld L = Ok e.
Proof.
  intros Hon Hk. destruct ld; cbn in *; eauto; try contradiction.
  unfold pudl_cnl. rcase L a; [lra|eauto].
Qed.

(** Superposing end moments. *)
Lemma simple_span_add_ends L A ma mb d Ma Mb : 0 < L ->
  simple_span L A ma mb d ->
  simple_span L A (Ma + ma) (Mb + mb) (diag_add (mamb_diag Ma Mb L) d).
Proof.
  intros HL S. pose proof (mamb_span Ma Mb L HL) as Sm.
  constructor.
  - intros x Hx Hf. destruct (ss_shear _ _ _ _ _ S x Hx Hf) as (I1 & H1 & E1).
    exists I1. split; [exact H1|]. unfold diag_add; cbn [f_V]. rewrite E1. cbn. ring.
  - intros x Hx Hf. destruct (ss_moment _ _ _ _ _ S x Hx Hf) as (I1 & H1 & E1).
    exists I1. split; [exact H1|]. unfold diag_add; cbn [f_V f_M]. rewrite E1. cbn. field. lra.
  - destruct (ss_far_end _ _ _ _ _ S) as (I1 & H1 & E1).
    exists I1. split; [exact H1|]. unfold diag_add; cbn [f_V]. rewrite E1 at 1. cbn. field. lra.
  - intros x Hx. apply (@is_derive_plus R_AbsRing R_NormedModule).
    + apply (ss_slope _ _ _ _ _ Sm). intros pa Hin. contradiction.
    + apply (ss_slope _ _ _ _ _ S). exact Hx.
  - intros x. apply (@continuous_plus R_UniformSpace R_AbsRing R_NormedModule).
    + apply (ss_slope_cont _ _ _ _ _ Sm).
    + apply (ss_slope_cont _ _ _ _ _ S).
  - intros x. apply (@is_derive_plus R_AbsRing R_NormedModule).
    + apply (ss_deflection _ _ _ _ _ Sm).
    + apply (ss_deflection _ _ _ _ _ S).
  - unfold diag_add; cbn [f_D]. rewrite (ss_left _ _ _ _ _ Sm), (ss_left _ _ _ _ _ S). ring.
  - unfold diag_add; cbn [f_D]. rewrite (ss_right _ _ _ _ _ Sm), (ss_right _ _ _ _ _ S). ring.
Qed.

Lemma diag_span ld L d : 0 < L -> within_member L ld -> diag_of ld L = Some d ->
  simple_span L (action_of L ld) (fst (end_moments ld)) (snd (end_moments ld)) d.
Proof.
  intros HL [Hon Hin] E. destruct ld; cbn in E; try discriminate; injection E as <-; cbn [end_moments fst snd].
  - apply udl_span; auto.
  - apply pl_span; auto.
  - cbn in *. apply pudl_span; tauto.
  - cbn in Hon. apply trap_span; tauto.
  - apply mamb_span; auto.
  - apply ml_span; auto.
Qed.

Lemma clamp_intro ld L gl e d : 0 < L -> within_member L ld ->
  match ld with LMaMb _ _ | LIC _ _ => False | _ => True end ->
  get_cnl gl ld L = Ok e -> diag_of ld L = Some d ->
  (let D := diag_add (mamb_diag (c_Ma e) (c_Mb e) L) d in
   f_R D 0 = 0 /\ f_R D L = 0 /\ f_V D 0 = c_Va e) ->
  clamped L (action_of L ld) e (diag_add (mamb_diag (c_Ma e) (c_Mb e) L) d).
Proof.
  intros HL Hw Hk E Ed (E1 & E2 & E3).
  pose proof (diag_span ld L d HL Hw Ed) as S.
  assert (Ez : end_moments ld = (0, 0)) by (destruct ld; try contradiction; reflexivity).
  rewrite Ez in S. cbn in S.
  pose proof (simple_span_add_ends L _ 0 0 d (c_Ma e) (c_Mb e) HL S) as S2.
  rewrite !Rplus_0_r in S2.
  constructor; auto.
  destruct Hw as [Hon _].
  exact (proj1 (get_cnl_balances gl ld L e HL Hon E)).
Qed.

Lemma get_cnl_clamped gl ld L e d : 0 < L -> within_member L ld ->
  match ld with LMaMb _ _ | LIC _ _ => False | _ => True end ->
  get_cnl gl ld L = Ok e -> diag_of ld L = Some d ->
  clamped L (action_of L ld) e (diag_add (mamb_diag (c_Ma e) (c_Mb e) L) d).
Proof.
  intros HL Hw Hk E Ed.
  eapply clamp_intro; eauto. destruct Hw as [Hon Hin].
  destruct ld; try contradiction; cbn in Ed; injection Ed as <-; cbn [get_cnl] in E; cbn in Hon, Hin.
  - injection E as <-. cbn. repeat split; field; lra.
  - injection E as <-. unfold pl_diag, pl_cnl, H. rewrite !Rmax_left by lra. cbn.
    rewrite (MB_neg (0 - a)), (MB_pos (L - a)) by lra.
    destruct (Rlt_dec (0 - a) 0), (Rlt_dec 0 (0 - a)); try lra; repeat split; field; lra.
  - unfold pudl_cnl in E. rewrite (proj2 (Rltb_false L a)) in E by lra.
    rewrite (proj2 (Rltb_false (L - (a + c)) 0)) in E by lra.
    injection E as <-. cbn.
    rewrite (MB_neg (0 - a)), (MB_pos (L - a)), (MB_neg (0 - (c + a))), (MB_pos (L - (c + a))) by lra.
    repeat split; field; lra.
  - injection E as <-. unfold trap_diag, trap_cnl, trap_resolve.
    destruct Hon as [Ha Hc]. clear Hin Hk.
    set (cc := match c with Some c => c | None => L - a end) in *.
    assert (Hc0 : 0 <= cc) by (unfold cc; destruct c; lra).
    clearbody cc. clear Hc.
    rleb L a; cbn [orb].
    { rewrite (proj2 (Rleb_true 0 0)) by lra. cbn. repeat split; field; lra. }
    rleb cc 0.
    { rewrite (proj2 (Rleb_true 0 0)) by lra. cbn. repeat split; field; lra. }
    rcase L (a + cc).
    + rleb (L - a) 0; [lra|]. cbn.
      replace (a + (L - a)) with L by ring.
      rewrite (MB_neg (0 - a)), (MB_pos (L - a)), (MB_neg (0 - L)), (MB_pos (L - L)) by lra.
      repeat split; field; lra.
    + rleb cc 0; [lra|]. cbn.
      rewrite (MB_neg (0 - a)), (MB_pos (L - a)), (MB_neg (0 - (a + cc))), (MB_pos (L - (a + cc))) by lra.
      repeat split; field; lra.
  - injection E as <-. cbn. rewrite (MB_neg (0 - a)), (MB_pos (L - a)) by lra.
    repeat split; field; lra.
Qed.

(** ** Rates *)
Lemma const_derive (c x : R) : is_derive (fun _ : R => c) x 0.
Proof. apply (@is_derive_const R_AbsRing R_NormedModule). Qed.

Lemma H_derive (a v x : R) : x <> a -> is_derive (fun t => H (t - a) v) x 0.
Proof.
  intros Hx. destruct (Rtotal_order x a) as [Hlt|[He|Hgt]]; [|lra|].
  - apply (is_derive_ext_loc (fun _ => 0)); [|apply const_derive].
    exists (mkposreal (a - x) ltac:(lra)). intros y Hy. inR.
    unfold ball in Hy; simpl in Hy; unfold AbsRing_ball, abs, minus, plus, opp in Hy; simpl in Hy.
    apply Rabs_def2 in Hy. unfold H. destruct (Rlt_dec (y - a) 0); lra.
  - apply (is_derive_ext_loc (fun _ => 1)); [|apply const_derive].
    exists (mkposreal (x - a) ltac:(lra)). intros y Hy. inR.
    unfold ball in Hy; simpl in Hy; unfold AbsRing_ball, abs, minus, plus, opp in Hy; simpl in Hy.
    apply Rabs_def2 in Hy. unfold H. destruct (Rlt_dec (y - a) 0); [lra|].
    destruct (Rlt_dec 0 (y - a)); lra.
Qed.

(** dV/dx = -q and dM/dx = V for the trapezoidal form. *)
Lemma lin_rates w1 s a b L x : 0 < L -> x <> a -> x <> b -> a <= b ->
  is_derive (f_V (lin_diag w1 s a b L)) x
    (- (if Rlt_dec x a then 0 else if Rlt_dec b x then 0 else w1 + s * (x - a))).
Proof.
  intros HL Hxa Hxb Hab. unfold lin_diag; cbn [f_V].
  match goal with |- is_derive (fun t => ?c0 - ?c1 * _ - ?c2 * _ + ?c3 * _ + ?c4 * _) x _ =>
    eapply (is_derive_lin4 (fun t => c0)
      (fun t => MB (t-a)) (fun t => MB (t-a)^2) (fun t => MB (t-b)) (fun t => MB (t-b)^2)
      (-c1) (-c2) c3 c4)
  end.
  - apply const_derive.
  - apply MB_deriv_away; auto. - apply MB_deriv2. - apply MB_deriv_away; auto. - apply MB_deriv2.
  - intros t. ring.
  - unfold H. destruct (Rlt_dec x a).
    + destruct (Rlt_dec (x - a) 0); [|lra]. destruct (Rlt_dec (x - b) 0); [|lra].
      rewrite !MB_neg by lra. ring.
    + destruct (Rlt_dec (x - a) 0); [lra|]. destruct (Rlt_dec 0 (x - a)); [|lra].
      destruct (Rlt_dec b x).
      * destruct (Rlt_dec (x - b) 0); [lra|]. destruct (Rlt_dec 0 (x - b)); [|lra].
        rewrite !MB_pos by lra. field.
      * destruct (Rlt_dec (x - b) 0); [|lra]. rewrite (MB_neg (x - b)), (MB_pos (x - a)) by lra. field.
Qed.

Lemma lin_rate_M w1 s a b L x : 0 < L ->
  is_derive (f_M (lin_diag w1 s a b L)) x (f_V (lin_diag w1 s a b L) x).
Proof.
  intros HL. unfold lin_diag; cbn [f_V f_M].
  match goal with |- is_derive (fun t => ?c0 * t - ?c1 * _ - ?c2 * _ + ?c3 * _ + ?c4 * _) x _ =>
    eapply (is_derive_lin4 (fun t => 0 + c0*t + 0*t^2 + 0*t^3 + 0*t^4)
      (fun t => MB (t-a)^2) (fun t => MB (t-a)^3) (fun t => MB (t-b)^2) (fun t => MB (t-b)^3)
      (-c1) (-c2) c3 c4)
  end.
  - apply poly4_derive.
  - apply MB_deriv2. - apply MB_deriv3. - apply MB_deriv2. - apply MB_deriv3.
  - intros t. ring.
  - field; lra.
Qed.

Lemma rates_ext (d1 d2 : diag) x q : diag_eq d1 d2 ->
  is_derive (f_V d1) x q /\ is_derive (f_M d1) x (f_V d1 x) ->
  is_derive (f_V d2) x q /\ is_derive (f_M d2) x (f_V d2 x).
Proof.
  intros (EV & EM & _ & _) [H1 H2]. split.
  - eapply is_derive_ext; [exact EV|exact H1].
  - rewrite <- EV. eapply is_derive_ext; [exact EM|exact H2].
Qed.

Lemma diag_rates ld L d x : 0 < L -> within_member L ld -> diag_of ld L = Some d ->
  0 < x < L -> ~ In x (load_edges L ld) ->
  is_derive (f_V d) x (- intensity (action_of L ld) x) /\ is_derive (f_M d) x (f_V d x).
Proof.
  intros HL [Hon Hin] Ed Hx Hnot. destruct ld; cbn in Ed; try discriminate; injection Ed as <-; cbn in Hnot, Hon, Hin.
  - cbn. split; auto_derive; try exact I; field; lra.
  - assert (Hxa : x <> a) by (intros ->; tauto).
    unfold pl_diag. rewrite Rmax_left by lra. cbn. split.
    + eapply (is_derive_lin2 (fun t => P * (L - a) / L) (fun t => H (t - a) 0) (fun t => 0) (-P) 0).
      * apply const_derive. * apply H_derive; auto. * apply const_derive. * intros; ring. * ring.
    + eapply (is_derive_lin2 (fun t => 0 + P * (L - a) / L * t + 0*t^2+0*t^3+0*t^4) (fun t => MB (t - a)) (fun t => 0) (-P) 0).
      * apply poly4_derive. * apply MB_deriv_away; auto. * apply const_derive. * intros; ring. * ring.
  - assert (x <> a) by (intros ->; tauto). assert (x <> a + c) by (intros ->; tauto).
    apply (rates_ext (lin_diag w 0 a (a + c) L)).
    { unfold diag_eq, lin_diag, pudl_diag; cbn [f_V f_M f_R f_D].
      rewrite (Rplus_comm c a). repeat split; intros t; field; lra. }
    split; [|apply lin_rate_M; auto].
    eapply is_derive_eqval; [apply lin_rates; auto; lra|]. cbn.
    destruct (Rlt_dec x a), (Rlt_dec (a + c) x); ring.
  - unfold trap_diag, trap_resolve. destruct Hon as [Ha Hc]. cbn [action_of intensity].
    set (e := match c with Some c => Rmin (a + c) L | None => L end) in *.
    set (cc := match c with Some c => c | None => L - a end) in *.
    assert (Hc0 : 0 <= cc) by (unfold cc; destruct c; lra).
    assert (Hxa : x <> a) by (intros ->; tauto). assert (Hxe : x <> e) by (intros ->; tauto).
    assert (He : e = Rmin (a + cc) L).
    { unfold e, cc. destruct c; [reflexivity|]. rewrite Rmin_right by lra. reflexivity. }
    clearbody e cc. clear Hc Hin Hnot. subst e.
    rleb L a; cbn [orb].
    { rewrite (proj2 (Rleb_true 0 0)) by lra. cbn.
      destruct (Rlt_dec x a); [|lra]. rewrite Ropp_0. split; apply const_derive. }
    rleb cc 0.
    { rewrite (proj2 (Rleb_true 0 0)) by lra. cbn.
      assert (cc = 0) by lra. subst cc. rewrite Rplus_0_r, Rmin_left in Hxe by lra.
      destruct (Rlt_dec x a); [|destruct (Rlt_dec (a + 0) x); [|lra]]; rewrite Ropp_0; split; apply const_derive. }
    rcase L (a + cc).
    + rewrite Rmin_right in Hxe by lra. rleb (L - a) 0; [lra|].
      eapply (rates_ext (lin_diag w1 ((w2 - w1)/cc) a L L)).
      { unfold diag_eq, lin_diag; cbn [f_V f_M f_R f_D]. replace (a + (L - a)) with L by ring.
        repeat split; intros t; field; lra. }
      split; [|apply lin_rate_M; auto].
      eapply is_derive_eqval; [apply lin_rates; auto; lra|].
      destruct (Rlt_dec x a); [ring|]. destruct (Rlt_dec L x); [lra|]. destruct (Rlt_dec (a + cc) x); [lra|].
      field; lra.
    + rewrite Rmin_left in Hxe by lra. rleb cc 0; [lra|].
      eapply (rates_ext (lin_diag w1 ((w2 - w1)/cc) a (a + cc) L)).
      { unfold diag_eq, lin_diag; cbn [f_V f_M f_R f_D].
        repeat split; intros t; field; lra. }
      split; [|apply lin_rate_M; auto].
      eapply is_derive_eqval; [apply lin_rates; auto; lra|].
      destruct (Rlt_dec x a); [ring|]. destruct (Rlt_dec (a + cc) x); [ring|].
      field; lra.
  - cbn. split; auto_derive; try exact I; field; lra.
  - assert (Hxa : x <> a) by (intros ->; tauto). cbn. split.
    + rewrite Ropp_0. apply const_derive.
    + eapply (is_derive_lin2 (fun t => 0 + m / L * t + 0*t^2+0*t^3+0*t^4)
        (fun t => H (t - a) (if Req_EM_T a 0 then 1 else if Req_EM_T a L then 0 else 1/2)) (fun t => 0) (-m) 0).
      * apply poly4_derive. * apply H_derive; auto. * apply const_derive. * intros; ring. * ring.
Qed.

(** ** Tabulation *)
Lemma set_first_length v l : length (set_first v l) = length l.
Proof. destruct l; reflexivity. Qed.
Lemma removelast_length {A} (l : list A) : length (removelast l) = (length l - 1)%nat.
Proof.
  destruct l as [|a l] using rev_ind; [reflexivity|].
  rewrite removelast_last, app_length. cbn. lia.
Qed.
Lemma set_last_length v l : length (set_last v l) = length l.
Proof.
  destruct l as [|a l]; [reflexivity|]. unfold set_last. rewrite app_length, removelast_length. cbn. lia.
Qed.
Lemma nth_removelast {A} (l : list A) i d : (i < length l - 1)%nat -> nth i (removelast l) d = nth i l d.
Proof.
  revert i; induction l as [|a l IH]; intros i Hi; [cbn in Hi; lia|].
  destruct l as [|b l]; [cbn in Hi; lia|].
  cbn [removelast]. destruct i; [reflexivity|]. cbn [nth]. apply IH. cbn [length] in Hi |- *. lia.
Qed.
Lemma nth_set_last v l i : (i < length l)%nat ->
  nth i (set_last v l) 0 = if Nat.eqb i (length l - 1) then v else nth i l 0.
Proof.
  intros Hi. destruct l as [|a l]; [cbn in Hi; lia|]. unfold set_last.
  destruct (Nat.eqb_spec i (length (a :: l) - 1)) as [E|E].
  - rewrite app_nth2; rewrite removelast_length; [|lia]. replace (i - _)%nat with 0%nat by lia. reflexivity.
  - rewrite app_nth1 by (rewrite removelast_length; lia). apply nth_removelast. lia.
Qed.
Lemma nth_set_first v l i : (i < length l)%nat ->
  nth i (set_first v l) 0 = if Nat.eqb i 0 then v else nth i l 0.
Proof. destruct l; cbn; [lia|]. destruct i; reflexivity. Qed.
Lemma zero_ends_length l : length (zero_ends l) = length l.
Proof. unfold zero_ends. rewrite set_last_length, set_first_length. reflexivity. Qed.
Lemma nth_zero_ends l i : (i < length l)%nat ->
  nth i (zero_ends l) 0 = if Nat.eqb i (length l - 1) then 0 else if Nat.eqb i 0 then 0 else nth i l 0.
Proof.
  intros Hi. unfold zero_ends. rewrite nth_set_last by (rewrite set_first_length; lia).
  rewrite set_first_length. rewrite nth_set_first by lia. reflexivity.
Qed.

Lemma nth_map_R (f : R -> R) l i : (i < length l)%nat -> nth i (map f l) 0 = f (nth i l 0).
Proof.
  intros Hi. rewrite (nth_indep _ 0 (f 0)) by (rewrite map_length; lia). apply map_nth.
Qed.

Lemma sample_tabulates d xs : tabulates d xs (sample d xs).
Proof.
  unfold tabulates, sample; cbn.
  rewrite !zero_ends_length, !map_length.
  split; [reflexivity|]. do 4 (split; [reflexivity|]).
  assert (Z : forall f i, (i < length xs)%nat -> (i = 0 \/ i = length xs - 1)%nat ->
     nth i (zero_ends (map f xs)) 0 = 0).
  { intros f i Hi E. rewrite nth_zero_ends by (rewrite map_length; lia). rewrite map_length.
    destruct (Nat.eqb_spec i (length xs - 1)); [reflexivity|].
    destruct (Nat.eqb_spec i 0); [reflexivity|lia]. }
  assert (Z' : forall f i, (i = 0 \/ i = length xs - 1)%nat -> nth i (zero_ends (map f xs)) 0 = 0).
  { intros f i E. destruct (lt_dec i (length xs)); [apply Z; auto|].
    apply nth_overflow. rewrite zero_ends_length, map_length. lia. }
  repeat split; try (apply Z'; auto).
  - rewrite nth_zero_ends by (rewrite map_length; lia). rewrite map_length.
    destruct (Nat.eqb_spec i (length xs - 1)); [lia|]. destruct (Nat.eqb_spec i 0); [lia|].
    apply nth_map_R. lia.
  - rewrite nth_zero_ends by (rewrite map_length; lia). rewrite map_length.
    destruct (Nat.eqb_spec i (length xs - 1)); [lia|]. destruct (Nat.eqb_spec i 0); [lia|].
    apply nth_map_R. lia.
  - apply nth_map_R. lia.
  - apply nth_map_R. lia.
Qed.

Lemma mbr_results_tabulates ld L d xs : diag_of ld L = Some d ->
  tabulates d xs (get_mbr_results ld xs L).
Proof. intros E. destruct ld; cbn in *; try discriminate; injection E as <-; apply sample_tabulates. Qed.
