(** The simple-span diagrams of the model solve the simply supported member. *)
From Coquelicot Require Import Coquelicot.
From Verif Require Import Base BaseFacts SectionModel LoadModel LoadSpec LoadFacts.
Open Scope R_scope.

Lemma MB_min x a : MB (x - a) = x - Rmin a x.
Proof. unfold MB, Rmax, Rmin. destruct (Rle_dec (x - a) 0), (Rle_dec a x); lra. Qed.

Lemma MB_pos t : 0 <= t -> MB t = t.
Proof. intros; unfold MB; rewrite Rmax_left; lra. Qed.
Lemma MB_neg t : t <= 0 -> MB t = 0.
Proof. intros; unfold MB; rewrite Rmax_right; lra. Qed.

Lemma MB_sq t : t * MB t = MB t ^ 2.
Proof. unfold MB, Rmax. destruct (Rle_dec t 0); ring. Qed.

Lemma is_derive_eqval (f : R -> R) (x v w : R) : is_derive f x v -> v = w -> is_derive f x w.
Proof. intros Hf E. subst. exact Hf. Qed.

(** Derivatives of powers of the Macaulay bracket. *)
Lemma MB_deriv_away (a x : R) : x <> a -> is_derive (fun x => MB (x - a)) x (H (x - a) 0).
Proof.
  intros Hx. unfold H. destruct (Rlt_dec (x - a) 0) as [Hn|Hn].
  - apply (is_derive_ext_loc (fun _ => 0)); [|apply (@is_derive_const R_AbsRing R_NormedModule)].
    exists (mkposreal (a - x) ltac:(lra)). intros y Hy. inR. symmetry; apply MB_neg.
    unfold ball in Hy; simpl in Hy; unfold AbsRing_ball, abs, minus, plus, opp in Hy; simpl in Hy.
    apply Rabs_def2 in Hy. lra.
  - destruct (Rlt_dec 0 (x - a)); [|lra].
    apply (is_derive_ext_loc (fun x => x - a)).
    + exists (mkposreal (x - a) ltac:(lra)). intros y Hy. inR. symmetry; apply MB_pos.
      unfold ball in Hy; simpl in Hy; unfold AbsRing_ball, abs, minus, plus, opp in Hy; simpl in Hy.
      apply Rabs_def2 in Hy. lra.
    + auto_derive; [exact I|ring].
Qed.

Lemma MB_deriv2 (a x : R) : is_derive (fun x => MB (x - a) ^ 2) x (2 * MB (x - a)).
Proof.
  destruct (Req_dec x a) as [->|Hx].
  - rewrite MB_neg by lra. rewrite Rmult_0_r.
    apply is_derive_Reals. intros eps Heps.
    exists (mkposreal eps Heps). intros h Hh0 Hh. simpl in Hh.
    rewrite (MB_neg (a - a)) by lra.
    replace (a + h - a) with h by ring.
    unfold MB, Rmax. destruct (Rle_dec h 0).
    + replace ((0^2 - 0^2) / h - 0) with 0 by (field; lra). rewrite Rabs_R0. exact Heps.
    + replace ((h^2 - 0^2) / h - 0) with h by (field; lra). exact Hh.
  - pose proof (MB_deriv_away a x Hx) as Hd.
    pose proof (is_derive_mult _ _ x _ _ Hd Hd (fun n m => Rmult_comm n m)) as Hm.
    apply (is_derive_ext (fun t => mult (MB (t - a)) (MB (t - a)))).
    { intros t. unfold mult; simpl. inR. ring. }
    eapply is_derive_eqval; [exact Hm|].
    unfold plus, mult; simpl. inR. unfold H.
    destruct (Rlt_dec (x - a) 0); [rewrite MB_neg by lra; ring|].
    destruct (Rlt_dec 0 (x - a)); [ring|lra].
Qed.

Lemma MB_derivS n (a x : R) :
  is_derive (fun x => MB (x - a) ^ (S (S n))) x (INR (S (S n)) * MB (x - a) ^ (S n)).
Proof.
  induction n as [|n IH].
  - eapply is_derive_eqval; [apply MB_deriv2|]. simpl. ring.
  - assert (E : forall t, (t - a) * MB (t - a) ^ (S (S n)) = MB (t - a) ^ (S (S (S n)))).
    { intros t. cbn [pow]. rewrite <- Rmult_assoc, MB_sq. cbn [pow]. ring. }
    apply (is_derive_ext (fun t => (t - a) * MB (t - a) ^ (S (S n)))); [intros t; apply E|].
    assert (D1 : is_derive (fun t => t - a) x 1) by (auto_derive; [exact I|ring]).
    eapply is_derive_eqval; [exact (is_derive_mult _ _ x _ _ D1 IH (fun n m => Rmult_comm n m))|].
    change (1 * MB (x-a)^(S (S n)) + (x-a) * (INR (S (S n)) * MB (x-a)^(S n))
            = INR (S (S (S n))) * MB (x-a)^(S (S n))).
    assert (E1 : (x - a) * MB (x - a) ^ (S n) = MB (x - a) ^ (S (S n))).
    { cbn [pow]. rewrite <- Rmult_assoc, MB_sq. cbn [pow]. ring. }
    rewrite (S_INR (S (S n))).
    transitivity (MB (x - a) ^ (S (S n)) + INR (S (S n)) * ((x - a) * MB (x - a) ^ (S n))).
    + ring.
    + rewrite E1. ring.
Qed.

Lemma MB_deriv3 (a x : R) : is_derive (fun x => MB (x - a) ^ 3) x (3 * MB (x - a)^2).
Proof. eapply is_derive_eqval; [apply (MB_derivS 1)|]. simpl; ring. Qed.
Lemma MB_deriv4 (a x : R) : is_derive (fun x => MB (x - a) ^ 4) x (4 * MB (x - a)^3).
Proof. eapply is_derive_eqval; [apply (MB_derivS 2)|]. simpl; ring. Qed.
Lemma MB_deriv5 (a x : R) : is_derive (fun x => MB (x - a) ^ 5) x (5 * MB (x - a)^4).
Proof. eapply is_derive_eqval; [apply (MB_derivS 3)|]. simpl; ring. Qed.

(** Linear combinations. *)
Lemma is_derive_lin (p f : R -> R) (c x p' f' : R) :
  is_derive p x p' -> is_derive f x f' -> is_derive (fun t => p t + c * f t) x (p' + c * f').
Proof.
  intros Hp Hf.
  apply (@is_derive_plus R_AbsRing R_NormedModule p (fun t => c * f t) x p' (c * f') Hp).
  apply (@is_derive_scal f x c f' Hf).
Qed.

Lemma is_derive_lin4 (p f1 f2 f3 f4 : R -> R) (c1 c2 c3 c4 x p' f1' f2' f3' f4' : R) (F : R -> R) v :
  is_derive p x p' -> is_derive f1 x f1' -> is_derive f2 x f2' ->
  is_derive f3 x f3' -> is_derive f4 x f4' ->
  (forall t, F t = p t + c1 * f1 t + c2 * f2 t + c3 * f3 t + c4 * f4 t) ->
  v = p' + c1 * f1' + c2 * f2' + c3 * f3' + c4 * f4' ->
  is_derive F x v.
Proof.
  intros Hp H1 H2 H3 H4 HF ->.
  apply (is_derive_ext (fun t => p t + c1 * f1 t + c2 * f2 t + c3 * f3 t + c4 * f4 t)).
  - intros t. symmetry. apply HF.
  - apply is_derive_lin; auto. apply is_derive_lin; auto. apply is_derive_lin; auto.
    apply is_derive_lin; auto.
Qed.

Lemma is_derive_lin2 (p f1 f2 : R -> R) (c1 c2 x p' f1' f2' : R) (F : R -> R) v :
  is_derive p x p' -> is_derive f1 x f1' -> is_derive f2 x f2' ->
  (forall t, F t = p t + c1 * f1 t + c2 * f2 t) ->
  v = p' + c1 * f1' + c2 * f2' ->
  is_derive F x v.
Proof.
  intros Hp H1 H2 HF ->.
  apply (is_derive_ext (fun t => p t + c1 * f1 t + c2 * f2 t)).
  - intros t. symmetry. apply HF.
  - apply is_derive_lin; auto. apply is_derive_lin; auto.
Qed.

Lemma poly4_derive (q0 q1 q2 q3 q4 x : R) :
  is_derive (fun t => q0 + q1*t + q2*t^2 + q3*t^3 + q4*t^4) x (q1 + 2*q2*x + 3*q3*x^2 + 4*q4*x^3).
Proof. auto_derive; [exact I|ring]. Qed.

Lemma is_derive_cont (f : R -> R) (x v : R) : is_derive f x v -> continuous f x.
Proof. intros Hf. apply (@ex_derive_continuous R_AbsRing R_NormedModule). exists v. exact Hf. Qed.

(** Cut integrals: weight (x - t), and weight 1, over [0, x] of a linear intensity on [a,b]. *)
Lemma cut_integrals (q : R -> R) w s a b x :
  0 <= a -> a <= b -> 0 <= x ->
  (forall t, 0 < t < a -> q t = 0) ->
  (forall t, a < t < b -> t < x -> q t = w + s*t) ->
  (forall t, b < t < x -> q t = 0) ->
  let u := Rmin a x in let v := Rmin b x in
  is_RInt q 0 x (w*(v-u) + s*(v^2-u^2)/2) /\
  is_RInt (fun t => (x - t) * q t) 0 x
    (x * (w*(v-u) + s*(v^2-u^2)/2) - (w*(v^2-u^2)/2 + s*(v^3-u^3)/3)).
Proof.
  intros Ha Hab Hx H0 H1 H2 u v.
  assert (Hu : 0 <= u) by (apply Rmin_glb; lra).
  assert (Huv : u <= v) by (apply Rmin_glb; [eapply Rle_trans; [apply Rmin_l|lra] | apply Rmin_r]).
  assert (Hv : v <= x) by apply Rmin_r.
  assert (Hua : u <= a) by apply Rmin_l.
  assert (Hvb : v <= b) by apply Rmin_l.
  assert (Hu' : u = a \/ u = x) by (unfold u, Rmin; destruct (Rle_dec a x); auto).
  assert (Hv' : v = b \/ v = x) by (unfold v, Rmin; destruct (Rle_dec b x); auto).
  clearbody u v.
  assert (C : forall g0 g1, is_RInt (fun t => (g0 + g1*t) * q t) 0 x
     (P4 (g0*w) (g0*s+g1*w) (g1*s+0*w) (0*s+0*w) (0*s) v
      - P4 (g0*w) (g0*s+g1*w) (g1*s+0*w) (0*s+0*w) (0*s) u)).
  { intros g0 g1.
    apply (is_RInt_cubic_lin (fun t => g0 + g1*t) q g0 g1 0 0 w s x u v); try lra.
    - intros t. ring.
    - intros t Ht. apply H0. lra.
    - intros t Ht. apply H1; lra.
    - intros t Ht. destruct Hv' as [->| ->]; [|lra]. apply H2. lra. }
  split.
  - apply (is_RInt_ext (fun t => (1 + 0*t) * q t)).
    + intros t _. inR. ring.
    + eapply is_RInt_eqval; [apply (C 1 0)|unfold P4; inR; field].
  - apply (is_RInt_ext (fun t => (x + -1*t) * q t)).
    + intros t _. inR. ring.
    + eapply is_RInt_eqval; [apply (C x (-1))|unfold P4; inR; field].
Qed.

(** Pointwise-equal diagrams. *)
Definition diag_eq (d1 d2 : diag) : Prop :=
  (forall x, f_V d1 x = f_V d2 x) /\ (forall x, f_M d1 x = f_M d2 x) /\
  (forall x, f_R d1 x = f_R d2 x) /\ (forall x, f_D d1 x = f_D d2 x).

Lemma continuous_ext' (f g : R -> R) x : (forall t, f t = g t) -> continuous f x -> continuous g x.
Proof. intros E. apply continuous_ext. exact E. Qed.

Lemma simple_span_ext L A ma mb d1 d2 :
  diag_eq d1 d2 -> simple_span L A ma mb d1 -> simple_span L A ma mb d2.
Proof.
  intros (EV & EM & ER & ED) S. constructor.
  - intros x Hx Hf. rewrite <- !EV. apply (ss_shear _ _ _ _ _ S); auto.
  - intros x Hx Hf. rewrite <- EV, <- EM. apply (ss_moment _ _ _ _ _ S); auto.
  - rewrite <- EV. apply (ss_far_end _ _ _ _ _ S).
  - intros x Hx. rewrite <- EM. apply (is_derive_ext _ _ _ _ ER). apply (ss_slope _ _ _ _ _ S); auto.
  - intros x. apply (continuous_ext' _ _ _ ER). apply (ss_slope_cont _ _ _ _ _ S).
  - intros x. rewrite <- ER. apply (is_derive_ext _ _ _ _ ED). apply (ss_deflection _ _ _ _ _ S).
  - rewrite <- ED. apply (ss_left _ _ _ _ _ S).
  - rewrite <- ED. apply (ss_right _ _ _ _ _ S).
Qed.

(** Diagram of a linear intensity [w1 + s (x - a)] on [a, b]. *)
Definition lin_diag (w1 s a b L : R) : diag :=
  let w2 := w1 + s * (b - a) in
  let al := L - a in let de := L - b in
  let Va := ((w1/2)*al^2 + (s/6)*al^3 - (w2/2)*de^2 - (s/6)*de^3) / L in
  let Ra := (-(Va/6)*L^3 + (w1/24)*al^4 + (s/120)*al^5 - (w2/24)*de^4 - (s/120)*de^5) / L in
  {| f_V := fun x => Va - w1*MB (x-a) - (s/2)*MB (x-a)^2 + w2*MB (x-b) + (s/2)*MB (x-b)^2;
     f_M := fun x => Va*x - (w1/2)*MB (x-a)^2 - (s/6)*MB (x-a)^3
                     + (w2/2)*MB (x-b)^2 + (s/6)*MB (x-b)^3;
     f_R := fun x => (Va/2)*x^2 - (w1/6)*MB (x-a)^3 - (s/24)*MB (x-a)^4
                     + (w2/6)*MB (x-b)^3 + (s/24)*MB (x-b)^4 + Ra;
     f_D := fun x => (Va/6)*x^3 - (w1/24)*MB (x-a)^4 - (s/120)*MB (x-a)^5
                     + (w2/24)*MB (x-b)^4 + (s/120)*MB (x-b)^5 + Ra*x |}.

Lemma lin_simple_span L A w1 s a b :
  0 < L -> 0 <= a -> a <= b -> b <= L ->
  forces A = [] -> moments A = [] ->
  (forall x, 0 < x < a -> intensity A x = 0) ->
  (forall x, a < x < b -> intensity A x = w1 + s * (x - a)) ->
  (forall x, b < x < L -> intensity A x = 0) ->
  simple_span L A 0 0 (lin_diag w1 s a b L).
Proof.
  intros HL Ha Hab HbL Hf Hm H0 H1 H2.
  assert (CI : forall x, 0 <= x <= L ->
    let u := Rmin a x in let v := Rmin b x in
    is_RInt (intensity A) 0 x ((w1 - s*a)*(v-u) + s*(v^2-u^2)/2) /\
    is_RInt (fun t => (x - t) * intensity A t) 0 x
      (x * ((w1 - s*a)*(v-u) + s*(v^2-u^2)/2) - ((w1 - s*a)*(v^2-u^2)/2 + s*(v^3-u^3)/3))).
  { intros x Hx. apply (cut_integrals (intensity A) (w1 - s*a) s a b x); try lra; auto.
    - intros t Ht _. rewrite H1 by lra. ring.
    - intros t Ht. apply H2. lra. }
  assert (EuvV : forall x, 0 <= x <= L ->
     let u := Rmin a x in let v := Rmin b x in
     (u = a \/ (u = x /\ v = x)) /\ (v = b \/ v = x)).
  { intros x Hx u v. unfold u, v, Rmin. destruct (Rle_dec a x), (Rle_dec b x); auto; try lra; split; auto. }
  constructor; rewrite ?Hf, ?Hm; cbn [left_of map lsum fold_right].
  - intros x Hx _. destruct (CI x Hx) as [I1 _]. eexists. split; [exact I1|].
    unfold lin_diag; cbn [f_V].
    rewrite (MB_neg (0 - a)), (MB_neg (0 - b)) by lra. rewrite !MB_min.
    destruct (EuvV x Hx) as [Hu Hv]. revert Hu Hv. generalize (Rmin a x) (Rmin b x).
    intros u v Hu Hv. unfold left_of; cbn.
    destruct Hu as [-> | [-> ->]]; [destruct Hv as [->| ->]|]; field; lra.
  - intros x Hx _. destruct (CI x Hx) as [_ I1]. eexists. split; [exact I1|].
    unfold lin_diag; cbn [f_V f_M].
    rewrite (MB_neg (0 - a)), (MB_neg (0 - b)) by lra. rewrite !MB_min.
    destruct (EuvV x Hx) as [Hu Hv]. revert Hu Hv. generalize (Rmin a x) (Rmin b x).
    intros u v Hu Hv. unfold left_of; cbn.
    destruct Hu as [-> | [-> ->]]; [destruct Hv as [->| ->]|]; field; lra.
  - destruct (CI L ltac:(lra)) as [_ I1]. eexists. split; [exact I1|].
    unfold lin_diag; cbn [f_V].
    rewrite (MB_neg (0 - a)), (MB_neg (0 - b)) by lra.
    rewrite !Rmin_left by lra. field; lra.
  - intros x _. unfold lin_diag; cbn [f_R f_M].
    match goal with |- is_derive (fun t => ?c0 * t^2 - ?c1 * _ - ?c2 * _ + ?c3 * _ + ?c4 * _ + ?r) x _ =>
      eapply (is_derive_lin4 (fun t => r + 0*t + c0*t^2 + 0*t^3 + 0*t^4)
        (fun t => MB (t-a)^3) (fun t => MB (t-a)^4) (fun t => MB (t-b)^3) (fun t => MB (t-b)^4)
        (-c1) (-c2) c3 c4)
    end.
    + apply poly4_derive.
    + apply MB_deriv3. + apply MB_deriv4. + apply MB_deriv3. + apply MB_deriv4.
    + intros t. ring.
    + field; lra.
  - intros x. unfold lin_diag; cbn [f_R].
    eapply is_derive_cont.
    match goal with |- is_derive (fun t => ?c0 * t^2 - ?c1 * _ - ?c2 * _ + ?c3 * _ + ?c4 * _ + ?r) x _ =>
      eapply (is_derive_lin4 (fun t => r + 0*t + c0*t^2 + 0*t^3 + 0*t^4)
        (fun t => MB (t-a)^3) (fun t => MB (t-a)^4) (fun t => MB (t-b)^3) (fun t => MB (t-b)^4)
        (-c1) (-c2) c3 c4)
    end.
    + apply poly4_derive.
    + apply MB_deriv3. + apply MB_deriv4. + apply MB_deriv3. + apply MB_deriv4.
    + intros t. ring.
    + reflexivity.
  - intros x. unfold lin_diag; cbn [f_R f_D].
    match goal with |- is_derive (fun t => ?c0 * t^3 - ?c1 * _ - ?c2 * _ + ?c3 * _ + ?c4 * _ + ?r * t) x _ =>
      eapply (is_derive_lin4 (fun t => 0 + r*t + 0*t^2 + c0*t^3 + 0*t^4)
        (fun t => MB (t-a)^4) (fun t => MB (t-a)^5) (fun t => MB (t-b)^4) (fun t => MB (t-b)^5)
        (-c1) (-c2) c3 c4)
    end.
    + apply poly4_derive.
    + apply MB_deriv4. + apply MB_deriv5. + apply MB_deriv4. + apply MB_deriv5.
    + intros t. ring.
    + field; lra.
  - unfold lin_diag; cbn [f_D]. rewrite (MB_neg (0 - a)), (MB_neg (0 - b)) by lra. field; lra.
  - unfold lin_diag; cbn [f_D]. rewrite (MB_pos (L - a)), (MB_pos (L - b)) by lra. field; lra.
Qed.

Lemma udl_span w L : 0 < L -> simple_span L (action_of L (LUDL w)) 0 0 (udl_diag w L).
Proof.
  intros HL.
  assert (CI : forall x, 0 <= x <= L ->
    is_RInt (fun _ => w) 0 x (w*x) /\ is_RInt (fun t => (x - t) * w) 0 x (w*x^2/2)).
  { intros x Hx.
    destruct (cut_integrals (fun _ => w) w 0 0 L x) as [I1 I2]; try lra; try (intros; lra).
    rewrite (Rmin_left 0 x), (Rmin_right L x) in I1, I2 by lra.
    split; [eapply is_RInt_eqval; [exact I1|inR; field]|eapply is_RInt_eqval; [exact I2|inR; field]]. }
  constructor; cbn [action_of intensity forces moments map lsum fold_right f_V f_M f_R f_D udl_diag].
  - intros x Hx _. exists (w*x). split; [apply CI; auto|]. unfold left_of; cbn. field.
  - intros x Hx _. exists (w*x^2/2). split; [apply CI; auto|]. unfold left_of; cbn. field.
  - exists (w*L^2/2). split; [apply CI; lra|]. field.
  - intros x _. auto_derive; [exact I|field].
  - intros x. eapply is_derive_cont. auto_derive; [exact I|reflexivity].
  - intros x. auto_derive; [exact I|field].
  - field.
  - field.
Qed.

Lemma pudl_span w a c L : 0 < L -> 0 <= a -> 0 <= c -> a + c <= L ->
  simple_span L (action_of L (LPUDL w a c)) 0 0 (pudl_diag w a c L).
Proof.
  intros HL Ha Hc Hac.
  apply (simple_span_ext _ _ _ _ (lin_diag w 0 a (a + c) L)).
  { unfold diag_eq, lin_diag, pudl_diag; cbn [f_V f_M f_R f_D].
    rewrite (Rplus_comm c a).
    repeat split; intros x; field; lra. }
  apply lin_simple_span; try lra; try reflexivity; cbn.
  - intros x Hx. destruct (Rlt_dec x a); lra.
  - intros x Hx. destruct (Rlt_dec x a); [lra|]. destruct (Rlt_dec (a + c) x); lra.
  - intros x Hx. destruct (Rlt_dec x a); [lra|]. destruct (Rlt_dec (a + c) x); lra.
Qed.

Lemma zero_span L A : 0 < L -> forces A = [] -> moments A = [] ->
  (forall x, 0 < x < L -> intensity A x = 0) ->
  simple_span L A 0 0 {| f_V := fun _ => 0; f_M := fun _ => 0; f_R := fun _ => 0; f_D := fun _ => 0 |}.
Proof.
  intros HL Hf Hm H0.
  apply (simple_span_ext _ _ _ _ (lin_diag 0 0 0 0 L)).
  { unfold diag_eq, lin_diag; cbn [f_V f_M f_R f_D]. repeat split; intros x; field; lra. }
  apply lin_simple_span; auto; try lra; intros; lra.
Qed.

Lemma trap_span w1 w2 a co L : 0 < L -> 0 <= a <= L ->
  match co with Some c => 0 <= c | None => True end ->
  simple_span L (action_of L (LTrap w1 w2 a co)) 0 0 (trap_diag w1 w2 a co L).
Proof.
  intros HL Ha Hc. unfold trap_diag, trap_resolve. cbn [action_of].
  set (c := match co with Some c => c | None => L - a end) in *.
  assert (Hc0 : 0 <= c) by (unfold c; destruct co; lra).
  clearbody c. clear Hc.
  rleb L a; cbn [orb].
  { rewrite (proj2 (Rleb_true 0 0)) by lra.
    apply zero_span; auto. intros x Hx. cbn. destruct (Rlt_dec x a); lra. }
  rleb c 0.
  { rewrite (proj2 (Rleb_true 0 0)) by lra.
    assert (c = 0) by lra. subst c.
    assert (S : simple_span L
       {| intensity := fun x => if Rlt_dec x a then 0 else if Rlt_dec (a+0) x then 0 else w1 + (w2-w1)*((x-a)/0);
          forces := []; moments := [] |} 0 0 (lin_diag 0 0 a a L)).
    { apply lin_simple_span; try lra; try reflexivity; cbn.
      - intros x Hx. destruct (Rlt_dec x a); lra.
      - intros; lra.
      - intros x Hx. destruct (Rlt_dec x a); [lra|]. destruct (Rlt_dec (a + 0) x); lra. }
    eapply simple_span_ext; [|exact S].
    unfold diag_eq, lin_diag; cbn [f_V f_M f_R f_D]. repeat split; intros x; field; lra. }
  rcase L (a + c).
  - rleb (L - a) 0; [lra|].
    eapply (simple_span_ext _ _ _ _ (lin_diag w1 ((w2 - w1)/c) a L L)).
    + unfold diag_eq, lin_diag; cbn [f_V f_M f_R f_D]. replace (a + (L - a)) with L by ring.
      repeat split; intros x; field; lra.
    + apply lin_simple_span; try lra; try reflexivity.
      * intros x Hx. cbn. destruct (Rlt_dec x a); lra.
      * intros x Hx. cbn. destruct (Rlt_dec x a); [lra|]. destruct (Rlt_dec (a + c) x); [lra|].
        field; lra.
      * intros; lra.
  - rleb c 0; [lra|].
    eapply (simple_span_ext _ _ _ _ (lin_diag w1 ((w2 - w1)/c) a (a + c) L)).
    + unfold diag_eq, lin_diag; cbn [f_V f_M f_R f_D].
      repeat split; intros x; field; lra.
    + apply lin_simple_span; try lra; try reflexivity.
      * intros x Hx. cbn. destruct (Rlt_dec x a); lra.
      * intros x Hx. cbn. destruct (Rlt_dec x a); [lra|]. destruct (Rlt_dec (a + c) x); [lra|].
        field; lra.
      * intros x Hx. cbn. destruct (Rlt_dec x a); [lra|]. destruct (Rlt_dec (a + c) x); lra.
Qed.

Lemma is_RInt_mult_zero (g : R -> R) a b : is_RInt (fun t => g t * 0) a b 0.
Proof.
  apply (is_RInt_ext (fun _ => 0)); [intros; inR; ring|apply is_RInt_zero].
Qed.

Lemma mamb_span Ma Mb L : 0 < L -> simple_span L no_action Ma Mb (mamb_diag Ma Mb L).
Proof.
  intros HL.
  constructor; cbn [no_action intensity forces moments map lsum fold_right f_V f_M f_R f_D mamb_diag].
  - intros x Hx _. exists 0. split; [apply is_RInt_zero|]. unfold left_of; cbn. field; lra.
  - intros x Hx _. exists 0. split; [apply is_RInt_mult_zero|].
    unfold left_of; cbn. field; lra.
  - exists 0. split; [apply is_RInt_mult_zero|]. field; lra.
  - intros x _. auto_derive; [exact I|field; lra].
  - intros x. eapply is_derive_cont. auto_derive; [exact I|reflexivity].
  - intros x. auto_derive; [exact I|field; lra].
  - field; lra.
  - field; lra.
Qed.

Lemma pl_span P a L : 0 < L -> 0 <= a <= L ->
  simple_span L (action_of L (LPL P a)) 0 0 (pl_diag P a L).
Proof.
  intros HL Ha. unfold pl_diag. rewrite Rmax_left by lra.
  constructor; cbn [action_of intensity forces moments map lsum fold_right f_V f_M f_R f_D fst snd].
  - intros x Hx Hf. exists 0. split; [apply is_RInt_zero|].
    specialize (Hf (P, a) (or_introl eq_refl)). cbn in Hf.
    unfold left_of, H; cbn. destruct (Rlt_dec (0 - a) 0), (Rlt_dec 0 (0 - a)), (Rlt_dec (x - a) 0),
      (Rlt_dec 0 (x - a)), (Rlt_dec a x); try lra; field; lra.
  - intros x Hx _. exists 0. split; [apply is_RInt_mult_zero|].
    unfold left_of, H; cbn. destruct (Rlt_dec (0 - a) 0), (Rlt_dec 0 (0 - a)), (Rlt_dec a x);
      first [rewrite (MB_neg (x - a)) by lra | rewrite (MB_pos (x - a)) by lra]; try lra; field; lra.
  - exists 0. split; [apply is_RInt_mult_zero|].
    unfold H. destruct (Rlt_dec (0 - a) 0), (Rlt_dec 0 (0 - a)); try lra; field; lra.
  - intros x _.
    match goal with |- is_derive (fun t => ?c0 * t^2 - ?c1 * _ + ?r) x _ =>
      eapply (is_derive_lin2 (fun t => r + 0*t + c0*t^2 + 0*t^3 + 0*t^4)
        (fun t => MB (t-a)^2) (fun t => 0) (-c1) 0) end.
    + apply poly4_derive. + apply MB_deriv2. + apply (@is_derive_const R_AbsRing R_NormedModule).
    + intros t. ring.
    + unfold zero; simpl. field; lra.
  - intros x. eapply is_derive_cont.
    match goal with |- is_derive (fun t => ?c0 * t^2 - ?c1 * _ + ?r) x _ =>
      eapply (is_derive_lin2 (fun t => r + 0*t + c0*t^2 + 0*t^3 + 0*t^4)
        (fun t => MB (t-a)^2) (fun t => 0) (-c1) 0) end.
    + apply poly4_derive. + apply MB_deriv2. + apply (@is_derive_const R_AbsRing R_NormedModule).
    + intros t. ring.
    + reflexivity.
  - intros x.
    match goal with |- is_derive (fun t => ?c0 * t^3 - ?c1 * _ + ?r * t) x _ =>
      eapply (is_derive_lin2 (fun t => 0 + r*t + 0*t^2 + c0*t^3 + 0*t^4)
        (fun t => MB (t-a)^3) (fun t => 0) (-c1) 0) end.
    + apply poly4_derive. + apply MB_deriv3. + apply (@is_derive_const R_AbsRing R_NormedModule).
    + intros t. ring.
    + unfold zero; simpl. field; lra.
  - rewrite MB_neg by lra. field; lra.
  - rewrite MB_pos by lra. field; lra.
Qed.

Lemma MB_cont (a x : R) : continuous (fun t => MB (t - a)) x.
Proof.
  apply (continuous_ext (fun t => (t - a + Rabs (t - a)) / 2)).
  - intros t. unfold MB, Rmax, Rabs. destruct (Rle_dec (t - a) 0), (Rcase_abs (t - a)); inR; lra.
  - apply continuity_pt_filterlim. apply continuity_pt_mult; [|apply continuity_pt_const; intros ? ?; reflexivity].
    apply continuity_pt_plus.
    + apply derivable_continuous_pt. apply derivable_pt_minus; [apply derivable_pt_id|apply derivable_pt_const].
    + apply (continuity_pt_comp (fun t => t - a) Rabs).
      * apply derivable_continuous_pt. apply derivable_pt_minus; [apply derivable_pt_id|apply derivable_pt_const].
      * apply Rcontinuity_abs.
Qed.

Lemma ml_span m a L : 0 < L -> 0 <= a <= L ->
  simple_span L (action_of L (LML m a)) 0 0 (ml_diag m a L).
Proof.
  intros HL Ha.
  constructor; cbn [action_of intensity forces moments map lsum fold_right f_V f_M f_R f_D fst snd ml_diag].
  - intros x Hx _. exists 0. split; [apply is_RInt_zero|]. unfold left_of; cbn. ring.
  - intros x Hx Hm. exists 0. split; [apply is_RInt_mult_zero|].
    specialize (Hm (m, a) (or_introl eq_refl)). cbn in Hm.
    unfold left_of, H; cbn. destruct (Rlt_dec (x - a) 0),
      (Rlt_dec 0 (x - a)), (Rlt_dec a x); try lra; field; lra.
  - exists 0. split; [apply is_RInt_mult_zero|]. field; lra.
  - intros x Hm. specialize (Hm (m, a) (or_introl eq_refl)). cbn in Hm.
    match goal with |- is_derive (fun t => ?c0 * t^2 - ?c1 * _ + ?r) x _ =>
      eapply (is_derive_lin2 (fun t => r + 0*t + c0*t^2 + 0*t^3 + 0*t^4)
        (fun t => MB (t-a)) (fun t => 0) (-c1) 0) end.
    + apply poly4_derive. + apply MB_deriv_away; lra. + apply (@is_derive_const R_AbsRing R_NormedModule).
    + intros t. ring.
    + unfold zero; simpl. unfold H. destruct (Rlt_dec (x - a) 0), (Rlt_dec 0 (x - a)); try lra; field; lra.
  - intros x.
    apply (continuous_ext' (fun t => (m / L / 2 * t^2 + m / 6 * (3 * (L - a)^2 / L - L)) + (- m) * MB (t - a)));
      [intros t; field; lra|].
    apply (@continuous_plus R_UniformSpace R_AbsRing R_NormedModule).
    + eapply is_derive_cont. auto_derive; [exact I|reflexivity].
    + apply (@continuous_scal_r R_UniformSpace R_AbsRing R_NormedModule (-m) (fun t => MB (t - a)) x (MB_cont a x)).
  - intros x.
    match goal with |- is_derive (fun t => ?c0 * t^3 - ?c1 * _ + ?r * t) x _ =>
      eapply (is_derive_lin2 (fun t => 0 + r*t + 0*t^2 + c0*t^3 + 0*t^4)
        (fun t => MB (t-a)^2) (fun t => 0) (-c1) 0) end.
    + apply poly4_derive. + apply MB_deriv2. + apply (@is_derive_const R_AbsRing R_NormedModule).
    + intros t. ring.
    + unfold zero; simpl. field; lra.
  - rewrite MB_neg by lra. field; lra.
  - rewrite MB_pos by lra. field; lra.
Qed.
