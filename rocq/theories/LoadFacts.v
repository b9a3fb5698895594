(** Fixed-end forces: the closed forms of the model are the virtual-work integrals. *)
From Coquelicot Require Import Coquelicot.
From Verif Require Import Base BaseFacts SectionModel LoadModel LoadSpec.
Open Scope R_scope.

(** Coquelicot equations live in R seen as a module; view them in R. *)
Ltac inR := match goal with |- ?a = ?b => change (@eq R a b) end.

(** Definite integral of a quartic. *)
Definition P4 (q0 q1 q2 q3 q4 x : R) := q0*x + q1*x^2/2 + q2*x^3/3 + q3*x^4/4 + q4*x^5/5.

Lemma is_RInt_quartic q0 q1 q2 q3 q4 a b :
  is_RInt (fun x => q0 + q1*x + q2*x^2 + q3*x^3 + q4*x^4) a b
          (P4 q0 q1 q2 q3 q4 b - P4 q0 q1 q2 q3 q4 a).
Proof.
  apply (is_RInt_derive (P4 q0 q1 q2 q3 q4)).
  - intros x _. unfold P4. auto_derive; [exact I|]. field.
  - intros x _. apply (@ex_derive_continuous R_AbsRing R_NormedModule). auto_derive. exact I.
Qed.

Lemma is_RInt_eqval (f : R -> R) a b v w : is_RInt f a b v -> v = w -> is_RInt f a b w.
Proof. intros Hf E. subst. exact Hf. Qed.

Lemma is_RInt_zero a b : is_RInt (fun _ : R => 0) a b 0.
Proof.
  eapply is_RInt_eqval; [apply (@is_RInt_const R_NormedModule)|].
  unfold scal; simpl. unfold mult; simpl. ring.
Qed.

(** Cubic weight times a linear intensity supported on [a, b] within [0, L]. *)
Lemma is_RInt_cubic_lin (g f : R -> R) g0 g1 g2 g3 w s L a b :
  0 <= a -> a <= b -> b <= L ->
  (forall x, g x = g0 + g1*x + g2*x^2 + g3*x^3) ->
  (forall x, 0 < x < a -> f x = 0) ->
  (forall x, a < x < b -> f x = w + s*x) ->
  (forall x, b < x < L -> f x = 0) ->
  let F := P4 (g0*w) (g0*s+g1*w) (g1*s+g2*w) (g2*s+g3*w) (g3*s) in
  is_RInt (fun x => g x * f x) 0 L (F b - F a).
Proof.
  intros Ha Hab HbL Hg H0 Hm H1 F.
  assert (I1 : is_RInt (fun x => g x * f x) 0 a 0).
  { apply (is_RInt_ext (fun _ => 0)); [|apply is_RInt_zero].
    intros x Hx. rewrite Rmin_left, Rmax_right in Hx by lra. rewrite H0 by lra. inR. ring. }
  assert (I2 : is_RInt (fun x => g x * f x) a b (F b - F a)).
  { apply (is_RInt_ext (fun x => g0*w + (g0*s+g1*w)*x + (g1*s+g2*w)*x^2 + (g2*s+g3*w)*x^3 + g3*s*x^4));
      [|apply is_RInt_quartic].
    intros x Hx. rewrite Rmin_left, Rmax_right in Hx by lra. rewrite Hg, Hm by lra. inR. ring. }
  assert (I3 : is_RInt (fun x => g x * f x) b L 0).
  { apply (is_RInt_ext (fun _ => 0)); [|apply is_RInt_zero].
    intros x Hx. rewrite Rmin_left, Rmax_right in Hx by lra. rewrite H1 by lra. inR. ring. }
  pose proof (is_RInt_Chasles _ _ _ _ _ _ (is_RInt_Chasles _ _ _ _ _ _ I1 I2) I3) as I4.
  eapply is_RInt_eqval; [exact I4|]. unfold plus; simpl. inR. ring.
Qed.

(** The five weights as cubics. *)
Definition cubic (g : R -> R) (g0 g1 g2 g3 : R) := forall x, g x = g0 + g1*x + g2*x^2 + g3*x^3.
Lemma cubic_N1 L : L <> 0 -> cubic (N1 L) 1 0 (-3/L^2) (2/L^3).
Proof. intros HL x. unfold N1. field. exact HL. Qed.
Lemma cubic_N2 L : L <> 0 -> cubic (N2 L) 0 1 (-2/L) (1/L^2).
Proof. intros HL x. unfold N2. field. exact HL. Qed.
Lemma cubic_N3 L : L <> 0 -> cubic (N3 L) 0 0 (3/L^2) (-2/L^3).
Proof. intros HL x. unfold N3. field. exact HL. Qed.
Lemma cubic_N4 L : L <> 0 -> cubic (N4 L) 0 0 (-1/L) (1/L^2).
Proof. intros HL x. unfold N4. field. exact HL. Qed.

(** A distributed action with linear intensity on [a,b]. *)
Lemma resultant_lin L A g dg g0 g1 g2 g3 w s a b W :
  0 <= a -> a <= b -> b <= L -> cubic g g0 g1 g2 g3 ->
  forces A = [] -> moments A = [] ->
  (forall x, 0 < x < a -> intensity A x = 0) ->
  (forall x, a < x < b -> intensity A x = w + s*x) ->
  (forall x, b < x < L -> intensity A x = 0) ->
  W = P4 (g0*w) (g0*s+g1*w) (g1*s+g2*w) (g2*s+g3*w) (g3*s) b
      - P4 (g0*w) (g0*s+g1*w) (g1*s+g2*w) (g2*s+g3*w) (g3*s) a ->
  resultant L A g dg W.
Proof.
  intros Ha Hab HbL Hg Hf Hm H0 H1 H2 ->.
  eexists. split; [eapply is_RInt_cubic_lin; eauto|].
  rewrite Hf, Hm. cbn. ring.
Qed.

(** A point force or moment: the distributed part integrates to zero. *)
Lemma resultant_point L A g dg W :
  (forall x, intensity A x = 0) ->
  W = lsum (map (fun pa => fst pa * g (snd pa)) (forces A))
      - lsum (map (fun ma => fst ma * dg (snd ma)) (moments A)) ->
  resultant L A g dg W.
Proof.
  intros H0 ->. exists 0. split; [|ring].
  apply (is_RInt_ext (fun _ => 0)); [|apply is_RInt_zero].
  intros x _. rewrite H0. inR. ring.
Qed.

Lemma fef_lin L A w s a b e :
  0 < L -> 0 <= a -> a <= b -> b <= L ->
  forces A = [] -> moments A = [] ->
  (forall x, 0 < x < a -> intensity A x = 0) ->
  (forall x, a < x < b -> intensity A x = w + s*x) ->
  (forall x, b < x < L -> intensity A x = 0) ->
  (let F g0 g1 g2 g3 x := P4 (g0*w) (g0*s+g1*w) (g1*s+g2*w) (g2*s+g3*w) (g3*s) x in
   c_Va e = F 1 0 (-3/L^2) (2/L^3) b - F 1 0 (-3/L^2) (2/L^3) a /\
   c_Ma e = F 0 1 (-2/L) (1/L^2) b - F 0 1 (-2/L) (1/L^2) a /\
   c_Vb e = F 0 0 (3/L^2) (-2/L^3) b - F 0 0 (3/L^2) (-2/L^3) a /\
   c_Mb e = F 0 0 (-1/L) (1/L^2) b - F 0 0 (-1/L) (1/L^2) a) ->
  fixed_end_forces L A e.
Proof.
  intros HL Ha Hab HbL Hf Hm H0 H1 H2 (E1 & E2 & E3 & E4).
  assert (HL0 : L <> 0) by lra.
  repeat split; eapply resultant_lin; eauto using cubic_N1, cubic_N2, cubic_N3, cubic_N4.
Qed.

Lemma udl_fef w L : 0 < L -> fixed_end_forces L (action_of L (LUDL w)) (udl_cnl w L).
Proof.
  intros HL.
  eapply (fef_lin L _ w 0 0 L); try lra; try reflexivity; cbn; try (intros; lra).
  unfold P4. repeat split; field; lra.
Qed.

Lemma pl_fef P a L : 0 < L -> 0 <= a <= L ->
  fixed_end_forces L (action_of L (LPL P a)) (pl_cnl P a L).
Proof.
  intros HL Ha. unfold pl_cnl. rewrite Rmax_left by lra.
  repeat split; apply resultant_point; try reflexivity; cbn;
    unfold N1, N2, N3, N4; field; lra.
Qed.

Lemma ml_fef m a L : 0 < L ->
  fixed_end_forces L (action_of L (LML m a)) (ml_cnl m a L).
Proof.
  intros HL. unfold ml_cnl.
  repeat split; apply resultant_point; try reflexivity; cbn;
    unfold dN1, dN2, dN3, dN4; field; lra.
Qed.

Lemma pudl_fef w a c L e : 0 < L -> 0 <= a <= L -> 0 <= c ->
  pudl_cnl w a c L = Ok e ->
  fixed_end_forces L (action_of L (LPUDL w a c)) e.
Proof.
  intros HL Ha Hc. unfold pudl_cnl. rcase L a; [lra|]. intros He.
  set (c' := if Rltb (L - (a + c)) 0 then c + (L - (a + c)) else c) in *.
  assert (Hc' : c' = Rmin c (L - a)).
  { unfold c'. rcase (L - (a + c)) 0; unfold Rmin; destruct (Rle_dec c (L - a)); lra. }
  assert (Hc'0 : 0 <= c') by (rewrite Hc'; apply Rmin_glb; lra).
  assert (Hc'L : c' <= L - a) by (rewrite Hc'; apply Rmin_r).
  assert (Hc'c : c' <= c) by (rewrite Hc'; apply Rmin_l).
  eapply (fef_lin L _ w 0 a (a + c')); try lra; try reflexivity.
  - intros x Hx. cbn. destruct (Rlt_dec x a); lra.
  - intros x Hx. cbn. destruct (Rlt_dec x a); [lra|]. destruct (Rlt_dec (a + c) x); lra.
  - intros x Hx. cbn. destruct (Rlt_dec x a); [lra|]. destruct (Rlt_dec (a + c) x); [lra|].
    exfalso. rewrite Hc' in Hx. unfold Rmin in Hx. destruct (Rle_dec c (L - a)); lra.
  - injection He as <-. clearbody c'. cbn. unfold P4. repeat split; field; lra.
Qed.

Lemma trap_fef w1 w2 a co L : 0 < L -> 0 <= a <= L ->
  match co with Some c => 0 <= c | None => True end ->
  fixed_end_forces L (action_of L (LTrap w1 w2 a co)) (trap_cnl w1 w2 a co L).
Proof.
  intros HL Ha Hc. unfold trap_cnl, trap_resolve. cbn [action_of].
  set (c := match co with Some c => c | None => L - a end) in *.
  assert (Hc0 : 0 <= c) by (unfold c; destruct co; lra).
  clearbody c. clear Hc.
  rleb L a; cbn [orb].
  { (* load starts at the far end *)
    rewrite (proj2 (Rleb_true 0 0)) by lra.
    eapply (fef_lin L _ 0 0 L L); try lra; try reflexivity; cbn.
    - intros x Hx. destruct (Rlt_dec x a); lra.
    - intros; lra.
    - intros; lra.
    - unfold P4. repeat split; field; lra. }
  rleb c 0.
  { rewrite (proj2 (Rleb_true 0 0)) by lra.
    eapply (fef_lin L _ 0 0 a a); try lra; try reflexivity; cbn.
    - intros x Hx. destruct (Rlt_dec x a); lra.
    - intros; lra.
    - intros x Hx. destruct (Rlt_dec x a); [lra|]. destruct (Rlt_dec (a + c) x); lra.
    - unfold P4. repeat split; field; lra. }
  rcase L (a + c).
  - rleb (L - a) 0; [lra|].
    eapply (fef_lin L _ (w1 - (w2 - w1) * a / c) ((w2 - w1) / c) a L); try lra; try reflexivity.
    + intros x Hx. cbn. destruct (Rlt_dec x a); lra.
    + intros x Hx. cbn. destruct (Rlt_dec x a); [lra|]. destruct (Rlt_dec (a + c) x); [lra|].
      field; lra.
    + intros; lra.
    + cbn. unfold P4. repeat split; field; lra.
  - rleb c 0; [lra|].
    eapply (fef_lin L _ (w1 - (w2 - w1) * a / c) ((w2 - w1) / c) a (a + c)); try lra; try reflexivity.
    + intros x Hx. cbn. destruct (Rlt_dec x a); lra.
    + intros x Hx. cbn. destruct (Rlt_dec x a); [lra|]. destruct (Rlt_dec (a + c) x); [lra|].
      field; lra.
    + intros x Hx. cbn. destruct (Rlt_dec x a); [lra|]. destruct (Rlt_dec (a + c) x); lra.
    + cbn. unfold P4. repeat split; field; lra.
Qed.
