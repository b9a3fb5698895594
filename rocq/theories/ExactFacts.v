(** Members of the model are bent members. *)
From Coquelicot Require Import Coquelicot.
From Coq Require Import Lia.
From Verif Require Import Base BaseFacts Linalg SectionModel FlexModel LoadModel LoadSpec LoadFacts DiagFacts ClampFacts ReleaseFacts FoundationModel ElementModel ElementSpec ElementFacts ElementFacts2 TimoFacts
  UtilsModel BeamModel AnalysisModel AnalysisSpec ResultsModel ResultsSpec ResultsFacts BedFacts2 ExactSpec.
Open Scope R_scope.

(** ** Integrals and finitely many exceptions *)
Lemma RInt_except (l : list R) : forall (f g : R -> R) a b I, a <= b ->
  (forall x, a < x < b -> ~ In x l -> f x = g x) -> is_RInt f a b I -> is_RInt g a b I.
Proof.
  induction l as [|c l IH]; intros f g a b I Hab E HI.
  - eapply is_RInt_ext; [|exact HI]. intros x Hx. rewrite Rmin_left, Rmax_right in Hx by exact Hab. apply E; [exact Hx|intros []].
  - destruct (Rlt_dec a c) as [h1|h1]; [destruct (Rlt_dec c b) as [h2|h2]|].
    + assert (X : ex_RInt f a b) by (exists I; exact HI).
      assert (X1 : ex_RInt f a c) by (apply (ex_RInt_Chasles_1 f a c b); [lra|exact X]).
      assert (X2 : ex_RInt f c b) by (apply (ex_RInt_Chasles_2 f a c b); [lra|exact X]).
      destruct X1 as [I1 X1], X2 as [I2 X2].
      assert (EI : I = plus I1 I2).
      { rewrite <- (is_RInt_unique (V := R_CompleteNormedModule) _ _ _ _ HI). apply (is_RInt_unique (V := R_CompleteNormedModule)).
        exact (is_RInt_Chasles _ _ _ _ _ _ X1 X2). }
      rewrite EI. apply (is_RInt_Chasles g a c b).
      * apply (IH f g a c I1); [lra| |exact X1]. intros x Hx Hn. apply E; [lra|]. intros [Q|Q]; [lra|exact (Hn Q)].
      * apply (IH f g c b I2); [lra| |exact X2]. intros x Hx Hn. apply E; [lra|]. intros [Q|Q]; [lra|exact (Hn Q)].
    + apply (IH f g a b I Hab); [|exact HI]. intros x Hx Hn. apply E; [exact Hx|]. intros [Q|Q]; [lra|exact (Hn Q)].
    + apply (IH f g a b I Hab); [|exact HI]. intros x Hx Hn. apply E; [exact Hx|]. intros [Q|Q]; [lra|exact (Hn Q)].
Qed.
Lemma RInt_same (f : R -> R) a b I J : is_RInt f a b I -> is_RInt f a b J -> I = J.
Proof.
  intros H1 H2. rewrite <- (is_RInt_unique (V := R_CompleteNormedModule) _ _ _ _ H1). exact (is_RInt_unique (V := R_CompleteNormedModule) _ _ _ _ H2).
Qed.
Lemma RInt_sub (f : R -> R) L I : is_RInt f 0 L I -> forall x, 0 <= x <= L -> is_RInt f 0 x (RInt f 0 x).
Proof.
  intros H x Hx. apply (RInt_correct (V := R_CompleteNormedModule)). apply (ex_RInt_Chasles_1 f 0 x L Hx). exists I. exact H.
Qed.
Lemma RInt_ext_all (f g : R -> R) a b I : (forall x, f x = g x) -> is_RInt f a b I -> is_RInt g a b I.
Proof. intros E. apply is_RInt_ext. intros x _. apply E. Qed.

(** ** Superposition and uniqueness *)
Lemma angle_plus ga u v : shear_angle ga (u + v) = shear_angle ga u + shear_angle ga v.
Proof. destruct ga as [g|]; cbn [shear_angle]; [unfold Rdiv; ring|ring]. Qed.
Lemma bent_plus L ei ga k1 k2 A B f g V1 M1 t1 y1 V2 M2 t2 y2 :
  bent_member L ei ga k1 A f V1 M1 t1 y1 -> bent_member L ei ga k2 B g V2 M2 t2 y2 ->
  bent_member L ei ga (fun x => k1 x + k2 x) (action_plus A B) (fun i => f i + g i) (fun x => V1 x + V2 x) (fun x => M1 x + M2 x)
    (fun x => t1 x + t2 x) (fun x => y1 x + y2 x).
Proof.
  intros [a1 a2 a3 a4] [b1 b2 b3 b4]. constructor.
  - exact (cut_plus _ _ _ _ _ _ _ _ _ _ _ _ _ a1 b1).
  - assert (Q := result_of_both _ _ _ _ _ _ _ a2 b2). unfold total_load. replace (f 0%nat + g 0%nat + (f 2%nat + g 2%nat)) with (f 0%nat + f 2%nat + (g 0%nat + g 2%nat)) by ring. exact Q.
  - intros x Hx. eapply is_RInt_eqval; [eapply RInt_ext_all; [|exact (is_RInt_plus _ _ _ _ _ _ (a3 x Hx) (b3 x Hx))]|].
    + intros t. unfold plus. cbn. unfold Rdiv. ring.
    + unfold plus. cbn. ring.
  - intros x Hx. eapply is_RInt_eqval; [eapply RInt_ext_all; [|exact (is_RInt_plus _ _ _ _ _ _ (a4 x Hx) (b4 x Hx))]|].
    + intros t. rewrite angle_plus. unfold plus. cbn. ring.
    + unfold plus. cbn. ring.
Qed.
Lemma bent_ext L ei ga k k' A f f' V M th y : bent_member L ei ga k A f V M th y -> (forall x, k x = k' x) -> eq4 f f' ->
  bent_member L ei ga k' A f' V M th y.
Proof.
  intros [a1 a2 a3 a4] Hk Hf. constructor.
  - rewrite <- !Hf by lia. exact a1.
  - rewrite <- !Hf by lia. exact a2.
  - intros x Hx. refine (RInt_ext_all _ _ _ _ _ _ (a3 x Hx)). intros t. cbn. rewrite Hk. reflexivity.
  - exact a4.
Qed.
(** Other diagrams in equilibrium with the same forces. *)
Lemma away_list x (l : list (R * R)) : ~ In x (map snd l) -> away_from x l.
Proof. intros H p Hp E. apply H. rewrite <- E. apply in_map, Hp. Qed.
Lemma bent_curves L ei ga k A f V M th y V' M' : bent_member L ei ga k A f V M th y -> cut_equilibrium L A (f 0%nat) (f 1%nat) (f 3%nat) V' M' ->
  bent_member L ei ga k A f V' M' th y.
Proof.
  intros [a1 a2 a3 a4] C. constructor; [exact C|exact a2|..].
  - intros x Hx. apply (RInt_except (map snd (moments A)) (fun t => M t / ei + k t)); [lra| |exact (a3 x Hx)].
    intros t Ht Hn. apply away_list in Hn. destruct (ce_moment _ _ _ _ _ _ _ a1 t ltac:(lra) Hn) as (I & i1 & e1), (ce_moment _ _ _ _ _ _ _ C t ltac:(lra) Hn) as (J & j1 & e2).
    rewrite (RInt_same _ _ _ _ _ i1 j1) in e1. rewrite e1, e2. reflexivity.
  - intros x Hx. apply (RInt_except (map snd (forces A)) (fun t => th t - shear_angle ga (V t))); [lra| |exact (a4 x Hx)].
    intros t Ht Hn. apply away_list in Hn. destruct (ce_shear _ _ _ _ _ _ _ a1 t ltac:(lra) Hn) as (I & i1 & e1), (ce_shear _ _ _ _ _ _ _ C t ltac:(lra) Hn) as (J & j1 & e2).
    rewrite (RInt_same _ _ _ _ _ i1 j1) in e1. rewrite e1, e2. reflexivity.
Qed.

(** The end displacements of a member determine its end forces. *)
Definition flex (ga : option R) : R := match ga with None => 0 | Some g => / g end.
Lemma angle_flex ga v : shear_angle ga v = v * flex ga.
Proof. destruct ga; cbn; [reflexivity|ring]. Qed.
Lemma bent_unique L ei ga k A f g V M th y V' M' th' y' : 0 < L -> 0 < ei -> 0 <= flex ga ->
  bent_member L ei ga k A f V M th y -> bent_member L ei ga k A g V' M' th' y' ->
  y 0 = y' 0 -> y L = y' L -> th 0 = th' 0 -> th L = th' L -> eq4 f g.
Proof.
  intros HL HE HG [a1 a2 a3 a4] [b1 b2 b3 b4] E1 E2 E3 E4.
  set (p := f 0%nat - g 0%nat). set (q := f 1%nat - g 1%nat).
  assert (TH : forall x, 0 <= x <= L -> th x - th' x = (p * x^2 / 2 - q * x) / ei).
  { intros x Hx. assert (S := is_RInt_minus _ _ _ _ _ _ (a3 x Hx) (b3 x Hx)).
    apply (RInt_except (map snd (moments A)) _ (fun t => (- q / ei) + (p / ei) * t + 0 * t^2 + 0 * t^3 + 0 * t^4)) in S; [|lra|].
    - assert (Q := RInt_same _ _ _ _ _ S (is_RInt_quartic _ _ _ _ _ _ _)). unfold minus, plus, opp in Q. cbn [AbelianGroup.plus AbelianGroup.opp] in Q. cbn in Q.
      unfold P4 in Q. rewrite E3 in Q. transitivity (th x - th' 0 + - (th' x - th' 0)); [ring|]. etransitivity; [exact Q|]. field. lra.
    - intros t Ht Hn. apply away_list in Hn. destruct (ce_moment _ _ _ _ _ _ _ a1 t ltac:(lra) Hn) as (I & i1 & e1), (ce_moment _ _ _ _ _ _ _ b1 t ltac:(lra) Hn) as (J & j1 & e2).
      rewrite (RInt_same _ _ _ _ _ i1 j1) in e1. unfold minus, plus, opp. cbn. rewrite e1, e2. unfold p, q. field. lra. }
  assert (Y : p * L^3 / 6 / ei - q * L^2 / 2 / ei - p * flex ga * L = 0).
  { assert (S := is_RInt_minus _ _ _ _ _ _ (a4 L ltac:(lra)) (b4 L ltac:(lra))).
    apply (RInt_except (map snd (forces A)) _ (fun t => (- p * flex ga) + (- q / ei) * t + (p / 2 / ei) * t^2 + 0 * t^3 + 0 * t^4)) in S; [|lra|].
    - assert (Q := RInt_same _ _ _ _ _ S (is_RInt_quartic _ _ _ _ _ _ _)). unfold minus, plus, opp in Q. cbn in Q.
      unfold P4 in Q. rewrite E1, E2 in Q. transitivity (y' L - y' 0 + - (y' L - y' 0)); [|ring]. symmetry. etransitivity; [exact Q|]. field. lra.
    - intros t Ht Hn. apply away_list in Hn. destruct (ce_shear _ _ _ _ _ _ _ a1 t ltac:(lra) Hn) as (I & i1 & e1), (ce_shear _ _ _ _ _ _ _ b1 t ltac:(lra) Hn) as (J & j1 & e2).
      rewrite (RInt_same _ _ _ _ _ i1 j1) in e1. unfold minus, plus, opp. cbn. rewrite !angle_flex, e1, e2.
      assert (T := TH t ltac:(lra)). replace (th t) with (th' t + (p * t^2 / 2 - q * t) / ei) by lra. unfold p. field. lra. }
  assert (T := TH L ltac:(lra)). rewrite E4 in T.
  assert (Hq : q = p * L / 2).
  { apply (Rmult_eq_reg_r (L / ei)); [|apply Rgt_not_eq, Rdiv_lt_0_compat; lra]. assert (T' : (p * L^2 / 2 - q * L) / ei = 0) by lra.
    replace (q * (L / ei)) with (p * L^2 / 2 / ei - (p * L^2 / 2 - q * L) / ei) by (field; lra). rewrite T'. field. lra. }
  assert (Hp : p = 0).
  { rewrite Hq in Y. assert (Y' : p * (L^3 / (12 * ei) + flex ga * L) = 0) by (transitivity (- (p * L ^ 3 / 6 / ei - p * L / 2 * L ^ 2 / 2 / ei - p * flex ga * L)); [field; lra|rewrite Y; ring]).
    apply Rmult_integral in Y' as [Y'|Y']; [exact Y'|exfalso].
    assert (0 < L^3 / (12 * ei)) by (apply Rdiv_lt_0_compat; [apply pow_lt; exact HL|lra]). assert (0 <= flex ga * L) by (apply Rmult_le_pos; lra). lra. }
  rewrite Hp in Hq. assert (F0 : f 0%nat = g 0%nat) by (unfold p in Hp; lra). assert (F1 : f 1%nat = g 1%nat) by (unfold q in Hq; lra).
  destruct a2 as (I & i1 & e1), b2 as (J & j1 & e2). rewrite (RInt_same _ _ _ _ _ i1 j1) in e1.
  destruct (ce_far_end _ _ _ _ _ _ _ a1) as (I' & i2 & e3), (ce_far_end _ _ _ _ _ _ _ b1) as (J' & j2 & e4). rewrite (RInt_same _ _ _ _ _ i2 j2) in e3.
  intros i Hi. destruct i as [|[|[|[|i]]]]; [..|lia].
  - exact F0.
  - exact F1.
  - lra.
  - rewrite e3, e4, F0, F1. reflexivity.
Qed.

(** ** Unloaded members and imposed curvatures *)
Lemma poly_bent L ei ga f k0 k1 k2 t0 y0 : f 0%nat + f 2%nat = 0 -> f 3%nat = - f 1%nat + f 0%nat * L -> ei <> 0 ->
  bent_member L ei ga (fun x => k0 + k1 * x + k2 * x^2) no_action f (fun _ => f 0%nat) (fun x => - f 1%nat + f 0%nat * x)
    (fun x => t0 + (f 0%nat * x^2 / 2 - f 1%nat * x) / ei + (k0 * x + k1 * x^2 / 2 + k2 * x^3 / 3))
    (fun x => y0 + t0 * x + (f 0%nat * x^3 / 6 - f 1%nat * x^2 / 2) / ei + (k0 * x^2 / 2 + k1 * x^3 / 6 + k2 * x^4 / 12) - f 0%nat * flex ga * x).
Proof.
  intros B1 B2 HE. constructor.
  - constructor; cbn.
    + intros x _ _. exists 0. split; [apply is_RInt_zero|unfold left_of; cbn; ring].
    + intros x _ _. exists 0. split; [apply is_RInt_mult_zero|unfold left_of; cbn; ring].
    + exists 0. split; [apply is_RInt_mult_zero|rewrite B2; ring].
  - rewrite B1. exists 0. split; [apply is_RInt_mult_zero|cbn; ring].
  - intros x _. eapply is_RInt_eqval; [eapply RInt_ext_all; [|apply (is_RInt_quartic (k0 - f 1%nat / ei) (k1 + f 0%nat / ei) k2 0 0 0 x)]|].
    + intros t. cbv beta. inR. field. exact HE.
    + unfold P4. inR. field. exact HE.
  - intros x _. eapply is_RInt_eqval; [eapply RInt_ext_all; [|apply (is_RInt_quartic (t0 - f 0%nat * flex ga) (k0 - f 1%nat / ei) (k1 / 2 + f 0%nat / 2 / ei) (k2 / 3) 0 0 x)]|].
    + intros t. cbv beta. rewrite angle_flex. inR. field. exact HE.
    + unfold P4. inR. field. exact HE.
Qed.

(** ** Fixed-end forces clamp the member *)
Definition clamps (L ei : R) (ga : option R) (kap : R -> R) (A : action) (f : vec) : Prop :=
  exists V M th y, bent_member L ei ga kap A f V M th y /\ th 0 = 0 /\ th L = 0 /\ y 0 = 0 /\ y L = 0.

Lemma ml_moment_int m a L x : 0 <= a <= L -> 0 <= x <= L ->
  is_RInt (f_M (ml_diag m a L)) 0 x (f_R (ml_diag m a L) x - f_R (ml_diag m a L) 0).
Proof.
  intros Ha Hx. cbn [ml_diag f_M f_R]. set (hv := if Req_EM_T a 0 then 1 else _). clearbody hv.
  set (va := m / L). set (ra := m / 6 * _). rewrite (MB_neg (0 - a)) by lra.
  destruct (Rle_dec x a) as [h|h].
  - rewrite (MB_neg (x - a)) by lra.
    apply (is_RInt_ext (fun t => 0 + va * t + 0 * t^2 + 0 * t^3 + 0 * t^4)).
    + intros t Ht. rewrite Rmin_left, Rmax_right in Ht by lra. unfold H. destruct (Rlt_dec (t - a) 0); [|lra]. inR. ring.
    + eapply is_RInt_eqval; [apply is_RInt_quartic|]. unfold P4. inR. field.
  - rewrite (MB_pos (x - a)) by lra. eapply is_RInt_eqval; [apply (is_RInt_Chasles _ 0 a x)|].
    + apply (is_RInt_ext (fun t => 0 + va * t + 0 * t^2 + 0 * t^3 + 0 * t^4)); [|apply is_RInt_quartic].
      intros t Ht. rewrite Rmin_left, Rmax_right in Ht by lra. unfold H. destruct (Rlt_dec (t - a) 0); [|lra]. inR. ring.
    + apply (is_RInt_ext (fun t => - m + va * t + 0 * t^2 + 0 * t^3 + 0 * t^4)); [|apply is_RInt_quartic].
      intros t Ht. rewrite Rmin_left, Rmax_right in Ht by lra. unfold H. destruct (Rlt_dec (t - a) 0); [lra|]. destruct (Rlt_dec 0 (t - a)); [|lra]. inR. ring.
    + unfold plus. cbn. unfold P4. field.
Qed.
Lemma load_moment_int ld L d x : 0 < L -> within_member L ld -> match ld with LMaMb _ _ | LIC _ _ => False | _ => True end ->
  diag_of ld L = Some d -> 0 <= x <= L -> is_RInt (f_M d) 0 x (f_R d x - f_R d 0).
Proof.
  intros HL Hw Hk Ed Hx. assert (S := diag_span ld L d HL Hw Ed).
  assert (T : transverse ld -> is_RInt (f_M d) 0 x (f_R d x - f_R d 0)).
  { intros T. destruct (trans_cont ld L d HL T Hw Ed) as [C _]. apply (is_RInt_derive (f_R d) (f_M d)).
    - intros t _. apply (ss_slope _ _ _ _ _ S). intros p Hp. destruct ld; try contradiction; destruct Hp.
    - intros t _. apply C. }
  destruct ld; try contradiction; try (apply T; exact I).
  cbn in Ed. injection Ed as <-. apply ml_moment_int; [exact (proj1 Hw)|exact Hx].
Qed.
Lemma clamps_eb gl ld L ei c : 0 < L -> 0 < ei -> within_member L ld -> match ld with LMaMb _ _ | LIC _ _ => False | _ => True end ->
  get_cnl gl ld L = Ok c -> clamps L ei None (fun _ => 0) (action_of L ld) (cnl_vec c).
Proof.
  intros HL HE Hw Hk Hc. destruct (diag_of ld L) as [d|] eqn:Ed; [|destruct ld; try contradiction; discriminate].
  assert (C := get_cnl_clamped gl ld L c d HL Hw Hk Hc Ed). set (D := diag_add _ d) in C. destruct C as [S R0 RL V0 VB].
  assert (IM : forall x, 0 <= x <= L -> is_RInt (f_M D) 0 x (f_R D x - f_R D 0)).
  { intros x Hx. eapply is_RInt_eqval; [eapply RInt_ext_all; [|exact (is_RInt_plus _ _ _ _ _ _
      (is_RInt_quartic (- c_Ma c) ((c_Ma c + c_Mb c) / L) 0 0 0 0 x) (load_moment_int ld L d x HL Hw Hk Ed Hx))]|].
    - intros t. unfold D, diag_add, plus. cbn. ring.
    - unfold D, diag_add, plus, P4. cbn. field. lra. }
  exists (f_V D), (f_M D), (fun x => f_R D x / ei), (fun x => f_D D x / ei). split; [|rewrite R0, RL, (ss_left _ _ _ _ _ S), (ss_right _ _ _ _ _ S); repeat split; unfold Rdiv; ring].
  constructor.
  - cbn [cnl_vec vec4]. rewrite <- V0. exact (span_cut _ _ _ _ _ S).
  - exact VB.
  - intros x Hx. eapply is_RInt_eqval; [eapply RInt_ext_all; [|exact (is_RInt_scal _ _ _ (/ ei) _ (IM x Hx))]|].
    + intros t. unfold scal. cbn. unfold mult. cbn. unfold Rdiv. ring.
    + unfold scal. cbn. unfold mult. cbn. unfold Rdiv. ring.
  - intros x Hx. assert (ID : is_RInt (f_R D) 0 x (f_D D x - f_D D 0)).
    { apply (is_RInt_derive (f_D D) (f_R D)); intros t _; [apply (ss_deflection _ _ _ _ _ S)|apply (ss_slope_cont _ _ _ _ _ S)]. }
    eapply is_RInt_eqval; [eapply RInt_ext_all; [|exact (is_RInt_scal _ _ _ (/ ei) _ ID)]|].
    + intros t. unfold scal. cbn. unfold mult. cbn. unfold Rdiv. ring.
    + unfold scal. cbn. unfold mult. cbn. unfold Rdiv. ring.
Qed.
Lemma clamps_timo gl ld L ei g v : 0 < L -> 0 < ei -> 0 < g -> within_member L ld -> transverse ld ->
  ref_timoshenko gl ld (RConst ei) (RConst g) L 1 = Ok v -> clamps L ei (Some g) (fun _ => 0) (action_of L ld) v.
Proof.
  intros HL HE HG Hw Ht Hv. destruct (diag_of ld L) as [d|] eqn:Ed; [|destruct ld; try contradiction; discriminate].
  destruct (timo_clamped gl ld ei g L v d HL HE HG Ht Hw Ed Hv) as (C1 & C2 & B & psi & P1 & P2 & P3). set (D := diag_add _ d) in *.
  assert (P0 : psi 0 = 0).
  { assert (Q := is_RInt_point (V := R_NormedModule) (fun t => f_M D t / ei) 0). exact (RInt_same _ _ _ _ _ (P1 0 ltac:(lra)) Q). }
  assert (IY := RInt_sub _ _ _ P3). set (y := RInt (fun t => psi t - f_V D t / g) 0) in IY.
  assert (Y0 : y 0 = 0).
  { assert (Q := is_RInt_point (V := R_NormedModule) (fun t => psi t - f_V D t / g) 0). exact (RInt_same _ _ _ _ _ (IY 0 ltac:(lra)) Q). }
  assert (YL : y L = 0) by exact (RInt_same _ _ _ _ _ (IY L ltac:(lra)) P3).
  exists (f_V D), (f_M D), psi, y. split; [|auto]. constructor.
  - constructor; [exact C1|exact C2|].
    destruct (diag_span ld L d HL Hw Ed) as [_ _ (J & j1 & e2) _ _ _ _ _].
    exists J. split; [exact j1|].
    assert (Ez : end_moments ld = (0, 0)) by (destruct ld; try contradiction; reflexivity). rewrite Ez in e2. cbn [fst snd] in e2.
    assert (NM : moments (action_of L ld) = []) by (destruct ld; try contradiction; reflexivity). rewrite NM in *. change (lsum (map fst (@nil (R * R)))) with 0 in *.
    assert (E0 : v 0%nat = f_V d 0 + (v 1%nat + v 3%nat) / L).
    { unfold ref_timoshenko in Hv. apply rbind_ok in Hv as (c & Hc & Hv). cbn [rbind] in Hv.
      assert (Hk : match ld with LMaMb _ _ | LIC _ _ => False | _ => True end) by (destruct ld; try contradiction; exact I).
      destruct (get_cnl_clamped gl ld L c d HL Hw Hk Hc Ed) as [_ _ _ CVa _]. unfold diag_add in CVa. cbn [f_V mamb_diag] in CVa.
      unfold release_from in Hv. injection Hv as <-. cbn [vec4]. lra. }
    rewrite E0. rewrite Rmult_plus_distr_r. replace ((v 1%nat + v 3%nat) / L * L) with (v 1%nat + v 3%nat) by (field; lra). lra.
  - exact (proj1 B).
  - intros x Hx. rewrite P0. eapply is_RInt_eqval; [eapply RInt_ext_all; [|exact (P1 x Hx)]|symmetry; apply Rminus_0_r]. intros t. cbn. ring.
  - intros x Hx. rewrite Y0. eapply is_RInt_eqval; [eapply RInt_ext_all; [|exact (IY x Hx)]|symmetry; apply Rminus_0_r]. intros t. reflexivity.
Qed.

(** Imposed curvatures given by at most three coefficients. *)
Lemma kappa_short k : (length k <= 3)%nat -> exists k0 k1 k2, forall x, kappa_imp k x = k0 + k1 * x + k2 * x^2 /\ kappa_imp k x = kappa_imp [k0; k1; k2] x.
Proof.
  intros H. destruct k as [|a [|b [|c [|e k]]]]; [..|cbn in H; lia].
  - exists 0, 0, 0. intros x. unfold kappa_imp, polyval. cbn. split; ring.
  - exists a, 0, 0. intros x. unfold kappa_imp, polyval. cbn. split; ring.
  - exists a, b, 0. intros x. unfold kappa_imp, polyval. cbn. split; ring.
  - exists a, b, c. intros x. unfold kappa_imp, polyval. cbn. split; ring.
Qed.
Lemma theta_short k L : 0 < L -> (length k <= 3)%nat -> exists k0 k1 k2, (forall x, kappa_imp k x = k0 + k1 * x + k2 * x^2) /\
  ic_theta0 k [0; L] L = (L * k0 / 2 + L^2 * k1 / 6 + L^3 * k2 / 12, - (L * k0 / 2 + L^2 * k1 / 3 + L^3 * k2 / 4)).
Proof.
  intros HL H. destruct (kappa_short k H) as (k0 & k1 & k2 & E). exists k0, k1, k2. split; [intros x; apply E|].
  rewrite <- (ic_theta_quadratic k0 k1 k2 L HL). unfold ic_theta0. cbn [pairs fold_left fst snd]. rleb L 0; [reflexivity|].
  f_equal; f_equal; unfold simpson; apply rsum_ext; intros i _; rewrite !(fun x => proj2 (E x)); reflexivity.
Qed.
Lemma clamps_ic gl k L ei ga v : 0 < L -> 0 < ei -> match ga with None => True | Some g => 0 < g end -> (length k <= 3)%nat ->
  match ga with
  | None => exists c, get_cnl gl (LIC k (Some (RConst ei))) L = Ok c /\ v = cnl_vec c
  | Some g => ref_timoshenko gl (LIC k (Some (RConst ei))) (RConst ei) (RConst g) L 1 = Ok v
  end -> clamps L ei ga (kappa_imp k) no_action v.
Proof.
  intros HL HE HG Hk Hv. destruct (theta_short k L HL Hk) as (k0 & k1 & k2 & EK & ET).
  assert (F : exists c, get_cnl gl (LIC k (Some (RConst ei))) L = Ok c /\ c_Va c = (c_Ma c + c_Mb c) / L /\ c_Vb c = - (c_Ma c + c_Mb c) / L /\
     c_Ma c = 2 * ei / L * (2 * (L * k0 / 2 + L^2 * k1 / 6 + L^3 * k2 / 12) - (L * k0 / 2 + L^2 * k1 / 3 + L^3 * k2 / 4)) /\
     c_Mb c = 2 * ei / L * ((L * k0 / 2 + L^2 * k1 / 6 + L^3 * k2 / 12) - 2 * (L * k0 / 2 + L^2 * k1 / 3 + L^3 * k2 / 4))).
  { cbn [get_cnl]. unfold ic_cnl, ic_end_moments. rewrite ET. cbn [ic_Ktheta rbind fst snd]. eexists. split; [reflexivity|]. cbn. repeat split; field; lra. }
  destruct F as (c & Ec & EVa & EVb & EMa & EMb).
  assert (V : v 0%nat + v 2%nat = 0 /\ v 3%nat = - v 1%nat + v 0%nat * L /\
    (v 0%nat * L^2 / 2 - v 1%nat * L) / ei + (k0 * L + k1 * L^2 / 2 + k2 * L^3 / 3) = 0 /\
    (v 0%nat * L^3 / 6 - v 1%nat * L^2 / 2) / ei + (k0 * L^2 / 2 + k1 * L^3 / 6 + k2 * L^4 / 12) - v 0%nat * flex ga * L = 0).
  { destruct ga as [g|].
    - unfold ref_timoshenko in Hv. rewrite Ec in Hv. cbn [rbind] in Hv. unfold release_from in Hv. injection Hv as <-.
      cbn [vec4 fst snd flex]. rewrite EVa, EVb, EMa, EMb. 
      assert (0 < g * L^2 + 12 * ei) by (assert (0 < L^2) by (apply pow_lt; exact HL); assert (0 < g * L^2) by (apply Rmult_lt_0_compat; assumption); lra).
      repeat apply conj; field; repeat split; try lra.
    - destruct Hv as (c' & Ec' & ->). rewrite Ec in Ec'. injection Ec' as <-. cbn [cnl_vec vec4 flex]. rewrite EVa, EVb, EMa, EMb.
      repeat apply conj; field; lra. }
  destruct V as (B1 & B2 & B3 & B4).
  assert (P := poly_bent L ei ga v k0 k1 k2 0 0 B1 B2 ltac:(lra)).
  do 4 eexists. split; [eapply bent_ext; [exact P|intros x; symmetry; apply EK|intros i _; reflexivity]|].
  cbv beta. split; [unfold Rdiv; ring|]. split; [lra|]. split; [unfold Rdiv; ring|lra].
Qed.
