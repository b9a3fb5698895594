(** The principle of Mueller-Breslau. *)
From Coquelicot Require Import Coquelicot.
From Coq Require Import Lia Lra.
From Verif Require Import Base BaseFacts Linalg SectionModel FlexModel LoadModel LoadSpec LoadFacts DiagFacts ClampFacts ReleaseFacts FoundationModel ElementModel ElementSpec ElementFacts ElementFacts2 TimoFacts
  UtilsModel BeamModel AnalysisModel AnalysisSpec LinearFacts AnalysisFacts AnalysisFacts2 AnalysisFacts3 MechFacts DetFacts ResultsModel ResultsSpec ResultsFacts ExactSpec ExactFacts ExactFacts2 ExactFacts3 MuellerSpec.
Open Scope R_scope.

(** ** The shape of an unloaded member *)
Lemma straight_shape L ei ga f V M th y : 0 < L -> ei <> 0 -> bent_member L ei ga (fun _ => 0) no_action f V M th y ->
  forall x, 0 <= x <= L -> th x = th 0 + (f 0%nat * x^2 / 2 - f 1%nat * x) / ei /\ y x = y 0 + (th 0 - f 0%nat * flex ga) * x + (f 0%nat * x^3 / 6 - f 1%nat * x^2 / 2) / ei.
Proof.
  intros HL HE [B1 _ B3 B4].
  assert (T : forall x, 0 <= x <= L -> th x = th 0 + (f 0%nat * x^2 / 2 - f 1%nat * x) / ei).
  { intros x Hx. assert (S := B3 x Hx). apply (RInt_except [] _ (fun t => (- f 1%nat / ei) + (f 0%nat / ei) * t + 0 * t^2 + 0 * t^3 + 0 * t^4)) in S; [|lra|].
    - assert (Q := RInt_same _ _ _ _ _ S (is_RInt_quartic _ _ _ _ _ _ _)). unfold P4 in Q. apply (Rplus_eq_reg_r (- th 0)). transitivity (th x - th 0); [reflexivity|]. rewrite Q. field. exact HE.
    - intros t Ht _. destruct (ce_moment _ _ _ _ _ _ _ B1 t ltac:(lra)) as (I & i1 & e1); [intros ? []|]. assert (I0 : I = 0) by (apply (RInt_same _ _ _ _ _ i1); apply is_RInt_mult_zero).
      rewrite e1, I0. unfold left_of. cbn. field. exact HE. }
  intros x Hx. split; [exact (T x Hx)|]. assert (S := B4 x Hx). apply (RInt_except [] _ (fun t => (th 0 - f 0%nat * flex ga) + (- f 1%nat / ei) * t + (f 0%nat / 2 / ei) * t^2 + 0 * t^3 + 0 * t^4)) in S; [|lra|].
  - assert (Q := RInt_same _ _ _ _ _ S (is_RInt_quartic _ _ _ _ _ _ _)). unfold P4 in Q. apply (Rplus_eq_reg_r (- y 0)). transitivity (y x - y 0); [reflexivity|]. rewrite Q. field. exact HE.
  - intros t Ht _. rewrite (T t ltac:(lra)). destruct (ce_shear _ _ _ _ _ _ _ B1 t ltac:(lra)) as (I & i1 & e1); [intros ? []|].
    assert (I0 : I = 0).
    { change (intensity no_action) with (fun _ : R => 0) in i1. assert (Q0 := is_RInt_const (V := R_NormedModule) 0 t 0). assert (Q1 := RInt_same _ _ _ _ _ i1 Q0). rewrite Q1. unfold scal. cbn. unfold mult. cbn. ring. }
    rewrite angle_flex, e1, I0. unfold left_of. cbn. field. exact HE.
Qed.
Definition herm L (a b c d x : R) : R := a * N1 L x + b * N2 L x + c * N3 L x + d * N4 L x.
Definition dherm L (a b c d x : R) : R := a * dN1 L x + b * dN2 L x + c * dN3 L x + d * dN4 L x.
(** (The shear angle [s] of the member is constant.) *)
Lemma hermite_shape L ei ga f V M th y : 0 < L -> ei <> 0 -> bent_member L ei ga (fun _ => 0) no_action f V M th y -> let s := f 0%nat * flex ga in
  forall x, 0 <= x <= L -> y x = herm L (y 0) (th 0 - s) (y L) (th L - s) x /\ th x - s = dherm L (y 0) (th 0 - s) (y L) (th L - s) x.
Proof.
  intros HL HE B s x Hx. destruct (straight_shape L ei ga f V M th y HL HE B x Hx) as [-> ->]. destruct (straight_shape L ei ga f V M th y HL HE B L ltac:(lra)) as [-> ->].
  unfold s, herm, dherm, N1, N2, N3, N4, dN1, dN2, dN3, dN4. split; field; lra.
Qed.

(** ** The work of the loads on it *)
Lemma resultant_shape L A a b c d y th w W : (forall x, 0 <= x <= L -> y x = herm L a b c d x) -> 0 <= L ->
  Forall (fun pa => 0 <= snd pa <= L) (forces A) -> Forall (fun pa => th (snd pa) = dherm L a b c d (snd pa)) (moments A) ->
  fixed_end_forces L A w -> resultant L A y th W -> W = a * c_Va w + b * c_Ma w + c * c_Vb w + d * c_Mb w.
Proof.
  intros S HL FF FM ((I1 & i1 & ->) & (I2 & i2 & ->) & (I3 & i3 & ->) & (I4 & i4 & ->)) (I & i & ->).
  assert (E : I = a * I1 + b * I2 + c * I3 + d * I4).
  { assert (Q := is_RInt_plus _ _ _ _ _ _ (is_RInt_plus _ _ _ _ _ _ (is_RInt_scal _ _ _ a _ i1) (is_RInt_scal _ _ _ b _ i2)) (is_RInt_plus _ _ _ _ _ _ (is_RInt_scal _ _ _ c _ i3) (is_RInt_scal _ _ _ d _ i4))).
    apply (RInt_except [] _ (fun x => y x * intensity A x)) in Q; [|exact HL|].
    - rewrite (RInt_same _ _ _ _ _ i Q). unfold plus, scal, mult. cbn. unfold mult. cbn. ring.
    - intros x Hx _. rewrite (S x ltac:(lra)). unfold herm, plus, scal, mult. cbn. unfold mult. cbn. ring. }
  assert (P : forall l, Forall (fun pa => 0 <= snd pa <= L) l -> lsum (map (fun pa => fst pa * y (snd pa)) l) =
     a * lsum (map (fun pa => fst pa * N1 L (snd pa)) l) + b * lsum (map (fun pa => fst pa * N2 L (snd pa)) l) + c * lsum (map (fun pa => fst pa * N3 L (snd pa)) l) + d * lsum (map (fun pa => fst pa * N4 L (snd pa)) l)).
  { induction 1 as [|pa l Hp _ IH]; [cbn; ring|]. cbn [map]. rewrite !lsum_cons, IH. rewrite (S (snd pa) Hp). unfold herm. ring. }
  assert (Q : forall l, Forall (fun pa => th (snd pa) = dherm L a b c d (snd pa)) l -> lsum (map (fun pa => fst pa * th (snd pa)) l) =
     a * lsum (map (fun pa => fst pa * dN1 L (snd pa)) l) + b * lsum (map (fun pa => fst pa * dN2 L (snd pa)) l) + c * lsum (map (fun pa => fst pa * dN3 L (snd pa)) l) + d * lsum (map (fun pa => fst pa * dN4 L (snd pa)) l)).
  { induction 1 as [|pa l Hp _ IH]; [cbn; ring|]. cbn [map]. rewrite !lsum_cons, IH. rewrite Hp. unfold dherm. ring. }
  rewrite E, (P _ FF), (Q _ FM). ring.
Qed.
Lemma force_places L ld : on_member L ld -> Forall (fun pa : R * R => 0 <= snd pa <= L) (forces (action_of L ld)) /\ Forall (fun pa : R * R => 0 <= snd pa <= L) (moments (action_of L ld)).
Proof. destruct ld; cbn [on_member action_of forces moments no_action]; intros HO; split; repeat (apply List.Forall_cons || apply List.Forall_nil); cbn [snd]; lra. Qed.

Section Member.
Variable gl : nat -> list (R * R).
Variable mb : member.
Variable ei : R.
Variable ga : option R.
Hypothesis PR : prismatic mb.
Hypothesis EE : mb_EI mb = RConst ei.
Hypothesis EG : mb_GAv mb = option_map RConst ga.
Local Notation L := (mb_L mb).
(** The fixed-end forces of one load. *)
Lemma one_work a b c d s ld v c0 : s = end_forces (k1 mb ei ga) (vec4 a b c d) 0%nat * flex ga -> ref_one gl (set_type mb 1) ld = Ok v -> get_cnl gl ld L = Ok c0 ->
  rsum 4 (fun q => v q * vec4 a b c d q) = a * c_Va c0 + (b - s) * c_Ma c0 + c * c_Vb c0 + (d - s) * c_Mb c0.
Proof.
  intros Es H1 Hc. assert (HL := pr_L _ PR). assert (He := Hei mb ei PR EE). assert (Hg := Hga mb ga PR EG).
  unfold ref_one in H1. cbn [set_type mb_GAv mb_EI mb_L mb_type] in H1. rewrite EE, EG in H1. destruct ga as [g|]; cbn [option_map] in H1.
  - unfold ref_timoshenko in H1. rewrite Hc in H1. cbn [rbind] in H1. unfold release_from in H1. injection H1 as <-. subst s.
    unfold k1, k_FF_timo, end_forces, mulmv, flex. cbn [rsum vec4 mat4]. change (L * (L * 1)) with (L^2). change (L * (L * (L * 1))) with (L^3).
    cbn in Hg. assert (L2 : 0 < L^2) by (apply pow_lt, HL). assert (0 < g * L^2) by (apply Rmult_lt_0_compat; assumption).
    assert (G2 : g * L^2 + 12 * ei <> 0) by lra. field_simplify_eq; [|repeat split; lra]. ring.
  - apply rbind_ok in H1 as (cc & Hcc & Hv). unfold load_get_ref in Hcc. rewrite Hc in Hcc. cbn [rbind] in Hcc.
    injection Hv as <-. injection Hcc as <-. subst s. unfold flex. cbn [rsum vec4]. cbn. ring.
Qed.
Lemma fixed_work s y th lds : s = end_forces (k1 mb ei ga) (vec4 (y 0) (th 0) (y L) (th L)) 0%nat * flex ga ->
  (forall x, 0 <= x <= L -> y x = herm L (y 0) (th 0 - s) (y L) (th L - s) x /\ th x - s = dherm L (y 0) (th 0 - s) (y L) (th L - s) x) ->
  Forall (fun ld => on_member L ld /\ force_load mb ld) lds -> forall e W, span_ref gl (set_type mb 1) lds = Ok e -> span_resultant L lds y th W ->
  rsum 4 (fun q => e q * vec4 (y 0) (th 0) (y L) (th L) q) = W.
Proof.
  intros Es S. assert (HL := pr_L _ PR). induction lds as [|ld lds IH]; intros F e W He (ws & Fw & ->).
  - inversion Fw; subst. unfold span_ref in He. cbn [set_type mb_kf] in He. rewrite (pr_kf _ PR) in He. injection He as <-. cbn. ring.
  - inversion_clear F as [|? ? [F1 F2] F3]. inversion Fw as [|? w ? ws' W1 W2]; subst ws. subst.
    destruct (span_ref_app_ok gl (set_type mb 1) [ld] lds e He) as (v1 & v2 & H1 & H2 & E).
    unfold span_ref in H1. cbn [set_type mb_kf] in H1. rewrite (pr_kf _ PR) in H1. cbn [foldM] in H1.
    apply rbind_ok in H1 as (u & H1 & H3). apply rbind_ok in H1 as (v0 & H1 & H4). injection H3 as <-. injection H4 as <-.
    assert (IH' := IH F3 v2 (lsum ws') H2 (ex_intro _ ws' (conj W2 eq_refl))).
    assert (HC : exists c0, get_cnl gl ld L = Ok c0).
    { unfold ref_one in H1. cbn [set_type mb_GAv mb_EI mb_L mb_type] in H1. rewrite EE, EG in H1. destruct ga; cbn [option_map] in H1.
      - unfold ref_timoshenko in H1. apply rbind_ok in H1 as (c0 & Hc & _). eauto.
      - apply rbind_ok in H1 as (cc & Hc & _). unfold load_get_ref in Hc. apply rbind_ok in Hc as (c0 & Hc & _). eauto. }
    destruct HC as (c0 & Hc). assert (FL : match ld with LMaMb _ _ | LIC _ _ => False | _ => True end) by (destruct ld; cbn in F2; try contradiction; exact I).
    assert (Q := get_cnl_fef gl ld L c0 HL F1 FL Hc). destruct (force_places L ld F1) as [P1 P2].
    assert (OW := one_work (y 0) (th 0) (y L) (th L) _ ld v0 c0 eq_refl H1 Hc).
    set (s := end_forces (k1 mb ei ga) (vec4 (y 0) (th 0) (y L) (th L)) 0%nat * flex ga) in *.
    assert (P2' : Forall (fun pa => th (snd pa) = dherm L (y 0) (th 0 - s) (y L) (th L - s) (snd pa)) (moments (action_of L ld))).
    { destruct ld; cbn [action_of moments no_action] in *; try constructor; [|constructor]. cbn [snd] in *. inversion_clear P2 as [|? ? P3 _]. cbn [snd] in P3.
      cbn in F2. assert (s = 0). { unfold s. rewrite EG in F2. destruct ga; [discriminate|]. cbn [flex]. ring. } destruct (S _ P3) as [_ S2]. lra. }
    assert (RW := resultant_shape L _ _ _ _ _ y th c0 w (fun x Hx => proj1 (S x Hx)) ltac:(lra) P1 P2' Q W1). rewrite lsum_cons. rewrite <- IH', RW, <- OW. cbn [rsum vec4]. rewrite !E. ring.
Qed.

Hypothesis G : gauss_rule gl.
(** The fixed-end forces of the member, with its own end conditions, do the work of the loads. *)
Lemma own_work lds r d f V M y th W : bent_member L ei ga (fun _ => 0) no_action f V M th y -> joined (mb_type mb) d f L th y ->
  Forall (fun ld => on_member L ld /\ force_load mb ld) lds -> span_ref gl mb lds = Ok r -> (exists k, span_k gl mb = Ok k) -> span_resultant L lds y th W ->
  rsum 4 (fun q => r q * d q) = W.
Proof.
  intros B J F Hr (k & Hk) HW. assert (HL := pr_L _ PR). assert (He := Hei mb ei PR EE).
  assert (S := hermite_shape L ei ga f V M th y HL (Rgt_not_eq _ _ He) B).
  rewrite <- (set_own mb ei ga PR EE EG) in Hr, Hk. destruct (fixed_ref gl mb ei ga PR EE EG _ _ _ Hr) as (e & Hfe).
  destruct J as [J1 J2 J3 J4 J5].
  set (d' := vec4 (y 0) (th 0) (y L) (th L)) in *.
  assert (EF : eq4 f (end_forces (k1 mb ei ga) d')).
  { destruct (unloaded mb ei ga PR EE EG d') as (V' & M' & th' & y' & B' & a' & b' & c' & q').
    apply (bent_unique _ _ _ _ _ _ _ _ _ _ _ _ _ _ _ HL He (Hflex mb ga PR EG) B B'); unfold d' in *; cbn in *; congruence. }
  assert (FW := fixed_work (f 0%nat * flex ga) y th lds ltac:(rewrite (EF 0%nat ltac:(lia)); reflexivity) S F e W Hfe HW). fold d' in FW.
  destruct (Nat.eq_dec (mb_type mb) 1) as [E1|E1].
  - rewrite E1 in Hr, J3, J4. rewrite Hfe in Hr. injection Hr as <-. rewrite <- FW. apply rsum_ext. intros j Hj. f_equal. unfold d'.
    destruct j as [|[|[|[|j]]]]; cbn; [symmetry; exact J1|symmetry; apply J3; intros []|symmetry; exact J2|symmetry; apply J4; intros []|lia].
  - assert (T := pr_type _ PR). assert (Ht : (mb_type mb = 2 \/ mb_type mb = 3)%nat) by lia.
    destruct (span_let_go gl mb (mb_type mb) lds (k1 mb ei ga) k e r G (pr_sound mb ei ga PR EE EG) Ht (k1_ok gl mb ei ga PR EE EG) Hk Hfe Hr (fun _ => 0)) as [(z & Z1 & Z2) U].
    assert (ER : forall p, (p < 4)%nat -> r p = end_forces (k1 mb ei ga) z p + e p).
    { intros p Hp. rewrite (U z Z1 Z2 p Hp). unfold end_forces, mulmv. cbn [rsum]. ring. }
    assert (RZ : forall p, (p < 4)%nat -> released (mb_type mb) p -> r p = 0) by (intros p Hp Hq; rewrite (ER p Hp); exact (Z2 p Hp Hq)).
    assert (SY : symmetric4 (k1 mb ei ga)).
    { apply (g_sym L). apply (span_k_good gl (set_type mb 1)); [exact G| |exact (k1_ok gl mb ei ga PR EE EG)]. apply sound_set_type; [exact (pr_sound mb ei ga PR EE EG)|lia]. }
    assert (BS := bilinear_sym (k1 mb ei ga) z d' SY).
    assert (X : rsum 4 (fun q => end_forces (k1 mb ei ga) d' q * z q) = 0).
    { rewrite (rsum_ext 4 _ (fun _ => 0)); [cbn; ring|]. intros q Hq. rewrite <- (EF q Hq). 
      assert (DR : released (mb_type mb) q \/ ~ released (mb_type mb) q) by (destruct Ht as [-> | ->]; cbn; lia). destruct DR as [DR|DR].
      - rewrite (J5 q DR). ring.
      - rewrite (Z1 q Hq DR). ring. }
    rewrite X in BS. rewrite <- FW. transitivity (rsum 4 (fun q => r q * d' q)).
    + apply rsum_ext. intros q Hq. assert (DR : released (mb_type mb) q \/ ~ released (mb_type mb) q) by (destruct Ht as [-> | ->]; cbn; lia). destruct DR as [DR|DR].
      * rewrite (RZ q Hq DR). ring.
      * f_equal. unfold d'. destruct q as [|[|[|[|q]]]]; cbn; [symmetry; exact J1|symmetry; exact (J3 DR)|symmetry; exact J2|symmetry; exact (J4 DR)|lia].
    + rewrite (rsum_ext 4 (fun q => r q * d' q) (fun q => end_forces (k1 mb ei ga) z q * d' q + e q * d' q)) by (intros q Hq; rewrite (ER q Hq); ring). rewrite rsum_plus, BS. ring.
Qed.
End Member.

(** ** The beam *)
Section Beam.
Variables (gl : nat -> list (R * R)) (ill : nat -> mat -> bool) (a : analysis).
Hypothesis G : gauss_rule gl.
Local Notation b := (an_beam a).
Local Notation n := (an_n a).

Lemma lift_at N j delta i : (i < N)%nat -> nth i (lift N j delta) None = if Nat.eqb i j then Some delta else None.
Proof. intros Hi. unfold lift. apply nth_error_nth. rewrite nth_error_map. replace (nth_error (seq 0 N) i) with (Some i); [reflexivity|]. symmetry. rewrite (nth_error_nth' (seq 0 N) 0%nat) by (rewrite seq_length; exact Hi). rewrite seq_nth by exact Hi. reflexivity. Qed.

Lemma mueller A j delta check check' oA oB y th W : no_settlement b -> settles_supports b -> plain_members a -> forces_only (set_loads b A) n ->
  (j < an_ndof a)%nat -> restraint b j < 0 -> run gl ill a A check = Ok oA -> run_settled gl ill a [] (lift (an_ndof a) j delta) check' = Ok oB ->
  (forall m, (m < n)%nat -> takes_shape (set_loads b []) (o_d oB) m (y m) (th m)) -> beam_resultant (set_loads b A) n y th W ->
  reported b oA j * delta = W.
Proof using G.
  intros ND SS RM FO Hj Rj HA HB TS (lsA & w & EA & Hw & ->). unfold an_ndof in Hj. set (N := (2 * (n + 1))%nat) in *.
  unfold run in HA. destruct (analyze_core gl ill (with_beam a (set_loads b A)) None check) as [a1 rA] eqn:CA. cbn [snd] in HA. subst rA.
  unfold run_settled in HB. destruct (set_prescribed (set_loads b []) (lift (an_ndof a) j delta)) as [bB [[]|]] eqn:SP; [|discriminate].
  destruct (analyze_core gl ill (with_beam a bB) None check') as [a2 rB] eqn:CB. cbn [snd] in HB. subst rB.
  unfold set_prescribed in SP. destruct (negb _) in SP; [discriminate|]. injection SP as <-. set (bB := (with_D (set_loads b []) (lift (an_ndof a) j delta) (S (b_version b)))) in *.
  destruct (analyze_equilibrium _ _ _ _ _ _ _ CA) as (efA & SA & NA). destruct (analyze_equilibrium _ _ _ _ _ _ _ CB) as (efB & SB & NB).
  destruct (analyze_reactions _ _ _ _ _ _ _ CA SS) as (efR & SR & NR). change (an_n (with_beam a (set_loads b A))) with n in *. cbn [an_beam with_beam an_n an_ndof] in *.
  assert (RJ : reported b oA j = nodal_sum n efA j).
  { change (reported b oA j) with (reported (set_loads b A) oA j). rewrite NR by exact Hj. apply nodal_sum_eq; [exact Hj|]. intros m Hm p _. exact (state_forces_unique gl _ _ _ _ _ (SR m Hm) (SA m Hm) p). }
  (* the nodes *)
  assert (PB : forall i, (i < N)%nat -> prescribed bB i = if Nat.eqb i j then Some delta else None).
  { intros i Hi. unfold prescribed. unfold bB. cbn [with_D b_D]. apply lift_at. exact Hi. }
  assert (ZA : forall i, (i < N)%nat -> restraint b i < 0 -> o_d oA i = 0).
  { intros i Hi Hr. specialize (NA i Hi). change (prescribed (set_loads b A) i) with (prescribed b i) in NA. change (restraint (set_loads b A) i) with (restraint b i) in NA.
    destruct (ND i) as [E|E]; rewrite E in NA; [|exact NA]. destruct (Rlt_dec (restraint b i) 0); [exact NA|contradiction]. }
  assert (NODES : rsum N (fun i => nodal_sum n efA i * o_d oB i) - rsum N (fun i => nodal_sum n efB i * o_d oA i) = nodal_sum n efA j * delta).
  { assert (X : rsum N (fun i => nodal_sum n efA i * o_d oB i) - rsum N (fun i => nodal_sum n efB i * o_d oA i) = rsum N (fun i => nodal_sum n efA i * o_d oB i + - (nodal_sum n efB i * o_d oA i))).
    { rewrite rsum_plus. replace (rsum N (fun i => - (nodal_sum n efB i * o_d oA i))) with (- rsum N (fun i => nodal_sum n efB i * o_d oA i)); [ring|].
      rewrite (rsum_ext N (fun i => - (nodal_sum n efB i * o_d oA i)) (fun i => -1 * (nodal_sum n efB i * o_d oA i))) by (intros; ring). rewrite rsum_scal. ring. }
    rewrite X. rewrite (rsum_ext N _ (fun i => if Nat.eqb i j then nodal_sum n efA j * delta else 0)); [rewrite (rsum_single N j); [rewrite Nat.eqb_refl; reflexivity|exact Hj|intros i _ D; apply Nat.eqb_neq in D; rewrite D; reflexivity]|].
    intros i Hi. assert (NBi := NB i Hi). assert (NAi := NA i Hi). rewrite (PB i Hi) in NBi.
    change (restraint bB i) with (restraint b i) in NBi.
    change (spring_force bB i) with (spring_force b i) in NBi.
    change (prescribed (set_loads b A) i) with (prescribed b i) in NAi. change (restraint (set_loads b A) i) with (restraint b i) in NAi. change (spring_force (set_loads b A) i) with (spring_force b i) in NAi.
    destruct (Nat.eqb_spec i j) as [->|D].
    - rewrite NBi, (ZA j Hi Rj). ring.
    - destruct (Rlt_dec (restraint b i) 0) as [Hr|Hr].
      + rewrite NBi, (ZA i Hi Hr). ring.
      + destruct (prescribed b i) eqn:EP; [destruct (Hr (SS i ltac:(rewrite EP; discriminate)))|]. rewrite NAi, NBi. unfold spring_force. destruct (Rlt_dec 0 (restraint b i)); ring. }
  (* the members *)
  subst N. rewrite (virtual_work n efA (o_d oB)), (virtual_work n efB (o_d oA)) in NODES. rewrite RJ, <- NODES.
  assert (Y : rsum n (fun m => rsum 4 (fun q => efA m q * o_d oB (2 * m + q)%nat)) - rsum n (fun m => rsum 4 (fun q => efB m q * o_d oA (2 * m + q)%nat)) = rsum n (fun m => rsum 4 (fun q => efA m q * o_d oB (2 * m + q)%nat) + -1 * rsum 4 (fun q => efB m q * o_d oA (2 * m + q)%nat))).
  { rewrite rsum_plus, rsum_scal. ring. }
  rewrite Y. apply rsum_ext. intros m Hm.
  destruct (SA m Hm) as (ls & mb & k & r & A1 & A2 & A3 & A4 & A5). destruct (SB m Hm) as (ls' & mb' & k' & r' & B1 & B2 & B3 & B4 & B5).
  change (member_at (set_loads b A) m) with (member_at b m) in A2. change (member_at bB m) with (member_at b m) in B2.
  assert (mb' = mb) by congruence. subst mb'. assert (k' = k) by congruence. subst k'. assert (ls = lsA) by congruence. subst ls.
  assert (PR := RM m mb Hm A2).
  assert (E0 : ls' = []) by (unfold parsed_loads in B1; cbn in B1; congruence). subst ls'.
  assert (R0 : forall p, r' p = 0). { unfold loads_of in B4. cbn [filter map] in B4. unfold span_ref in B4. rewrite (pr_kf _ PR) in B4. injection B4 as <-. reflexivity. }
  destruct (TS m Hm) as (mb' & ls' & ei & ga & f & V & M & T1 & T2 & T3 & T4 & T5 & T6). change (member_at (set_loads b []) m) with (member_at b m) in T1.
  assert (mb' = mb) by congruence. subst mb'.
  assert (E0 : ls' = []) by (unfold parsed_loads in T2; cbn in T2; congruence). subst ls'.
  assert (EL : span_length (set_loads b A) m = mb_L mb).
  { unfold span_length. cbn [set_loads with_LM b_lengths]. unfold member_at in A2. apply rbind_ok in A2 as (e & _ & A2). apply rbind_ok in A2 as (l & Q2 & A2). apply rbind_ok in A2 as (t & _ & A2).
    injection A2 as <-. cbn [mb_L]. apply get_ok in Q2. apply nth_error_nth. exact Q2. }
  assert (OW := own_work gl mb ei ga PR T3 T4 G (loads_of lsA m) r (ends (o_d oB) m) f V M (y m) (th m) (w m) T5 T6). rewrite EL in Hw || idtac.
  assert (FOm := FO m mb lsA Hm A2 EA). assert (HWm := Hw m Hm). rewrite EL in HWm. specialize (OW FOm A4 (ex_intro _ k A3) HWm).
  assert (SYM : symmetric4 k) by (apply (g_sym (mb_L mb)); apply (span_k_good gl mb); [exact G|exact (prismatic_sound mb PR)|exact A3]).
  assert (BS := bilinear_sym k (ends (o_d oA) m) (ends (o_d oB) m) SYM).
  rewrite (rsum_ext 4 (fun q => efA m q * o_d oB (2 * m + q)%nat) (fun q => end_forces k (ends (o_d oA) m) q * ends (o_d oB) m q + r q * ends (o_d oB) m q)) by (intros q Hq; rewrite A5; unfold ends; ring).
  rewrite (rsum_ext 4 (fun q => efB m q * o_d oA (2 * m + q)%nat) (fun q => end_forces k (ends (o_d oB) m) q * ends (o_d oA) m q)) by (intros q Hq; rewrite B5, R0; unfold ends; ring).
  rewrite rsum_plus, BS, OW. ring.
Qed.
End Beam.
