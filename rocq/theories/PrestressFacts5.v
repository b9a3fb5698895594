(** Equivalent loads in an analysed beam, anomalies, sample beams. *)
From Coquelicot Require Import Coquelicot.
From Coq Require Import Lia Sorting.
From Verif Require Import Base BaseFacts SectionModel LoadModel LoadSpec LoadFacts DiagFacts LMFacts ElementModel ElementSpec ElementFacts UtilsModel BeamModel AnalysisModel AnalysisSpec
  ClampFacts ElementFacts2 ConstSectFacts AnalysisFacts AnalysisFacts2 MechFacts AnalysisFacts3 FoundationModel ResultsModel ResultsSpec ResultsFacts
  PrestressModel PrestressSpec PrestressFacts PrestressFacts2 PrestressFacts3 PrestressFacts4 SuperFacts.
Open Scope R_scope.

Lemma ordinary_within L ld : ordinary L ld -> within_member L ld.
Proof. destruct ld; cbn; intros H; try contradiction; split; cbn; intuition lra. Qed.

(** Imposed curvatures apart, the rigidities do not change the loads. *)
Lemma attach_loads b i : forall ls ls', mapM (attach_EI b) ls = Ok ls' ->
  Forall (fun ld => match ld with LIC _ _ => False | _ => True end) (loads_of ls i) -> loads_of ls' i = loads_of ls i.
Proof.
  induction ls as [|[s ld] t IH]; intros ls' E H; cbn [mapM] in E.
  - apply ok_inv in E. subst ls'. reflexivity.
  - apply rbind_ok in E as ([s' ld'] & E1 & E). apply rbind_ok in E as (t' & E2 & E). apply ok_inv in E. subst ls'.
    unfold loads_of in *. cbn [filter fst] in *.
    assert (ES : s' = s).
    { destruct ld; cbn in E1; try (apply ok_inv in E1; congruence).
      apply rbind_ok in E1 as (? & _ & E1). apply rbind_ok in E1 as (? & _ & E1). apply ok_inv in E1. congruence. }
    subst s'. destruct (Z.eqb s (Z.of_nat i)).
    + cbn [map snd] in *. inversion H; subst. rewrite (IH _ E2) by assumption. f_equal. destruct ld; cbn in E1; try (apply ok_inv in E1; congruence). contradiction.
    + exact (IH _ E2 H).
Qed.
Lemma parsed_ordinary b ls ls' i L : parse_LM (b_LM b) = Ok ls -> parsed_loads b = Ok ls' -> Forall (ordinary L) (loads_of ls i) -> loads_of ls' i = loads_of ls i.
Proof.
  unfold parsed_loads. intros E E' H. rewrite E in E'. cbn [rbind] in E'. apply (attach_loads _ _ _ _ E').
  eapply Forall_impl; [|exact H]. intros ld Hl. destruct ld; cbn in Hl; auto.
Qed.

(** End moments at the supports that do not hold the rotation. *)
Lemma hinged_ends gl ill a npts check a' o e : analyze_core gl ill a npts check = (a', Ok o) -> an_n a = 1%nat ->
  (forall i, i = 1%nat \/ i = 3%nat -> restraint (an_beam a) i = 0 /\ prescribed (an_beam a) i = None) ->
  member_forces gl (an_beam a) (o_d o) 0 = Ok e -> e 1%nat = 0 /\ e 3%nat = 0.
Proof.
  intros H Hn HR He. destruct (analyze_equilibrium _ _ _ _ _ _ _ H) as (ef & S & E). rewrite Hn in *.
  assert (Q : forall p, ef 0%nat p = e p).
  { intros p. destruct (S 0%nat ltac:(lia)) as (ls & mb & kb & r & A1 & A2 & A3 & A4 & A5).
    destruct (forces_state _ _ _ _ _ He) as (cs & cm & ck & cr & C1 & C2 & C3 & C4 & C5).
    replace cs with ls in * by congruence. replace cm with mb in * by congruence. replace ck with kb in * by congruence.
    replace cr with r in * by congruence. rewrite A5, C5. reflexivity. }
  assert (Z : forall i, i = 1%nat \/ i = 3%nat -> nodal_sum 1 ef i = 0).
  { intros i Hi. destruct (HR i Hi) as [R0 P0]. specialize (E i ltac:(lia)). rewrite P0, R0 in E. destruct (Rlt_dec 0 0); [lra|].
    rewrite E. unfold spring_force. rewrite R0. destruct (Rlt_dec 0 0); [lra|reflexivity]. }
  split.
  - specialize (Z 1%nat ltac:(auto)). unfold nodal_sum in Z. cbn in Z. rewrite <- Q. lra.
  - specialize (Z 3%nat ltac:(auto)). unfold nodal_sum in Z. cbn in Z. rewrite <- Q. lra.
Qed.

Theorem analysed_span gl ill a sps npts check a' br i r mb e f ps LM p t F k : gauss_rule gl ->
  equivalent_loads (b_lengths (an_beam a)) (b_R (an_beam a)) f ps = Ok LM -> b_LM (an_beam a) = LM ->
  nth_error ps i = Some (Some p) -> force_in f i F -> tip_of (b_R (an_beam a)) i t -> placed p (mb_L mb) t ->
  analyze gl ill a sps npts check = (a', Ok br) -> member_at (an_beam a) i = Ok mb -> sound_member mb ->
  nth_error (br_mem br) i = Some r -> member_forces gl (an_beam a) (br_D br) i = Ok e ->
  (0 < k < length (r_x r) - 1)%nat ->
  let x := nth k (r_x r) 0 - node_x (an_beam a) i in
  0 < x < mb_L mb ->
  let left_end := - e 1%nat + (if Nat.eqb i 0 then 0 else F * drape p (mb_L mb) t 0) in
  let right_end := e 3%nat + (if Nat.eqb (i + 1) (length (b_lengths (an_beam a))) then 0 else F * drape p (mb_L mb) t (mb_L mb)) in
  Rabs (nth k (r_M r) 0 + F * drape p (mb_L mb) t x - ((1 - x / mb_L mb) * left_end + x / mb_L mb * right_end)) <= neglected F (mb_L mb).
Proof.
  intros G E ELM Ep EF Ht HP EA Em Sm Er Ee Hk x Hx le re.
  assert (EL : nth_error (b_lengths (an_beam a)) i = Some (mb_L mb)).
  { clear - Em. unfold member_at in Em. apply rbind_ok in Em as (ei & _ & Em). apply rbind_ok in Em as (L & E1 & Em). apply get_ok in E1.
    apply rbind_ok in Em as (? & _ & Em). apply ok_inv in Em. subst mb. exact E1. }
  destruct (parsed_loads (an_beam a)) as [ls'|] eqn:EP'.
  2:{ unfold member_forces in Ee. rewrite EP' in Ee. discriminate. }
  assert (EP : exists ls, parse_LM (b_LM (an_beam a)) = Ok ls).
  { unfold parsed_loads in EP'. apply rbind_ok in EP' as (ls & E1 & _). eauto. }
  destruct EP as (ls & EP).
  assert (EO : Forall (ordinary (mb_L mb)) (loads_of ls i)).
  { rewrite ELM in EP. destruct (span_of _ _ _ _ _ _ _ _ _ _ _ E EP EL EF Ep Ht HP) as (segs & s0 & lf & rf & _ & _ & _ & _ & ST).
    exact (ss_ord _ _ _ _ _ _ _ _ _ ST). }
  pose proof (parsed_ordinary _ _ _ _ _ EP EP' EO) as ES.
  destruct (analyze_diagrams gl ill a sps npts check a' br i r mb ls' e G EA Em Sm EP') as (V & M & MC & CE & _).
  - rewrite ES. eapply Forall_impl; [|exact EO]. apply ordinary_within.
  - exact Er.
  - exact Ee.
  - rewrite ES in CE. rewrite ELM in EP. rewrite (proj2 (mc_at _ _ _ _ MC k Hk)). fold x.
    exact (span_balance _ _ _ _ _ _ _ _ _ _ _ _ _ _ _ _ x E EP EL EF Ep Ht HP CE Hx).
Qed.

Theorem simply_supported gl ill a sps npts check a' br r mb LM p F k : gauss_rule gl -> an_n a = 1%nat ->
  equivalent_loads [mb_L mb] (b_R (an_beam a)) (FScalar F) [Some p] = Ok LM -> b_LM (an_beam a) = LM -> b_lengths (an_beam a) = [mb_L mb] ->
  (forall i, i = 0%nat \/ i = 2%nat -> restraint (an_beam a) i <> 0) ->
  (forall i, i = 1%nat \/ i = 3%nat -> restraint (an_beam a) i = 0 /\ prescribed (an_beam a) i = None) ->
  placed p (mb_L mb) None ->
  analyze gl ill a sps npts check = (a', Ok br) -> member_at (an_beam a) 0 = Ok mb -> sound_member mb ->
  nth_error (br_mem br) 0 = Some r -> (0 < k < length (r_x r) - 1)%nat ->
  0 < nth k (r_x r) 0 < mb_L mb ->
  Rabs (nth k (r_M r) 0 - - F * drape p (mb_L mb) None (nth k (r_x r) 0)) <= neglected F (mb_L mb).
Proof.
  intros G Hn E ELM EL HV HR HP EA Em Sm Er Hk Hx.
  destruct (analyze_split _ _ _ _ _ _ _ _ EA) as (o & Ho & Hv & _ & ED & _).
  destruct (analyze_core_state _ _ _ _ _ _ _ Ho) as (EB & EN & EF & EPP). rewrite EB in Hv.
  destruct (member_analysis_spec _ _ _ _ _ _ _ Hv) as (ls' & Hls & Hlen & Hs).
  assert (Hi : (0 < b_nspans (an_beam a))%nat) by (rewrite <- Hlen; apply nth_error_Some; rewrite Er; discriminate).
  destruct (Hs 0%nat Hi) as (m & e & r' & (Hm & Hnn & He & Hres) & Hr'). 
  destruct (hinged_ends _ _ _ _ _ _ _ e Ho Hn HR He) as [e1 e3].
  assert (TO : tip_of (b_R (an_beam a)) 0 None).
  { split; intros [A B].
    - apply (HV 0%nat (or_introl eq_refl)). unfold restraint. cbn [Nat.mul Nat.add] in A. destruct (nth_in_or_default 0 (b_R (an_beam a)) 1) as [X|X]; [|rewrite X in A; lra].
      rewrite (nth_indep _ 0 1). exact A. destruct (b_R (an_beam a)); [destruct X|cbn; lia].
    - apply (HV 2%nat (or_intror eq_refl)). unfold restraint. cbn [Nat.mul Nat.add] in A.
      destruct (Nat.lt_ge_cases 2 (length (b_R (an_beam a)))) as [X|X]; [rewrite (nth_indep _ 0 1) by exact X; exact A|].
      rewrite nth_overflow in A by exact X. lra. }
  assert (X0 : node_x (an_beam a) 0 = 0) by reflexivity.
  pose proof (analysed_span gl ill a sps npts check a' br 0 r mb e (FScalar F) [Some p] LM p None F k G) as T.
  rewrite EL in T. specialize (T E ELM). cbn [length Nat.eqb Nat.add] in T. rewrite X0, Rminus_0_r, e1, e3 in T.
  assert (T' := T eq_refl eq_refl TO HP EA Em Sm Er ltac:(rewrite ED; exact He) Hk Hx).
  eapply Rle_trans; [|exact T']. right. f_equal. ring.
Qed.

(** ** The compound parabola at its joints *)
Lemma joint (f g h : R -> R) (x s t : R) : (forall y, y <= x -> f y = g y) -> (forall y, x < y -> f y = h y) -> g x = h x ->
  is_derive g x s -> is_derive h x t -> (ex_derive f x <-> s = t) /\ (s = t -> is_derive f x s).
Proof.
  intros Hg Hh Ex Dg Dh. apply is_derive_Reals in Dg. apply is_derive_Reals in Dh.
  assert (A : s = t -> is_derive f x s).
  { intros <-. apply is_derive_Reals. intros eps He. destruct (Dg eps He) as (d1 & H1). destruct (Dh eps He) as (d2 & H2).
    assert (Hm : 0 < Rmin d1 d2) by (apply Rmin_pos; apply cond_pos). exists (mkposreal _ Hm). cbn. intros k Hk Hd.
    assert (Rabs k < d1) by (eapply Rlt_le_trans; [exact Hd|apply Rmin_l]). assert (Rabs k < d2) by (eapply Rlt_le_trans; [exact Hd|apply Rmin_r]).
    rewrite (Hg x) by lra. destruct (Rle_dec k 0).
    - rewrite (Hg (x + k)) by lra. apply H1; assumption.
    - rewrite (Hh (x + k)), Ex by lra. apply H2; assumption. }
  split; [|exact A]. split; [|intros E; exists s; apply A, E].
  intros (l & Hl). apply is_derive_Reals in Hl.
  assert (B : forall l' q (sg : R), (sg = 1 \/ sg = -1) -> derivable_pt_lim q x l' -> (forall k, 0 < k -> f (x + sg * k) = q (x + sg * k)) -> f x = q x -> l = l').
  { intros l' q sg Hs Dq Eq E0. apply cond_eq. intros eps He. destruct (Hl (eps / 2) ltac:(lra)) as (d1 & H1). destruct (Dq (eps / 2) ltac:(lra)) as (d2 & H2).
    assert (Hm : 0 < Rmin d1 d2) by (apply Rmin_pos; apply cond_pos). set (k := Rmin d1 d2 / 2) in *.
    assert (Hk : 0 < k) by (unfold k; lra).
    assert (Hab : Rabs (sg * k) = k) by (rewrite Rabs_mult, (Rabs_pos_eq k) by lra; destruct Hs as [-> | ->]; unfold Rabs; destruct (Rcase_abs _); lra).
    assert (K1 : k < d1) by (pose proof (Rmin_l d1 d2); unfold k; lra). assert (K2 : k < d2) by (pose proof (Rmin_r d1 d2); unfold k; lra).
    assert (Hz : sg * k <> 0) by (destruct Hs as [-> | ->]; lra).
    specialize (H1 (sg * k) Hz ltac:(rewrite Hab; exact K1)). specialize (H2 (sg * k) Hz ltac:(rewrite Hab; exact K2)).
    rewrite (Eq k Hk), E0 in H1. set (z := (q (x + sg * k) - q x) / (sg * k)) in *.
    apply Rabs_def2 in H1. apply Rabs_def2 in H2. apply Rabs_def1; lra. }
  rewrite <- (B s g (-1)); [apply (B t h 1)|..]; try (left; reflexivity); try (right; reflexivity); try assumption.
  - intros k Hk. apply Hh. lra.
  - rewrite (Hg x) by lra. exact Ex.
  - intros k Hk. apply Hg. lra.
  - apply Hg. lra.
Qed.
Lemma vertex_slope xv ev x1 e1 x : x1 <> xv -> is_derive (vertex xv ev x1 e1) x (2 * (e1 - ev) * (x - xv) / (x1 - xv) ^ 2).
Proof. intros H. unfold vertex. auto_derive; [lra|]. field. lra. Qed.
Lemma vertex_at xv ev x1 e1 : x1 <> xv -> vertex xv ev x1 e1 x1 = e1.
Proof. intros H. unfold vertex. field. lra. Qed.
Lemma vertex_top xv ev x1 e1 : x1 <> xv -> vertex xv ev x1 e1 xv = ev.
Proof. intros H. unfold vertex. field. lra. Qed.

Lemma derive_le_local (f g : R -> R) (x s : R) : (exists d, 0 < d /\ forall y, x - d < y < x + d -> f y = g y) -> is_derive g x s -> is_derive f x s.
Proof.
  intros (d & Hd & H) D. apply is_derive_ext_loc with g; [|exact D]. exists (mkposreal d Hd). intros y Hy. symmetry. apply H.
  unfold ball in Hy. cbn in Hy. unfold AbsRing_ball, abs, minus, plus, opp in Hy. cbn in Hy. apply Rabs_def2 in Hy. lra.
Qed.
Lemma ex_derive_local (f g : R -> R) (x : R) : (exists d, 0 < d /\ forall y, x - d < y < x + d -> f y = g y) -> (ex_derive f x <-> ex_derive g x).
Proof.
  intros (d & Hd & H). split; intros (l & Hl); exists l; (eapply derive_le_local; [|exact Hl]); exists d; (split; [exact Hd|]); intros y Hy; [symmetry|]; apply H, Hy.
Qed.

Ltac le_cases := repeat match goal with |- context [Rle_dec ?a ?b] => destruct (Rle_dec a b); try lra end.

Theorem compound_joins el em er a b c L : 0 < a < c -> c < L - b < L ->
  let e := drape (CompoundParabola el em er a b c) L None in
  (exists s, is_derive e a s) /\ is_derive e c 0 /\ (ex_derive e (L - b) <-> em = er \/ b = c).
Proof.
  intros Ha Hb e. set (ea := el + a / c * (em - el)). set (ed := er + b / (L - b) * (em - er)).
  assert (Hd0 : forall u v w : R, u < v < w -> exists d, 0 < d /\ d <= v - u /\ d <= w - v).
  { intros u v w H. exists (Rmin (v - u) (w - v)). split; [apply Rmin_pos; lra|]. split; [apply Rmin_l|apply Rmin_r]. }
  split; [|split].
  - exists (2 * (em - el) / c). apply derive_le_local with (fun x => le x a (vertex 0 el a ea x) (vertex c em a ea x)).
    + destruct (Hd0 0 a c ltac:(lra)) as (d & D0 & D1 & D2). exists d. split; [exact D0|]. intros y Hy.
      unfold e, drape, le. fold ea. le_cases; reflexivity.
    + assert (A := vertex_slope 0 el a ea a ltac:(lra)). assert (B := vertex_slope c em a ea a ltac:(lra)).
      replace (2 * (em - el) / c) with (2 * (ea - el) * (a - 0) / (a - 0) ^ 2) by (unfold ea; field; lra).
      eapply joint; [| | |exact A|exact B|].
      * intros y Hy. unfold le. le_cases; reflexivity.
      * intros y Hy. unfold le. le_cases; reflexivity.
      * rewrite !vertex_at by lra. reflexivity.
      * unfold ea. field. lra.
  - apply derive_le_local with (fun x => le x c (vertex c em a ea x) (vertex c em (L - b) ed x)).
    + destruct (Hd0 a c (L - b) ltac:(lra)) as (d & D0 & D1 & D2). exists d. split; [exact D0|]. intros y Hy.
      unfold e, drape, le. fold ea ed. le_cases; reflexivity.
    + assert (A := vertex_slope c em a ea c ltac:(lra)). assert (B := vertex_slope c em (L - b) ed c ltac:(lra)).
      replace (2 * (ea - em) * (c - c) / (a - c) ^ 2) with 0 in A by (field; lra). replace (2 * (ed - em) * (c - c) / (L - b - c) ^ 2) with 0 in B by (field; lra).
      eapply joint; [| | |exact A|exact B|reflexivity].
      * intros y Hy. unfold le. le_cases; reflexivity.
      * intros y Hy. unfold le. le_cases; reflexivity.
      * rewrite !vertex_top by lra. reflexivity.
  - rewrite (ex_derive_local e (fun x => le x (L - b) (vertex c em (L - b) ed x) (vertex L er (L - b) ed x))).
    2:{ destruct (Hd0 c (L - b) L ltac:(lra)) as (d & D0 & D1 & D2). exists d. split; [exact D0|]. intros y Hy.
        unfold e, drape, le. fold ea ed. le_cases; reflexivity. }
    assert (A := vertex_slope c em (L - b) ed (L - b) ltac:(lra)). assert (B := vertex_slope L er (L - b) ed (L - b) ltac:(lra)).
    edestruct (joint (fun x => le x (L - b) (vertex c em (L - b) ed x) (vertex L er (L - b) ed x))) as [J _]; [| | |exact A|exact B|].
    + intros y Hy. unfold le. le_cases; reflexivity.
    + intros y Hy. unfold le. le_cases; reflexivity.
    + rewrite !vertex_at by lra. reflexivity.
    + rewrite J. clear J A B.
      assert (E : 2 * (ed - em) * (L - b - c) / (L - b - c) ^ 2 - 2 * (ed - er) * (L - b - L) / (L - b - L) ^ 2
                  = 2 * (er - em) * (c - b) / ((L - b - c) * (L - b))) by (unfold ed; field; lra).
      split; intros H.
      * assert (Z : (er - em) * (c - b) = 0).
        { apply Rmult_eq_reg_r with (2 / ((L - b - c) * (L - b))).
          - transitivity (2 * (er - em) * (c - b) / ((L - b - c) * (L - b))); [field; lra|]. rewrite <- E. lra.
          - apply Rmult_integral_contrapositive_currified; [lra|]. apply Rinv_neq_0_compat. apply Rmult_integral_contrapositive_currified; lra. }
        apply Rmult_integral in Z. destruct Z; [left|right]; lra.
      * assert (Z : (er - em) * (c - b) = 0) by (destruct H as [-> | ->]; ring).
        replace (2 * (er - em) * (c - b) / ((L - b - c) * (L - b))) with (2 / ((L - b - c) * (L - b)) * ((er - em) * (c - b))) in E by (field; lra).
        rewrite Z in E. lra.
Qed.

(** ** Closed forms *)
Lemma div_ok x y : y <> 0 -> pydiv x y = Ok (x / y).
Proof. intros H. unfold pydiv. destruct (Reqb_spec y 0); [contradiction|reflexivity]. Qed.
Lemma ltb_t x y : x < y -> Rltb x y = true.
Proof. intros H. destruct (Rltb_spec x y); [reflexivity|lra]. Qed.
Lemma ltb_f x y : y <= x -> Rltb x y = false.
Proof. intros H. destruct (Rltb_spec x y); [lra|reflexivity]. Qed.
Lemma leb_t x y : x <= y -> Rleb x y = true.
Proof. intros H. destruct (Rleb_spec x y); [reflexivity|lra]. Qed.
Lemma leb_f x y : y < x -> Rleb x y = false.
Proof. intros H. destruct (Rleb_spec x y); [lra|reflexivity]. Qed.
Lemma eqb_f x y : x <> y -> Reqb x y = false.
Proof. intros H. destruct (Reqb_spec x y); [lra|reflexivity]. Qed.
Lemma eqb_t x y : x = y -> Reqb x y = true.
Proof. intros H. destruct (Reqb_spec x y); [reflexivity|lra]. Qed.

Theorem parabola_udl F a L r0 r1 r2 r3 : 1e-9 < L -> 1e-9 < Rabs (8 * a / L ^ 2) -> r0 <> 0 -> r2 <> 0 ->
  equivalent_loads [L] [r0; r1; r2; r3] (FScalar F) [Some (Parabola 0 a 0 0 0)] = Ok [Row 1 1 [- (8) * F * a / L ^ 2]].
Proof.
  intros HL Ha H0 H2. change (1e-9) with tol in *. pose proof tol_pos as TP.
  assert (S : segments (Parabola 0 a 0 0 0) L None = Ok [{| sg_x1 := 0; sg_x2 := L; sg_e1 := 0; sg_e2 := 0; sg_epp := - (8 * a / L ^ 2) |}]).
  { unfold segments, parabola_segments. cbv zeta. rewrite leb_f by lra. unfold parabola_through. rewrite half.
    rewrite div_ok by lra. cbn [rbind]. rewrite div_ok by lra. cbn [rbind]. rewrite div_ok by lra. cbn [rbind].
    unfold flat_if. rewrite ltb_f by lra. cbn [app]. do 3 f_equal; [ring|field; lra]. }
  unfold equivalent_loads. cbv zeta. cbn [length Nat.eqb negb repeat spans_rows get nth_error rbind].
  unfold cantilever_side. cbn [Nat.mul Nat.add get nth_error rbind]. rewrite (eqb_f _ _ H0), (eqb_f _ _ H2). cbn [rbind].
  rewrite S. cbn [rbind span_rows sg_epp]. rewrite Rabs_Ropp, ltb_t by exact Ha. cbn [sg_x1 sg_x2].
  rewrite (leb_t 0 tol), (leb_t (L - tol) L) by lra. cbn [andb rbind].
  unfold slope_end, slope_start, seg_length. cbn [sg_x1 sg_x2 sg_e1 sg_e2 sg_epp]. rewrite div_ok by lra. cbn [rbind app get nth_error fst snd an_first an_last last].
  unfold slope_start, seg_length. cbn [sg_x1 sg_x2 sg_e1 sg_e2 sg_epp]. rewrite div_ok by lra. cbn [rbind fst snd an_first an_last].
  unfold both_zero. cbn [Nat.mul Nat.add get nth_error rbind]. rewrite (eqb_f _ _ H0), (eqb_f _ _ H2). cbn [rbind].
  rewrite Rabs_R0, ltb_f by lra. cbn [app]. do 4 f_equal. field. lra.
Qed.

Theorem straight_moments F e L r0 r1 r2 r3 : 1e-9 < L -> 1e-9 < Rabs e -> r0 <> 0 -> r2 <> 0 ->
  equivalent_loads [L] [r0; r1; r2; r3] (FScalar F) [Some (Parabola e e e 0 0)] = Ok [Row 1 4 [F * e; 0]; Row 1 4 [- F * e; L]].
Proof.
  intros HL Ha H0 H2. change (1e-9) with tol in *. pose proof tol_pos as TP.
  assert (S : segments (Parabola e e e 0 0) L None = Ok [{| sg_x1 := 0; sg_x2 := L; sg_e1 := e; sg_e2 := e; sg_epp := 0 |}]).
  { unfold segments, parabola_segments. cbv zeta. rewrite leb_f by lra. unfold parabola_through. rewrite half.
    rewrite div_ok by lra. cbn [rbind]. rewrite div_ok by lra. cbn [rbind]. rewrite div_ok by lra. cbn [rbind].
    unfold flat_if. rewrite ltb_f by lra. cbn [app]. do 3 f_equal; [ring|field; lra]. }
  unfold equivalent_loads. cbv zeta. cbn [length Nat.eqb negb repeat spans_rows get nth_error rbind].
  unfold cantilever_side. cbn [Nat.mul Nat.add get nth_error rbind]. rewrite (eqb_f _ _ H0), (eqb_f _ _ H2). cbn [rbind].
  rewrite S. cbn [rbind span_rows sg_epp]. rewrite Rabs_R0, (ltb_f tol 0) by lra. cbn [rbind].
  unfold slope_end, slope_start, seg_length. cbn [sg_x1 sg_x2 sg_e1 sg_e2 sg_epp]. rewrite div_ok by lra. cbn [rbind app get nth_error fst snd an_first an_last last].
  unfold slope_start, seg_length. cbn [sg_x1 sg_x2 sg_e1 sg_e2 sg_epp]. rewrite div_ok by lra. cbn [rbind fst snd an_first an_last].
  unfold both_zero. cbn [Nat.mul Nat.add get nth_error rbind]. rewrite (eqb_f _ _ H0), (eqb_f _ _ H2). cbn [rbind].
  rewrite (ltb_t _ _ Ha). cbn [app]. reflexivity.
Qed.

(** ** Anomalies *)
Lemma seg_eq x1 x2 e1 e2 k x1' x2' e1' e2' k' : x1 = x1' -> x2 = x2' -> e1 = e1' -> e2 = e2' -> k = k' ->
  {| sg_x1 := x1; sg_x2 := x2; sg_e1 := e1; sg_e2 := e2; sg_epp := k |} = {| sg_x1 := x1'; sg_x2 := x2'; sg_e1 := e1'; sg_e2 := e2'; sg_epp := k' |}.
Proof. congruence. Qed.
Lemma span_rows_step sp Li Fi s t prev rest : sg_x1 s < sg_x2 s -> span_rows sp Li Fi t (Some (sl1 s)) = Ok rest ->
  exists pre, span_rows sp Li Fi (s :: t) prev = Ok (pre ++ rest).
Proof.
  intros Hs Hr. cbn [span_rows].
  assert (E0 : slope_start s = Ok (sl0 s)) by exact (slope_start_ok s Hs).
  assert (E1 : slope_end s = Ok (sl1 s)) by (unfold slope_end; rewrite E0; reflexivity).
  rewrite E0, E1. cbn [rbind]. rewrite Hr.
  set (rows := if Rltb tol (Rabs (sg_epp s)) then _ else _). destruct prev as [q|]; cbn [rbind].
  - destruct (_ && _ && _)%bool; cbn [rbind]; eexists; f_equal; rewrite app_assoc; reflexivity.
  - eexists; f_equal; rewrite app_assoc; reflexivity.
Qed.
Lemma span_rows_kink sp Li Fi s prev : sg_x1 s < sg_x2 s -> tol < Rabs (sl0 s - prev) -> tol < sg_x1 s < Li - tol ->
  exists pre, span_rows sp Li Fi [s] (Some prev) = Ok (pre ++ [Row sp 2 [Fi * (sl0 s - prev); sg_x1 s]]).
Proof.
  intros Hs Hk Hx. cbn [span_rows].
  assert (E0 : slope_start s = Ok (sl0 s)) by exact (slope_start_ok s Hs).
  assert (E1 : slope_end s = Ok (sl1 s)) by (unfold slope_end; rewrite E0; reflexivity).
  rewrite E0, E1. cbn [rbind]. rewrite !ltb_t by lra. cbn [andb rbind]. rewrite app_nil_r. eexists. reflexivity.
Qed.

Lemma compound_kink : exists LM, equivalent_loads [10] [-1; 0; -1; 0] (FScalar 8) [Some (CompoundParabola 0 1 0 2 2 4)] = Ok LM /\ In (Row 1 2 [1; 8]) LM.
Proof.
  assert (TP : tol = 1e-9) by reflexivity.
  set (s1 := {| sg_x1 := 0; sg_x2 := 2; sg_e1 := 0; sg_e2 := 1/2; sg_epp := 1/4 |}).
  set (s2 := {| sg_x1 := 2; sg_x2 := 4; sg_e1 := 1/2; sg_e2 := 1; sg_epp := -1/4 |}).
  set (s3 := {| sg_x1 := 4; sg_x2 := 8; sg_e1 := 1; sg_e2 := 1/4; sg_epp := -3/32 |}).
  set (s4 := {| sg_x1 := 8; sg_x2 := 10; sg_e1 := 1/4; sg_e2 := 0; sg_epp := 1/8 |}).
  assert (S : segments (CompoundParabola 0 1 0 2 2 4) 10 None = Ok [s1; s2; s3; s4]).
  { unfold segments, compound_segments. cbv zeta. rewrite !ltb_t by lra. cbn [andb negb].
    repeat (rewrite div_ok by lra; cbn [rbind]). apply f_equal.
    do 4 (apply f_equal2; [unfold s1, s2, s3, s4; apply seg_eq; lra || field|]). reflexivity. }
  assert (V : sl0 s4 - sl1 s3 = 1/8) by (unfold sl1, sl0, seg_length; cbn [sg_x1 sg_x2 sg_e1 sg_e2 sg_epp s3 s4]; field).
  destruct (span_rows_kink 1 10 8 s4 (sl1 s3)) as (p4 & R4).
  { cbn. lra. } { rewrite V, Rabs_pos_eq; lra. } { cbn. lra. }
  destruct (span_rows_step 1 10 8 s3 [s4] (Some (sl1 s2)) _ ltac:(cbn; lra) R4) as (p3 & R3).
  destruct (span_rows_step 1 10 8 s2 [s3; s4] (Some (sl1 s1)) _ ltac:(cbn; lra) R3) as (p2 & R2).
  destruct (span_rows_step 1 10 8 s1 [s2; s3; s4] None _ ltac:(cbn; lra) R2) as (p1 & R1).
  unfold equivalent_loads. cbv zeta. cbn [length Nat.eqb negb repeat spans_rows get nth_error rbind].
  unfold cantilever_side. cbn [Nat.mul Nat.add get nth_error rbind]. rewrite !(eqb_f (-1) 0) by lra. cbn [rbind].
  rewrite S. cbn [rbind]. change (Z.of_nat 0 + 1)%Z with 1%Z. rewrite R1. cbn [rbind get nth_error an_first snd fst].
  assert (Q0 : exists q, slope_start s1 = Ok q) by (eexists; apply slope_start_ok; cbn; lra).
  assert (Q1 : exists q, slope_end s4 = Ok q) by (eexists; apply slope_end_ok; cbn; lra).
  destruct Q0 as (q0 & Q0), Q1 as (q1 & Q1). rewrite Q0. cbn [rbind last]. rewrite Q1. cbn [rbind].
  unfold both_zero. cbn [get nth_error rbind]. rewrite !(eqb_f (-1) 0) by lra. cbn [rbind].
  eexists. split; [reflexivity|]. cbn [fst app]. apply in_or_app. left. do 4 (apply in_or_app; right).
  left. rewrite V. cbn [sg_x1 s4]. do 2 f_equal. lra.
Qed.

Lemma unstressed_first : equivalent_loads [10; 10] [-1; 0; -1; 0; -1; 0] (FScalar 5) [None; Some (Parabola 1 1 1 0 0)] = Ok [Row 1 4 [5 * 1; 0]; Row 2 4 [- 5 * 1; 10]].
Proof.
  assert (TP : tol = 1e-9) by reflexivity.
  assert (S : segments (Parabola 1 1 1 0 0) 10 None = Ok [{| sg_x1 := 0; sg_x2 := 10; sg_e1 := 1; sg_e2 := 1; sg_epp := 0 |}]).
  { unfold segments, parabola_segments. cbv zeta. rewrite leb_f by lra. unfold parabola_through.
    repeat (rewrite div_ok by lra; cbn [rbind]). unfold flat_if. rewrite ltb_f by lra. cbn [app]. apply f_equal, f_equal2; [apply seg_eq; lra|reflexivity]. }
  unfold equivalent_loads. cbv zeta. cbn [length Nat.eqb negb repeat spans_rows get nth_error rbind Nat.add].
  unfold cantilever_side. cbn [Nat.mul Nat.add get nth_error rbind]. rewrite !(eqb_f (-1) 0) by lra. cbn [rbind].
  rewrite S. cbn [rbind span_rows sg_epp]. rewrite Rabs_R0, (ltb_f tol 0) by lra. cbn [rbind].
  unfold slope_end, slope_start, seg_length. cbn [sg_x1 sg_x2 sg_e1 sg_e2 sg_epp]. rewrite div_ok by lra. cbn [rbind app get nth_error fst snd an_first an_last last].
  unfold slope_start, seg_length. cbn [sg_x1 sg_x2 sg_e1 sg_e2 sg_epp]. rewrite div_ok by lra. cbn [rbind fst snd an_first an_last].
  unfold both_zero. cbn [Nat.mul Nat.add get nth_error rbind]. rewrite !(eqb_f (-1) 0) by lra. cbn [rbind].
  rewrite Rabs_R1, (ltb_t tol 1) by lra. cbn [app]. reflexivity.
Qed.

Lemma all_unstressed F : equivalent_loads [10] [-1; -1; 0; 0] (FScalar F) [None] = Err NameError /\ equivalent_loads [10] [-1; -1; -1; 0] (FScalar F) [None] = Ok [].
Proof.
  unfold equivalent_loads. cbv zeta. cbn [length Nat.eqb negb repeat spans_rows rbind]. unfold both_zero. cbn [Nat.mul Nat.add get nth_error rbind].
  rewrite !(eqb_f (-1) 0), !(eqb_t 0 0) by lra. cbn [rbind fst snd an_first an_last]. split; reflexivity.
Qed.

(** ** A simply supported span: 6 m, tendon sagging 9 at midspan, unit force *)
Definition ss_row : row := Row 1 1 [- (8) * 1 * 9 / 6 ^ 2].
Definition ss_beam : beam :=
  {| b_lengths := [6]; b_EIs := [RConst 2]; b_GAv := [None]; b_kf := [None];
     b_types := [1%nat]; b_nspans := 1; b_length := 0 + 6; b_terminal := [0; 0 + 6];
     b_R := [-1; 0; -1; 0]; b_D := [None; None; None; None]; b_LM := [ss_row]; b_version := 1 |}.
Definition ss : analysis :=
  {| an_beam := ss_beam; an_n := 1; an_npts := 100; an_checked := None; an_out := None |}.
Definition ss_ctor : ctor := {| ct_L := [6]; ct_EI := EIAll (RConst 2); ct_R := Some [-1; 0; -1; 0]; ct_LM := Some [ss_row];
     ct_types := [EtNum [1%Z]]; ct_D := None; ct_sup := None; ct_GAv := GNone; ct_kf := KNone |}.
Definition ss_mb : member := {| mb_L := 6; mb_EI := RConst 2; mb_GAv := None; mb_kf := None; mb_type := 1 |}.
Lemma ss_member i mb : member_at ss_beam i = Ok mb -> i = 0%nat /\ mb = ss_mb.
Proof. intros E. destruct i as [|i]; [|destruct i; discriminate]. cbv in E. injection E as <-. auto. Qed.
Lemma ss_sound : sound_member ss_mb.
Proof. constructor; cbn; try lra; try lia; try reflexivity; try discriminate; exact Rlt_0_2 || (intros; discriminate). Qed.
Lemma ss_wf gl : well_formed gl ss_beam 1.
Proof.
  split; [cbn; lia|]. split; [cbn; lia|]. eexists; split; [reflexivity|]. intros m Hm.
  replace m with 0%nat by lia. do 3 eexists. repeat (split; [reflexivity|]). reflexivity.
Qed.
Lemma ss_core ill : exists o, snd (analyze_core sample_gl ill ss None false) = Ok o.
Proof.
  apply (analyze_solves sample_gl ill ss None gauss2_rule (ss_wf _)).
  - intros m mb Hm E. destruct (ss_member m mb E) as [_ ->]. exact ss_sound.
  - intros (rf & i & _ & Hi & _ & C & _). apply C. cbn in Hi.
    assert (i = 0 \/ i = 1 \/ i = 2 \/ i = 3)%nat as [->|[->|[->| ->]]] by lia; reflexivity.
  - apply continuous_stable.
    + exact gauss2_rule.
    + intros m mb Hm E. destruct (ss_member m mb E) as [_ ->]. split; [exact ss_sound|reflexivity].
    + intros m Hm. cbn in Hm. replace m with 0%nat by lia. do 2 eexists; split; reflexivity.
    + exists 0%nat, 1%nat. split; [cbn; lia|]. split; [cbn; lia|]. split; [left; right; cbn; lra|].
      right. split; [lia|]. left. right. cbn. lra.
Qed.
Lemma ss_results ill sps : exists a' br, analyze sample_gl ill ss sps None false = (a', Ok br) /\ an_npts a' = 100%nat.
Proof.
  destruct (ss_core ill) as (o & Ho).
  destruct (analyze_total_ok sample_gl ill ss sps None false o [(0%Z, LUDL (- (8) * 1 * 9 / 6 ^ 2))] Ho) as (a' & br & E & EP & ED).
  - reflexivity.
  - exact (ss_wf _).
  - reflexivity.
  - intros i mb Hi E. destruct (ss_member i mb E) as (_ & ->). split; [split; [eexists; reflexivity|left; reflexivity]|reflexivity].
  - intros i mb Hi E. cbn in Hi. replace i with 0%nat by lia. cbn. eexists. reflexivity.
  - exists a', br. auto.
Qed.

(** ** Continuity of the drape *)
Definition everywhere (f : R -> R) : Prop := forall x, continuity_pt f x.
Lemma pt_ext f g x : (forall y, f y = g y) -> continuity_pt f x -> continuity_pt g x.
Proof. intros E H. apply continuity_pt_ext with f; assumption. Qed.
Lemma clip_l c : everywhere (fun x => (x + c - Rabs (x - c)) / 2).
Proof. intros x. reg. Qed.
Lemma clip_r c : everywhere (fun x => x - ((x + c - Rabs (x - c)) / 2 - c)).
Proof. intros x. reg. Qed.
Lemma glue g h c : everywhere g -> everywhere h -> g c = h c -> everywhere (fun x => le x c (g x) (h x)).
Proof.
  intros Hg Hh E x.
  apply (pt_ext (fun y => g ((y + c - Rabs (y - c)) / 2) + h (y - ((y + c - Rabs (y - c)) / 2 - c)) - g c)).
  { intros y. unfold le. destruct (Rle_dec y c).
    - replace ((y + c - Rabs (y - c)) / 2) with y by (rewrite Rabs_left1 by lra; field). replace (y - (y - c)) with c by ring. rewrite E. ring.
    - replace ((y + c - Rabs (y - c)) / 2) with c by (rewrite Rabs_pos_eq by lra; field). replace (y - (c - c)) with y by ring. ring. }
  apply (continuity_pt_minus (fun y => g ((y + c - Rabs (y - c)) / 2) + h (y - ((y + c - Rabs (y - c)) / 2 - c))) (fun _ => g c)); [|reg].
  apply (continuity_pt_plus (fun y => g ((y + c - Rabs (y - c)) / 2)) (fun y => h (y - ((y + c - Rabs (y - c)) / 2 - c)))).
  - apply (continuity_pt_comp (fun y => (y + c - Rabs (y - c)) / 2) g); [apply clip_l|apply Hg].
  - apply (continuity_pt_comp (fun y => y - ((y + c - Rabs (y - c)) / 2 - c)) h); [apply clip_r|apply Hh].
Qed.
Lemma glue_r g h c : everywhere g -> everywhere h -> g c = h c -> everywhere (fun x => le c x (h x) (g x)).
Proof.
  intros Hg Hh E x. apply (pt_ext (fun y => le y c (g y) (h y))); [|apply glue; assumption].
  intros y. unfold le. destruct (Rle_dec y c), (Rle_dec c y); try reflexivity; try lra. replace y with c by lra. exact E.
Qed.
Lemma smooth f : (forall x : R, ex_derive f x) -> everywhere f.
Proof. intros H x. apply continuity_pt_filterlim, (ex_derive_continuous f x (H x)). Qed.
Lemma const_cont c : everywhere (fun _ => c). Proof. intros x. reg. Qed.
Lemma chord_cont x1 e1 x2 e2 : everywhere (chord x1 e1 x2 e2).
Proof. apply smooth. intros x. unfold chord. auto_derive. exact I. Qed.
Lemma vertex_cont a b c d : everywhere (vertex a b c d).
Proof. apply smooth. intros x. unfold vertex. auto_derive. exact I. Qed.
Lemma lagrange_cont a b c d e f : everywhere (lagrange a b c d e f).
Proof. apply smooth. intros x. unfold lagrange. auto_derive. exact I. Qed.

Ltac gluing := first [apply const_cont | apply chord_cont | apply vertex_cont | apply lagrange_cont
  | apply glue; [gluing|gluing|les; piece; field; lra] | apply glue_r; [gluing|gluing|les; piece; field; lra]].
Theorem drape_continuous p L t : placed p L t -> forall x, continuity_pt (drape p L t) x.
Proof.
  intros (HL & HS & HF). change (1e-9) with tol in HF. pose proof tol_pos as TP. destruct p, t as [[|]|]; cbn [breaks] in HS, HF; unfold unless0 in *;
    repeat match goal with H : context [Req_EM_T ?c 0] |- _ => destruct (Req_EM_T c 0); subst end; cbn [app] in HS, HF; sorted; unfold drape; cbv zeta.
  all: gluing.
Qed.

(** ** A straight eccentric tendon, whatever the supports *)
Lemma straight_any r0 r1 r2 r3 : equivalent_loads [10] [r0; r1; r2; r3] (FScalar 5) [Some (Parabola 1 1 1 0 0)] = Ok [Row 1 4 [5 * 1; 0]; Row 1 4 [- 5 * 1; 10]].
Proof.
  assert (TP : tol = 1e-9) by reflexivity.
  assert (S : forall t, segments (Parabola 1 1 1 0 0) 10 t = Ok [{| sg_x1 := 0; sg_x2 := 10; sg_e1 := 1; sg_e2 := 1; sg_epp := 0 |}]).
  { intros [[|]|]; unfold segments, parabola_segments; cbv zeta; rewrite ?leb_f by lra; unfold parabola_through;
      repeat (rewrite div_ok by lra; cbn [rbind]); unfold flat_if; rewrite ltb_f by lra; cbn [app]; apply f_equal, f_equal2; try reflexivity; apply seg_eq; lra. }
  unfold equivalent_loads. cbv zeta. cbn [length Nat.eqb negb repeat spans_rows get nth_error rbind Nat.add].
  assert (C : exists t, cantilever_side [r0; r1; r2; r3] 0 = Ok t).
  { unfold cantilever_side. cbn [Nat.mul Nat.add get nth_error rbind]. destruct (Reqb r0 0), (Reqb r1 0), (Reqb r2 0), (Reqb r3 0); cbn; eauto. }
  destruct C as (t & ->). cbn [rbind].
  rewrite S. cbn [rbind span_rows sg_epp]. rewrite Rabs_R0, (ltb_f tol 0) by lra. cbn [rbind].
  unfold slope_end, slope_start, seg_length. cbn [sg_x1 sg_x2 sg_e1 sg_e2 sg_epp]. rewrite div_ok by lra. cbn [rbind app get nth_error fst snd an_first an_last last].
  unfold slope_start, seg_length. cbn [sg_x1 sg_x2 sg_e1 sg_e2 sg_epp]. rewrite div_ok by lra. cbn [rbind fst snd an_first an_last].
  unfold both_zero. cbn [Nat.mul Nat.add get nth_error rbind].
  replace ((1 - 1) / (10 - 0) - 5e-1 * 0 * (10 - 0)) with 0 by lra. replace (0 + 0 * (10 - 0)) with 0 by lra.
  rewrite Rabs_R0, Rabs_R1, (ltb_t tol 1), (ltb_f tol 0) by lra.
  destruct (Reqb r0 0), (Reqb r1 0), (Reqb r2 0), (Reqb r3 0); cbn; reflexivity.
Qed.
Definition ecc_loads : list (Z * load) := [(0%Z, LML (5 * 1) 0); (0%Z, LML (- 5 * 1) 10)].
Lemma ecc_parse : parse_LM [Row 1 4 [5 * 1; 0]; Row 1 4 [- 5 * 1; 10]] = Ok ecc_loads.
Proof. reflexivity. Qed.
Lemma ecc_placed t : placed (Parabola 1 1 1 0 0) 10 t.
Proof. split; [lra|]. destruct t as [[|]|]; cbn; unfold unless0; repeat (match goal with |- context [Req_EM_T 0 0] => destruct (Req_EM_T 0 0); [|lra] end); split; constructor. Qed.
Lemma zero_int (g : R -> R) a b : (forall t, g t = 0) -> is_RInt g a b 0.
Proof.
  intros H. apply is_RInt_ext with (fun _ => 0); [intros; symmetry; apply H|]. evar_last; [apply is_RInt_const|]. unfold scal; cbn; unfold mult; cbn; ring.
Qed.
Lemma ecc_cut : cut_equilibrium 10 (actions 10 (loads_of ecc_loads 0)) 0 0 0 (fun _ => 0) (fun _ => -5).
Proof.
  constructor.
  - intros x Hx _. exists 0. split; [apply zero_int; intros; cbn; ring|]. unfold left_of. cbn. ring.
  - intros x Hx Ha. exists 0. split; [apply zero_int; intros; cbn; ring|]. unfold left_of. cbn.
    cbn in Ha. pose proof (Ha _ (or_introl eq_refl)). pose proof (Ha _ (or_intror (or_introl eq_refl))). cbn in *.
    destruct (Rlt_dec 0 x), (Rlt_dec 10 x); lra.
  - exists 0. split; [apply zero_int; intros; cbn; ring|]. cbn. ring.
Qed.
Lemma ecc_balance : total_load 10 (actions 10 (loads_of ecc_loads 0)) 0 /\ first_moment 10 (actions 10 (loads_of ecc_loads 0)) 0.
Proof. split; (exists 0; split; [apply zero_int; intros; cbn; ring|cbn; ring]). Qed.
