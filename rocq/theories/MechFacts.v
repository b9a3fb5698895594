(** Mechanisms, uniqueness, existence (C13) and reciprocity (C15). *)
From Verif Require Import Base BaseFacts Linalg LinalgFacts SectionModel FlexModel LoadModel LoadSpec
  ClampFacts FoundationModel ElementModel ElementSpec ElementFacts ElementFacts2 UtilsModel BeamModel AnalysisModel
  AnalysisSpec LMFacts LinearFacts AnalysisFacts AnalysisFacts2 SuperFacts BalanceFacts.
Open Scope R_scope.

(** A positive semidefinite member with zero energy has no end forces. *)
Lemma zero_energy_forces k d : symmetric4 k -> (forall z, 0 <= energy k z) -> energy k d = 0 ->
  forall p, (p < 4)%nat -> end_forces k d p = 0.
Proof.
  intros Sy HP H0 p Hp. set (g := end_forces k d p).
  assert (E : forall t, energy k (fun i => d i + (if Nat.eqb i p then t else 0)) = energy k d + 2 * t * g + t * t * k p p).
  { intros t. unfold g, energy, end_forces, mulmv. cbn [rsum].
    assert (S01 := Sy 0%nat 1%nat ltac:(lia) ltac:(lia)). assert (S02 := Sy 0%nat 2%nat ltac:(lia) ltac:(lia)).
    assert (S03 := Sy 0%nat 3%nat ltac:(lia) ltac:(lia)). assert (S12 := Sy 1%nat 2%nat ltac:(lia) ltac:(lia)).
    assert (S13 := Sy 1%nat 3%nat ltac:(lia) ltac:(lia)). assert (S23 := Sy 2%nat 3%nat ltac:(lia) ltac:(lia)).
    destruct p as [|[|[|[|p]]]]; try lia; cbn [Nat.eqb]; rewrite ?S01, ?S02, ?S03, ?S12, ?S13, ?S23; ring. }
  assert (H1 := HP (fun i => d i + (if Nat.eqb i p then - g / (1 + Rabs (k p p)) else 0))).
  rewrite E, H0 in H1. set (c := 1 + Rabs (k p p)) in *.
  assert (Hc : 0 < c) by (unfold c; assert (X := Rabs_pos (k p p)); lra).
  assert (Hk : k p p <= c) by (unfold c; assert (X := Rle_abs (k p p)); lra).
  destruct (Req_EM_T g 0) as [|Hg]; [assumption|exfalso].
  assert (G2 : 0 < g * g) by nra.
  assert (Eq : 0 + 2 * (- g / c) * g + - g / c * (- g / c) * k p p = g * g / (c * c) * (k p p - 2 * c)) by (field; lra).
  rewrite Eq in H1. assert (0 < g * g / (c * c)) by (apply Rdiv_lt_0_compat; nra). nra.
Qed.

Section G.
Variable gl : nat -> list (R * R).
Variable ill : nat -> mat -> bool.

Lemma held_bcv b i : held b i <-> bcv b i <> None.
Proof.
  unfold held, bcv. destruct (prescribed b i); [split; [discriminate|left; discriminate]|].
  destruct (Rlt_dec (restraint b i) 0); split; try tauto; try discriminate.
Qed.

Lemma mechanism_kernel b n kb y : (forall m, (m < n)%nat -> exists mb, member_at b m = Ok mb /\ span_k gl mb = Ok (kb m)) ->
  mechanism gl b n y -> kernel b n kb y.
Proof.
  intros Hk (_ & HS & HF) i Hi. destruct (bcv b i) eqn:E.
  - apply HS; [exact Hi|]. left. apply held_bcv. congruence.
  - rewrite Kcl_mul by exact Hi. rewrite rsum_0.
    + unfold spring_force. destruct (Rlt_dec 0 (restraint b i)) as [Hr|Hr]; [|ring].
      rewrite (HS i Hi (or_intror Hr)). ring.
    + intros m Hm. unfold scat. destruct (Nat.leb_spec (2 * m) i), (Nat.ltb_spec i (2 * m + 4)); cbn [andb]; try reflexivity.
      destruct (Hk m Hm) as (mb & E1 & E2). eapply HF; [exact Hm|exact E1|exact E2|lia].
Qed.

Lemma kernel_mechanism b n kb y : gauss_rule gl -> members b n sound_member ->
  (forall m, (m < n)%nat -> exists mb, member_at b m = Ok mb /\ span_k gl mb = Ok (kb m)) ->
  kernel b n kb y -> (exists i, (i < 2 * (n + 1))%nat /\ y i <> 0) -> mechanism gl b n y.
Proof.
  intros G HM Hk HK HN. set (N := (2 * (n + 1))%nat) in *.
  assert (Z : rsum N (fun i => mulmv N (Kcl kb b n) y i * y i) = 0).
  { apply rsum_0. intros i Hi. specialize (HK i Hi). fold N in HK. destruct (bcv b i); rewrite HK; ring. }
  assert (Good : forall m, (m < n)%nat -> exists L, good L (kb m)).
  { intros m Hm. destruct (Hk m Hm) as (mb & E1 & E2). exists (mb_L mb). eapply span_k_good; eauto. }
  assert (W : rsum N (fun i => mulmv N (Kcl kb b n) y i * y i)
     = rsum n (fun m => energy (kb m) (ends y m)) + rsum N (fun i => - spring_force b i (y i) * y i)).
  { rewrite (rsum_ext N _ (fun i => nodal_sum n (fun m => end_forces (kb m) (ends y m)) i * y i + - spring_force b i (y i) * y i)).
    - rewrite rsum_plus. unfold N. rewrite virtual_work. f_equal. apply rsum_ext. intros m Hm.
      unfold energy. apply rsum_ext. intros q _. apply Rmult_comm.
    - intros i Hi. unfold N. rewrite Kcl_mul by exact Hi. rewrite <- scat_nodal by exact Hi. ring. }
  rewrite Z in W.
  assert (P1 : forall m, (m < n)%nat -> 0 <= energy (kb m) (ends y m)).
  { intros m Hm. destruct (Good m Hm) as (L & Gd). apply (g_pos _ _ Gd). }
  assert (P2 : forall i, (i < N)%nat -> 0 <= - spring_force b i (y i) * y i).
  { intros i Hi. unfold spring_force. destruct (Rlt_dec 0 (restraint b i)); [|lra].
    replace (- (- restraint b i * y i) * y i) with (restraint b i * (y i * y i)) by ring.
    apply Rmult_le_pos; [lra|]. nra. }
  assert (Q1 := rsum_nonneg _ _ P1). assert (Q2 := rsum_nonneg _ _ P2).
  assert (E1 : rsum n (fun m => energy (kb m) (ends y m)) = 0) by lra.
  assert (E2 : rsum N (fun i => - spring_force b i (y i) * y i) = 0) by lra.
  split; [exact HN|]. split.
  - intros i Hi [Hh|Hr].
    + apply held_bcv in Hh. specialize (HK i Hi). destruct (bcv b i); [exact HK|congruence].
    + assert (X := rsum_nonneg_0 _ _ P2 E2 i Hi). cbn beta in X. unfold spring_force in X.
      destruct (Rlt_dec 0 (restraint b i)); [|lra].
      assert (restraint b i * (y i * y i) = 0) by lra. destruct (Rmult_integral _ _ H); [lra|nra].
  - intros m mb k p Hm Em Ek Hp. destruct (Hk m Hm) as (mb' & E3 & E4).
    replace mb' with mb in * by congruence. replace k with (kb m) by congruence.
    destruct (Good m Hm) as (L & Gd). apply zero_energy_forces; [exact (g_sym _ _ Gd)|exact (g_pos _ _ Gd)| |exact Hp].
    exact (rsum_nonneg_0 _ _ P1 E1 m Hm).
Qed.

Lemma well_formed_system b n : well_formed gl b n -> exists kb rf, system gl b n kb rf.
Proof.
  intros (_ & _ & ls & Hl & H).
  exists (fun m => match member_at b m with Ok mb => match span_k gl mb with Ok k => k | Err _ => fun _ _ => 0 end | Err _ => fun _ _ => 0 end),
    (fun m => match member_at b m with Ok mb => match span_ref gl mb (loads_of ls m) with Ok r => r | Err _ => fun _ => 0 end | Err _ => fun _ => 0 end).
  constructor.
  - intros m Hm. destruct (H m Hm) as (mb & k & r & E1 & E2 & E3). exists mb. rewrite E1, E2. auto.
  - exists ls. split; [exact Hl|]. intros m Hm. destruct (H m Hm) as (mb & k & r & E1 & E2 & E3). exists mb. rewrite E1, E3. auto.
Qed.

Lemma analyze_unique a npts check a' o d :
  analyze_core gl ill a npts check = (a', Ok o) ->
  equilibrium gl (an_beam a) (an_n a) (o_d o) /\
  (equilibrium gl (an_beam a) (an_n a) d -> forall i, (i < an_ndof a)%nat -> d i = o_d o i).
Proof.
  intros H. destruct (core_inv _ _ _ _ _ _ _ H) as [(kb & rf & S) _]. split; [exact (solved_equilibrium gl _ _ _ _ _ S)|].
  intros HE. apply (solved_unique gl _ _ _ _ _ d S). apply (equilibrium_solves gl); [exact (sv_sys _ _ _ _ _ _ S)|exact HE].
Qed.

Lemma analyze_mechanism a npts check y : well_formed gl (an_beam a) (an_n a) ->
  mechanism gl (an_beam a) (an_n a) y ->
  snd (analyze_core gl ill a npts check) = Err ValueError.
Proof.
  intros W M. destruct (well_formed_system _ _ W) as (kb & rf & S). destruct W as (HR & HD & _).
  assert (M' := M). destruct M' as ((i & Hi & Hy) & _).
  exact (core_mechanism gl ill a npts check kb rf y i S HR HD (mechanism_kernel _ _ _ _ (sy_k _ _ _ _ _ S) M) Hi Hy).
Qed.

Lemma fcl_nodal rf n i : (i < 2 * (n + 1))%nat -> fcl rf n i = - nodal_sum n rf i.
Proof. intros Hi. unfold fcl. rewrite scat_nodal by exact Hi. reflexivity. Qed.

Lemma analyze_solves a npts : gauss_rule gl -> well_formed gl (an_beam a) (an_n a) ->
  members (an_beam a) (an_n a) sound_member ->
  ~ inconsistent gl (an_beam a) (an_n a) ->
  (forall y, ~ mechanism gl (an_beam a) (an_n a) y) ->
  exists o, snd (analyze_core gl ill a npts false) = Ok o.
Proof.
  intros G W HM HC HN. rewrite core_npts. destruct (well_formed_system _ _ W) as (kb & rf & S). destruct W as (HR & HD & _).
  apply (core_total gl ill a false kb rf S HR HD).
  - intros i Hi (C1 & C2 & C3). apply HC. exists rf, i. split; [exact (sy_r _ _ _ _ _ S)|].
    rewrite <- fcl_nodal by exact Hi. auto.
  - intros y Hy i Hi. destruct (Req_EM_T (y i) 0) as [|Hz]; [assumption|]. exfalso. apply (HN y).
    apply (kernel_mechanism _ _ kb); auto; [exact (sy_k _ _ _ _ _ S)|]. eauto.
  - left. reflexivity.
Qed.

(** Motions without force of a chain of fixed-fixed members are straight lines. *)
Lemma mechanism_line b n y : gauss_rule gl ->
  members b n (fun mb => sound_member mb /\ mb_type mb = 1%nat) ->
  (forall m, (m < n)%nat -> exists mb k, member_at b m = Ok mb /\ span_k gl mb = Ok k) ->
  mechanism gl b n y -> forall j, (j <= n)%nat ->
  y (2 * j)%nat = y 0%nat + y 1%nat * node_x b j /\ y (2 * j + 1)%nat = y 1%nat.
Proof.
  intros G HM HK (_ & _ & HF). induction j as [|j IH]; intros Hj.
  - cbn. split; ring.
  - destruct IH as [I1 I2]; [lia|]. destruct (HK j ltac:(lia)) as (mb & k & E1 & E2).
    destruct (HM j mb ltac:(lia) E1) as [Sm T].
    assert (Z : energy k (ends y j) = 0).
    { unfold energy. apply rsum_0. intros p Hp. rewrite (HF j mb k p ltac:(lia) E1 E2 Hp). ring. }
    apply (span_k_zero_energy gl mb k _ G Sm T E2) in Z. destruct Z as (c & t & Z).
    assert (Z0 := Z 0%nat ltac:(lia)). assert (Z1 := Z 1%nat ltac:(lia)).
    assert (Z2 := Z 2%nat ltac:(lia)). assert (Z3 := Z 3%nat ltac:(lia)). unfold ends in *. cbn [vec4] in *.
    replace (2 * j + 0)%nat with (2 * j)%nat in Z0 by lia.
    replace (2 * S j)%nat with (2 * j + 2)%nat by lia. replace (2 * j + 2 + 1)%nat with (2 * j + 3)%nat by lia.
    rewrite Z2, Z3. rewrite (member_length b j mb E1). replace (S j) with (j + 1)%nat by lia.
    rewrite node_x_S. rewrite <- Z1, <- Z0, I1, I2. split; ring.
Qed.

Lemma node_x_incr b n i j : (forall m, (m < n)%nat -> 0 < span_length b m) -> (i < j <= n)%nat -> node_x b i < node_x b j.
Proof.
  intros H. induction j as [|j IH]; [lia|]. intros [Hij Hjn]. specialize (H j ltac:(lia)).
  replace (S j) with (j + 1)%nat by lia. rewrite node_x_S.
  destruct (Nat.eq_dec i j) as [->|]; [lra|]. assert (node_x b i < node_x b j) by (apply IH; lia). lra.
Qed.

(** A continuous beam on two vertical supports, or one vertical and one rotational, is stable. *)
Lemma continuous_stable b n : gauss_rule gl ->
  members b n (fun mb => sound_member mb /\ mb_type mb = 1%nat) ->
  (forall m, (m < n)%nat -> exists mb k, member_at b m = Ok mb /\ span_k gl mb = Ok k) ->
  (exists i j, (i <= n)%nat /\ (j <= n)%nat /\ supported b (2 * i) /\
     (supported b (2 * j + 1) \/ i <> j /\ supported b (2 * j))) ->
  forall y, ~ mechanism gl b n y.
Proof.
  intros G HM HK (i & j & Hi & Hj & Si & Sj) y M.
  assert (LN := mechanism_line b n y G HM HK M). destruct M as ((q & Hq & Hz) & HS & _).
  assert (Y1 : y 1%nat = 0).
  { destruct Sj as [Sj|[Hne Sj]].
    - destruct (LN j Hj) as [_ L2]. rewrite <- L2. apply HS; [lia|exact Sj].
    - destruct (LN i Hi) as [Li _], (LN j Hj) as [Lj _].
      rewrite (HS (2 * i)%nat ltac:(lia) Si) in Li. rewrite (HS (2 * j)%nat ltac:(lia) Sj) in Lj.
      assert (PL : forall m, (m < n)%nat -> 0 < span_length b m).
      { intros m Hm. destruct (HK m Hm) as (mb & k & E & _). rewrite <- (member_length b m mb E).
        apply sm_L. apply (HM m mb Hm E). }
      assert (XN : node_x b i <> node_x b j).
      { destruct (Nat.lt_ge_cases i j) as [Hlt|Hge].
        - assert (X := node_x_incr b n i j PL ltac:(lia)). lra.
        - assert (X := node_x_incr b n j i PL ltac:(lia)). lra. }
      assert (y 1%nat * (node_x b i - node_x b j) = 0) by lra.
      destruct (Rmult_integral _ _ H); [assumption|lra]. }
  assert (Y0 : y 0%nat = 0).
  { destruct (LN i Hi) as [Li _]. rewrite (HS (2 * i)%nat ltac:(lia) Si), Y1 in Li. lra. }
  apply Hz. assert (Eq : (q = 2 * (q / 2) + q mod 2)%nat) by (apply Nat.div_mod; lia).
  assert (Hr : (q mod 2 < 2)%nat) by (apply Nat.mod_upper_bound; lia).
  destruct (LN (q / 2)%nat ltac:(lia)) as [La Lb]. rewrite Y1, Y0 in *.
  destruct (q mod 2)%nat as [|[|]] eqn:ER; [| |lia]; rewrite Eq.
  - rewrite Nat.add_0_r, La. ring.
  - exact Lb.
Qed.

(** ** Reciprocity *)
Lemma bilinear_sym k d e : symmetric4 k -> rsum 4 (fun q => end_forces k d q * e q) = rsum 4 (fun q => end_forces k e q * d q).
Proof.
  intros Sy. unfold end_forces, mulmv. cbn [rsum].
  assert (S01 := Sy 0%nat 1%nat ltac:(lia) ltac:(lia)). assert (S02 := Sy 0%nat 2%nat ltac:(lia) ltac:(lia)).
  assert (S03 := Sy 0%nat 3%nat ltac:(lia) ltac:(lia)). assert (S12 := Sy 1%nat 2%nat ltac:(lia) ltac:(lia)).
  assert (S13 := Sy 1%nat 3%nat ltac:(lia) ltac:(lia)). assert (S23 := Sy 2%nat 3%nat ltac:(lia) ltac:(lia)).
  rewrite S01, S02, S03, S12, S13, S23. ring.
Qed.

Lemma Kcl_bilinear kb b n d e : (forall m, (m < n)%nat -> symmetric4 (kb m)) ->
  rsum (2 * (n + 1)) (fun i => mulmv (2 * (n + 1)) (Kcl kb b n) d i * e i)
  = rsum (2 * (n + 1)) (fun i => mulmv (2 * (n + 1)) (Kcl kb b n) e i * d i).
Proof.
  intros Sy.
  assert (X : forall d e, rsum (2 * (n + 1)) (fun i => mulmv (2 * (n + 1)) (Kcl kb b n) d i * e i)
     = rsum n (fun m => rsum 4 (fun q => end_forces (kb m) (ends d m) q * ends e m q))
       + rsum (2 * (n + 1)) (fun i => - spring_force b i (d i) * e i)).
  { intros u v. rewrite (rsum_ext (2 * (n + 1)) _ (fun i => nodal_sum n (fun m => end_forces (kb m) (ends u m)) i * v i + - spring_force b i (u i) * v i)).
    - rewrite rsum_plus, virtual_work. reflexivity.
    - intros i Hi. rewrite Kcl_mul by exact Hi. rewrite <- scat_nodal by exact Hi. ring. }
  rewrite !X. f_equal.
  - apply rsum_ext. intros m Hm. apply bilinear_sym, Sy, Hm.
  - apply rsum_ext. intros i _. unfold spring_force. destruct (Rlt_dec 0 (restraint b i)); ring.
Qed.

Lemma betti a A B check oA oB WAB WBA : gauss_rule gl -> no_settlement (an_beam a) ->
  members (an_beam a) (an_n a) sound_member ->
  run gl ill a A check = Ok oA -> run gl ill a B check = Ok oB ->
  load_work gl (set_loads (an_beam a) A) (an_n a) (o_d oB) WAB ->
  load_work gl (set_loads (an_beam a) B) (an_n a) (o_d oA) WBA -> WAB = WBA.
Proof.
  intros G ND HM HA HB (rA & LA & ->) (rB & LB & ->).
  destruct (run_solved _ _ _ _ _ _ HA) as (kA & rA' & SA & LA').
  destruct (run_solved _ _ _ _ _ _ HB) as (kB & rB' & SB & LB').
  apply (solved_swap gl _ _ kB kA) in SB; [|exact (solved_kb gl _ _ _ _ _ _ _ _ _ _ _ _ _ _ SB SA)].
  set (b := an_beam a) in *. set (n := an_n a) in *. set (N := (2 * (n + 1))%nat) in *.
  assert (Sy : forall m, (m < n)%nat -> symmetric4 (kA m)).
  { intros m Hm. destruct (sy_k _ _ _ _ _ (sv_sys _ _ _ _ _ _ SA) m Hm) as (mb & E1 & E2).
    apply (g_sym (mb_L mb)). eapply span_k_good; eauto. }
  assert (U : forall lm r r', load_vectors gl (set_loads b lm) n r -> loads_vec gl b n lm r' ->
     forall i, (i < N)%nat -> - nodal_sum n r i = fcl r' n i).
  { intros lm r r' (ls & El & H) (ls' & El' & H') i Hi. rewrite fcl_nodal by exact Hi. f_equal.
    apply nodal_ext; [exact Hi|]. intros m p Hm. destruct (H m Hm) as (mb & E1 & E2), (H' m Hm) as (mb' & E1' & E2').
    change (parsed_loads (set_loads b lm)) with (parsed_loads (with_LM b lm)) in El.
    change (member_at (set_loads b lm) m) with (member_at b m) in E1.
    replace ls' with ls in * by congruence. replace mb' with mb in * by congruence. congruence. }
  assert (V : forall o r v lm, solved gl (var b lm (b_D b) v) n kA r o -> forall e, 
     (forall i, (i < N)%nat -> bcv (var b lm (b_D b) v) i <> None -> e i = 0) ->
     rsum N (fun i => fcl r n i * e i) = rsum N (fun i => mulmv N (Kcl kA b n) (o_d o) i * e i)).
  { intros o r v lm S e He. apply rsum_ext. intros i Hi. assert (X := sv_eq _ _ _ _ _ _ S i Hi). fold N in X.
    specialize (He i Hi). destruct (bcv (var b lm (b_D b) v) i) eqn:E.
    - rewrite He by discriminate. ring.
    - rewrite var_Kcl in X. rewrite X. reflexivity. }
  assert (Z : forall o r v lm, solved gl (var b lm (b_D b) v) n kA r o -> forall v' lm' i, (i < N)%nat ->
     bcv (var b lm' (b_D b) v') i <> None -> o_d o i = 0).
  { intros o r v lm S v' lm' i Hi Hb. assert (X := sv_eq _ _ _ _ _ _ S i Hi).
    change (bcv (var b lm' (b_D b) v') i) with (bcv b i) in Hb.
    change (bcv (var b lm (b_D b) v) i) with (bcv b i) in X.
    unfold bcv in *. destruct (prescribed b i) eqn:EP.
    - rewrite X. destruct (ND i) as [E|E]; congruence.
    - destruct (Rlt_dec (restraint b i) 0); [exact X|congruence]. }
  rewrite (rsum_ext N (fun i => - nodal_sum n rA i * o_d oB i) (fun i => fcl rA' n i * o_d oB i))
    by (intros i Hi; rewrite (U A rA rA' LA LA' i Hi); reflexivity).
  rewrite (rsum_ext N (fun i => - nodal_sum n rB i * o_d oA i) (fun i => fcl rB' n i * o_d oA i))
    by (intros i Hi; rewrite (U B rB rB' LB LB' i Hi); reflexivity).
  rewrite (V oA rA' _ A SA (o_d oB)) by (intros i Hi; apply (Z oB rB' _ B SB); exact Hi).
  rewrite (V oB rB' _ B SB (o_d oA)) by (intros i Hi; apply (Z oA rA' _ A SA); exact Hi).
  apply Kcl_bilinear. exact Sy.
Qed.

(** Load vector of a force at the left end of a span. *)

Lemma node_force_ref m P v : sound_member m -> scalar_member m -> span_ref gl m [LPL P 0] = Ok v ->
  eq4 v (vec4 P 0 0 0).
Proof.
  intros S ((e & HE) & HG) H. assert (HL := sm_L _ S). unfold span_ref in H. rewrite (sm_kf _ S) in H.
  cbn [foldM] in H. apply rbind_ok in H as (w & H1 & H2). injection H2 as <-.
  apply rbind_ok in H1 as (u & Hu & H1). injection H1 as <-.
  assert (C : get_cnl gl (LPL P 0) (mb_L m) = Ok {| c_Va := P; c_Ma := 0; c_Vb := 0; c_Mb := 0 |}).
  { cbn [get_cnl]. f_equal. unfold pl_cnl. rewrite ?Rmax_left, ?Rmax_right by lra. apply cnl_eq; cbn; field; lra. }
  assert (E : eq4 u (vec4 P 0 0 0)).
  { unfold ref_one in Hu. rewrite HE in Hu. destruct HG as [HG|(g & HG)]; rewrite HG in Hu.
    - unfold load_get_ref in Hu. rewrite C in Hu. cbn [rbind] in Hu. injection Hu as <-.
      destruct (sm_type _ S). intros i Hi. destruct (mb_type m) as [|[|[|[|[|t]]]]]; try lia;
        destruct i as [|[|[|[|i]]]]; try lia; cbn; try reflexivity; field; lra.
    - unfold ref_timoshenko in Hu. rewrite C in Hu. cbn [rbind c_Ma c_Mb] in Hu. cbn [fst snd] in Hu.
      set (phi := 12 * e / (g * mb_L m ^ 2)) in *.
      replace (((2 + phi) * 0 - phi * 0) / (2 * (1 + phi))) with 0 in Hu by (unfold Rdiv; ring).
      replace ((- phi * 0 + (2 + phi) * 0) / (2 * (1 + phi))) with 0 in Hu by (unfold Rdiv; ring).
      unfold release_from in Hu. cbn [c_Va c_Ma c_Vb c_Mb] in Hu.
      assert (F : eq4 (vec4 (P - (0 + 0) / mb_L m + (0 + 0) / mb_L m) 0 (0 + (0 + 0) / mb_L m - (0 + 0) / mb_L m) 0) (vec4 P 0 0 0)).
      { intros i Hi. destruct i as [|[|[|[|i]]]]; try lia; cbn; try reflexivity; field; lra. }
      destruct (sm_type _ S). destruct (mb_type m) as [|[|[|[|[|t]]]]]; try lia.
      + injection Hu as <-. exact F.
      + apply rbind_ok in Hu as (k & _ & Hu). destruct (Req_EM_T (k 3%nat 3%nat) 0); [discriminate|]. injection Hu as <-.
        intros i Hi. cbn beta. rewrite (F i Hi). cbn. unfold Rdiv. ring.
      + apply rbind_ok in Hu as (k & _ & Hu). destruct (Req_EM_T (k 1%nat 1%nat) 0); [discriminate|]. injection Hu as <-.
        intros i Hi. cbn beta. rewrite (F i Hi). cbn. unfold Rdiv. ring.
      + injection Hu as <-. intros i Hi. destruct i as [|[|[|[|i]]]]; try lia; cbn; try reflexivity; field; lra. }
  intros i Hi. rewrite (E i Hi). ring.
Qed.


Lemma node_force_work b n P j d W : (j < n)%nat ->
  members b n (fun mb => sound_member mb /\ scalar_member mb) ->
  load_work gl (set_loads b (node_force P j)) n d W -> W = - P * d (2 * j)%nat.
Proof.
  intros Hj HM (rf & (ls & El & H) & ->).
  assert (El' : parsed_loads (set_loads b (node_force P j)) = Ok [(Z.of_nat j, LPL P 0)]).
  { unfold parsed_loads. cbn. replace (Z.of_nat j + 1 - 1)%Z with (Z.of_nat j) by lia. reflexivity. }
  rewrite El' in El. injection El as <-.
  assert (V : forall m, (m < n)%nat -> forall p, (p < 4)%nat -> rf m p = if Nat.eqb m j then vec4 P 0 0 0 p else 0).
  { intros m Hm p Hp. destruct (H m Hm) as (mb & E1 & E2). destruct (HM m mb Hm E1) as [S SC].
    unfold loads_of in E2. cbn [filter fst] in E2. destruct (Nat.eqb_spec m j) as [->|Hne].
    - rewrite Z.eqb_refl in E2. cbn [map snd] in E2. apply (node_force_ref mb P (rf j) S SC E2 p Hp).
    - rewrite (proj2 (Z.eqb_neq _ _)) in E2 by lia. cbn in E2. unfold span_ref in E2.
      rewrite (sm_kf _ S) in E2. injection E2 as <-. reflexivity. }
  rewrite (rsum_ext _ _ (fun i => (-1) * (nodal_sum n rf i * d i))) by (intros; ring).
  rewrite rsum_scal, virtual_work. rewrite (rsum_single n j _ Hj).
  - cbn [rsum]. rewrite !(V j Hj) by lia. rewrite Nat.eqb_refl. cbn [vec4]. rewrite Nat.add_0_r. ring.
  - intros m Hm Hne. apply rsum_0. intros q Hq. rewrite (V m Hm q Hq), (proj2 (Nat.eqb_neq m j) Hne). ring.
Qed.

Lemma maxwell a P i j check oi oj : gauss_rule gl -> no_settlement (an_beam a) ->
  members (an_beam a) (an_n a) (fun mb => sound_member mb /\ scalar_member mb) ->
  (i < an_n a)%nat -> (j < an_n a)%nat ->
  run gl ill a (node_force P i) check = Ok oi -> run gl ill a (node_force P j) check = Ok oj ->
  P <> 0 -> o_d oi (2 * j)%nat = o_d oj (2 * i)%nat.
Proof.
  intros G ND HM Hi Hj Ri Rj HP.
  destruct (run_solved _ _ _ _ _ _ Ri) as (ki & ri & Si & Li).
  destruct (run_solved _ _ _ _ _ _ Rj) as (kj & rj & Sj & Lj).
  assert (E : forall A r d, loads_vec gl (an_beam a) (an_n a) A r ->
     load_work gl (set_loads (an_beam a) A) (an_n a) d
       (rsum (2 * (an_n a + 1)) (fun i => - nodal_sum (an_n a) r i * d i))).
  { intros A r d L. exists r. split; [exact L|reflexivity]. }
  assert (B := betti a _ _ check oi oj _ _ G ND (fun m mb Hm Em => proj1 (HM m mb Hm Em)) Ri Rj (E _ _ _ Li) (E _ _ _ Lj)).
  rewrite (node_force_work _ _ P i _ _ Hi HM (E _ _ (o_d oj) Li)) in B.
  rewrite (node_force_work _ _ P j _ _ Hj HM (E _ _ (o_d oi) Lj)) in B.
  assert (P * (o_d oi (2 * j)%nat - o_d oj (2 * i)%nat) = 0) by lra.
  destruct (Rmult_integral _ _ H); lra.
Qed.
End G.
