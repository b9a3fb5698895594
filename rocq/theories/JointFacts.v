(** Facts about point loads at the joint of two members. *)
From Coq Require Import Lia.
From Verif Require Import Base BaseFacts Linalg LinalgFacts SectionModel FlexModel LoadModel LoadSpec LMFacts LinearFacts FoundationModel ElementModel ElementSpec ElementFacts ElementFacts2 UtilsModel BeamModel BeamSpec AnalysisModel AnalysisSpec
  ConstSectFacts AnalysisFacts AnalysisFacts2 SuperFacts BalanceFacts MechFacts HistoryFacts AnalysisFacts3 JointSpec.
Open Scope R_scope.
Local Notation length := List.length.
Local Open Scope list_scope.

Section G.
Variable gl : nat -> list (R * R).
Variable ill : nat -> mat -> bool.

Lemma end_force_ref m P v : sound_member m -> scalar_member m -> span_ref gl m [LPL P (mb_L m)] = Ok v -> eq4 v (vec4 0 0 P 0).
Proof.
  intros S ((e & HE) & HG) H. assert (HL := sm_L _ S). unfold span_ref in H. rewrite (sm_kf _ S) in H.
  cbn [foldM] in H. apply rbind_ok in H as (w & H1 & H2). injection H2 as <-.
  apply rbind_ok in H1 as (u & Hu & H1). injection H1 as <-.
  assert (C : get_cnl gl (LPL P (mb_L m)) (mb_L m) = Ok {| c_Va := 0; c_Ma := 0; c_Vb := P; c_Mb := 0 |}).
  { cbn [get_cnl]. f_equal. unfold pl_cnl. replace (mb_L m - mb_L m) with 0 by ring. rewrite Rmax_left by lra. apply cnl_eq; cbn; field; lra. }
  assert (E : eq4 u (vec4 0 0 P 0)).
  { unfold ref_one in Hu. rewrite HE in Hu. destruct HG as [HG|(g & HG)]; rewrite HG in Hu.
    - unfold load_get_ref in Hu. rewrite C in Hu. cbn [rbind] in Hu. injection Hu as <-.
      destruct (sm_type _ S). intros i Hi. destruct (mb_type m) as [|[|[|[|[|t]]]]]; try lia;
        destruct i as [|[|[|[|i]]]]; try lia; cbn; try reflexivity; field; lra.
    - unfold ref_timoshenko in Hu. rewrite C in Hu. cbn [rbind c_Ma c_Mb] in Hu. cbn [fst snd] in Hu.
      set (phi := 12 * e / (g * mb_L m ^ 2)) in *.
      replace (((2 + phi) * 0 - phi * 0) / (2 * (1 + phi))) with 0 in Hu by (unfold Rdiv; ring).
      replace ((- phi * 0 + (2 + phi) * 0) / (2 * (1 + phi))) with 0 in Hu by (unfold Rdiv; ring).
      unfold release_from in Hu. cbn [c_Va c_Ma c_Vb c_Mb] in Hu.
      assert (F : eq4 (vec4 (0 - (0 + 0) / mb_L m + (0 + 0) / mb_L m) 0 (P + (0 + 0) / mb_L m - (0 + 0) / mb_L m) 0) (vec4 0 0 P 0)).
      { intros i Hi. destruct i as [|[|[|[|i]]]]; try lia; cbn; try reflexivity; field; lra. }
      destruct (sm_type _ S). destruct (mb_type m) as [|[|[|[|[|t]]]]]; try lia.
      + injection Hu as <-. exact F.
      + apply rbind_ok in Hu as (k & _ & Hu). destruct (Req_EM_T (k 3%nat 3%nat) 0); [discriminate|]. injection Hu as <-.
        intros i Hi. cbn beta. rewrite (F i Hi). cbn. unfold Rdiv. ring.
      + apply rbind_ok in Hu as (k & _ & Hu). destruct (Req_EM_T (k 1%nat 1%nat) 0); [discriminate|]. injection Hu as <-.
        intros i Hi. cbn beta. rewrite (F i Hi). cbn. unfold Rdiv. ring.
      + injection Hu as <-. intros i Hi. destruct i as [|[|[|[|i]]]]; try lia; cbn; try reflexivity; field; lra. }
  intros i Hi. rewrite (E i Hi). ring.
Qed.

Lemma parsed_snoc b lm s P x ls : parsed_loads (set_loads b (lm ++ [Row s 2 [P; x]])) = Ok ls ->
  exists l0, parsed_loads (set_loads b lm) = Ok l0 /\ ls = l0 ++ [((s - 1)%Z, LPL P x)].
Proof.
  unfold parsed_loads. cbn [set_loads with_LM b_LM]. intros H. apply rbind_ok in H as (p & HP & H).
  unfold parse_LM in *. rewrite forallb_app in HP. cbn [forallb is_list_row andb] in HP. rewrite Bool.andb_true_r in HP.
  destruct (forallb is_list_row lm); [|discriminate]. cbn [negb] in *. rewrite mapM_app in HP. apply rbind_ok in HP as (pp & HP & EP). injection EP as <-.
  apply rbind_ok in HP as (p0 & -> & HP). cbn in HP. injection HP as <-. cbn [rbind]. rewrite concat_app in H. cbn in H.
  rewrite mapM_app in H. apply rbind_ok in H as (l0 & E0 & H). cbn in H. injection H as <-. exists l0. split; [exact E0|reflexivity].
Qed.

Lemma loads_one s P x m : loads_of [(s, LPL P x)] m = if Z.eqb s (Z.of_nat m) then [LPL P x] else [].
Proof. unfold loads_of. cbn. destruct (Z.eqb s (Z.of_nat m)); reflexivity. Qed.

Lemma ref_nil m v : mb_kf m = None -> span_ref gl m [] = Ok v -> forall i, v i = 0.
Proof. unfold span_ref. intros ->. cbn. intros H. injection H as <-. reflexivity. Qed.

Section J.
Variables (a : analysis) (lm : list row) (k : nat) (P : R).
Let b := an_beam a.
Let b1 := set_loads b (lm ++ [at_end (S k) P (span_length b k)]).
Let b2 := set_loads b (lm ++ [at_start (S k) P]).
Hypothesis MM : members b (an_n a) (fun mb => sound_member mb /\ scalar_member mb).
Hypothesis HK : (S k < an_n a)%nat.

Lemma refs_differ kb1 rf1 kb2 rf2 : system gl b1 (an_n a) kb1 rf1 -> system gl b2 (an_n a) kb2 rf2 ->
  forall m, (m < an_n a)%nat -> kb1 m = kb2 m /\ forall p, (p < 4)%nat -> rf1 m p + (if Nat.eqb m (S k) then vec4 P 0 0 0 p else 0) = rf2 m p + (if Nat.eqb m k then vec4 0 0 P 0 p else 0).
Proof.
  intros [K1 (l1 & L1 & R1)] [K2 (l2 & L2 & R2)] m Hm.
  destruct (parsed_snoc _ _ _ _ _ _ L1) as (l0 & E0 & ->). destruct (parsed_snoc _ _ _ _ _ _ L2) as (l0' & E0' & ->).
  rewrite E0 in E0'. injection E0' as <-.
  destruct (K1 m Hm) as (mb & M1 & Q1), (K2 m Hm) as (mb2 & M2 & Q2), (R1 m Hm) as (mb3 & M3 & Q3), (R2 m Hm) as (mb4 & M4 & Q4).
  change (member_at b1 m) with (member_at b m) in *. change (member_at b2 m) with (member_at b m) in *.
  assert (mb2 = mb) by congruence. assert (mb3 = mb) by congruence. assert (mb4 = mb) by congruence. subst mb2 mb3 mb4.
  split; [congruence|]. destruct (MM m mb Hm M1) as [SM SC]. assert (LE := member_length _ _ _ M1).
  rewrite loads_of_app, loads_one in Q3. rewrite loads_of_app, loads_one in Q4.
  destruct (span_ref_app_ok gl _ _ _ _ Q3) as (u & v & U & V & EV). destruct (span_ref_app_ok gl _ _ _ _ Q4) as (u' & v' & U' & V' & EV').
  rewrite U in U'. injection U' as <-. intros p Hp. rewrite EV, EV'.
  assert (X1 : v p = if Nat.eqb m k then vec4 0 0 P 0 p else 0).
  { destruct (Nat.eqb_spec m k) as [->|NE].
    - replace ((Z.of_nat (S k) - 1 =? Z.of_nat k)%Z) with true in V by (symmetry; apply Z.eqb_eq; lia). rewrite <- LE in V. exact (end_force_ref mb P v SM SC V p Hp).
    - replace ((Z.of_nat (S k) - 1 =? Z.of_nat m)%Z) with false in V by (symmetry; apply Z.eqb_neq; lia). exact (ref_nil mb v (sm_kf _ SM) V p). }
  assert (X2 : v' p = if Nat.eqb m (S k) then vec4 P 0 0 0 p else 0).
  { destruct (Nat.eqb_spec m (S k)) as [->|NE].
    - replace ((Z.of_nat (S k) + 1 - 1 =? Z.of_nat (S k))%Z) with true in V' by (symmetry; apply Z.eqb_eq; lia). exact (node_force_ref gl mb P v' SM SC V' p Hp).
    - replace ((Z.of_nat (S k) + 1 - 1 =? Z.of_nat m)%Z) with false in V' by (symmetry; apply Z.eqb_neq; lia). exact (ref_nil mb v' (sm_kf _ SM) V' p). }
  rewrite X1, X2. ring.
Qed.

Lemma same_nodal kb1 rf1 kb2 rf2 d i : system gl b1 (an_n a) kb1 rf1 -> system gl b2 (an_n a) kb2 rf2 -> (i < 2 * (an_n a + 1))%nat ->
  nodal_sum (an_n a) (mef kb1 rf1 d) i = nodal_sum (an_n a) (mef kb2 rf2 d) i.
Proof.
  intros S1 S2 Hi. assert (D := refs_differ _ _ _ _ S1 S2). unfold nodal_sum.
  assert (I2 : (i mod 2 < 2)%nat) by (apply Nat.mod_upper_bound; lia). assert (DM := Nat.div_mod i 2 ltac:(lia)).
  set (j := (i / 2)%nat) in *. set (q := (i mod 2)%nat) in *. clearbody j q.
  assert (T1 : forall m p, (m < an_n a)%nat -> (p < 4)%nat -> mef kb1 rf1 d m p + (if Nat.eqb m (S k) then vec4 P 0 0 0 p else 0) = mef kb2 rf2 d m p + (if Nat.eqb m k then vec4 0 0 P 0 p else 0)).
  { intros m p Hm Hp. destruct (D m Hm) as [E F]. specialize (F p Hp). unfold mef. rewrite E. lra. }
  destruct (Nat.ltb_spec i (2 * an_n a)) as [A|A], (Nat.leb_spec 2 i) as [B|B].
  - assert (X := T1 j q ltac:(lia) ltac:(lia)). assert (Y := T1 (j - 1)%nat (2 + q)%nat ltac:(lia) ltac:(lia)).
    destruct (Nat.eqb_spec j (S k)), (Nat.eqb_spec j k), (Nat.eqb_spec (j - 1) (S k)), (Nat.eqb_spec (j - 1) k); try lia; destruct q as [|[|q]]; try lia; cbn in X, Y |- *; lra.
  - assert (X := T1 j q ltac:(lia) ltac:(lia)).
    destruct (Nat.eqb_spec j (S k)), (Nat.eqb_spec j k); try lia; destruct q as [|[|q]]; try lia; cbn in X |- *; lra.
  - assert (Y := T1 (j - 1)%nat (2 + q)%nat ltac:(lia) ltac:(lia)).
    destruct (Nat.eqb_spec (j - 1) (S k)), (Nat.eqb_spec (j - 1) k); try lia; destruct q as [|[|q]]; try lia; cbn in Y |- *; lra.
  - reflexivity.
Qed.

Lemma joint check check' o1 o2 : run gl ill a (lm ++ [at_end (S k) P (span_length (an_beam a) k)]) check = Ok o1 -> run gl ill a (lm ++ [at_start (S k) P]) check' = Ok o2 ->
  forall i, (i < an_ndof a)%nat -> o_d o1 i = o_d o2 i /\ reported (an_beam a) o1 i = reported (an_beam a) o2 i.
Proof.
  unfold run. fold b. fold b1 b2.
  destruct (analyze_core gl ill (with_beam a b1) None check) as [a1 r1] eqn:E1. destruct (analyze_core gl ill (with_beam a b2) None check') as [a2 r2] eqn:E2. cbn [snd]. intros -> ->.
  destruct (core_inv _ _ _ _ _ _ _ E1) as [(kb1 & rf1 & S1) _]. destruct (core_inv _ _ _ _ _ _ _ E2) as [(kb2 & rf2 & S2) _]. cbn [with_beam an_beam an_n] in S1, S2.
  assert (NN := fun d i => same_nodal kb1 rf1 kb2 rf2 d i (sv_sys _ _ _ _ _ _ S1) (sv_sys _ _ _ _ _ _ S2)).
  assert (DD : forall i, (i < an_ndof a)%nat -> o_d o1 i = o_d o2 i).
  { apply (analyze_unique gl ill (with_beam a b2) None check' a2 o2 (o_d o1) E2). cbn [with_beam an_beam an_n].
    exists (mef kb2 rf2 (o_d o1)). split; [apply system_state, (sv_sys _ _ _ _ _ _ S2)|]. intros i Hi. rewrite <- (NN _ _ Hi).
    assert (Q := sv_eq _ _ _ _ _ _ S1 i Hi). unfold bcv in Q. change (prescribed b2 i) with (prescribed b1 i). change (restraint b2 i) with (restraint b1 i). change (spring_force b2 i (o_d o1 i)) with (spring_force b1 i (o_d o1 i)).
    assert (RN := residual_nodal kb1 rf1 b1 (an_n a) (o_d o1) i Hi).
    destruct (prescribed b1 i); [exact Q|]. destruct (Rlt_dec (restraint b1 i) 0); [exact Q|]. lra. }
  intros i Hi. split; [exact (DD i Hi)|].
  assert (Q1 := reported_eq gl b1 _ _ _ _ _ S1 Hi). assert (Q2 := reported_eq gl b2 _ _ _ _ _ S2 Hi).
  transitivity (reported b1 o1 i); [reflexivity|]. transitivity (reported b2 o2 i); [|reflexivity]. rewrite Q1, Q2. clear Q1 Q2. change (restraint b2 i) with (restraint b1 i).
  destruct (Rlt_dec (restraint b1 i) 0).
  - rewrite (residual_nodal kb1 rf1 b1 (an_n a) (o_d o1) i Hi), (NN _ _ Hi). change (spring_force b1 i (o_d o1 i)) with (spring_force b2 i (o_d o1 i)). rewrite <- (residual_nodal kb2 rf2 b2 (an_n a) (o_d o1) i Hi).
    f_equal. unfold mulmv. apply rsum_ext. intros q Hq. rewrite (DD q Hq). reflexivity.
  - rewrite (DD i Hi). reflexivity.
Qed.
End J.
End G.

Lemma sample_joint ill : exists o1 o2,
  run sample_gl ill sample (sample_A ++ [at_end 1 7 (span_length sample_beam 0)]) false = Ok o1 /\ run sample_gl ill sample (sample_A ++ [at_start 1 7]) false = Ok o2 /\
  members sample_beam 2 (fun mb => sound_member mb /\ scalar_member mb).
Proof.
  destruct (sample_runs ill (sample_A ++ [at_end 1 7 (span_length sample_beam 0)])) as (o1 & H1); [sample_wf|].
  destruct (sample_runs ill (sample_A ++ [at_start 1 7])) as (o2 & H2); [sample_wf|].
  exists o1, o2. split; [exact H1|]. split; [exact H2|].
  intros m mb Hm E. destruct (sample_sound 2 [] (le_n 2) m mb Hm E) as [[A _] B]. split; assumption.
Qed.
