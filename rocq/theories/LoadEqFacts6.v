(** Facts for C88, part six: rows that say the same, and rows that say nothing. *)
From Coq Require Import Lia ZArith Permutation FunctionalExtensionality.
From Verif Require Import Base BaseFacts Linalg SectionModel FlexModel LoadModel LoadSpec FoundationModel ElementModel UtilsModel BeamModel AnalysisModel AnalysisFacts LinearFacts SuperFacts ResultsModel ResultsFacts LMFacts CombFacts RefineFacts2
  LoadEqSpec LoadEqFacts LoadEqFacts2 LoadEqFacts3 LoadEqFacts4 LoadEqFacts5 LoadEqBed.
Open Scope R_scope.

Section S.
Variables (gl : nat -> list (R * R)) (ill : nat -> mat -> bool).

Lemma same_on_refl m l : same_on gl m l l. Proof. split; auto. Qed.
Lemma same_on_trans m l k j : same_on gl m l k -> same_on gl m k j -> same_on gl m l j.
Proof. intros [A B] [C D]. split; auto. Qed.
Lemma swaps_trans b A B C : swaps gl b A B -> swaps gl b B C -> swaps gl b A C.
Proof.
  intros H K p P. destruct (H p P) as (q & Q & HQ). destruct (K q Q) as (r & R & HR). exists r. split; [exact R|]. intros i m Hi Hm. exact (same_on_trans _ _ _ _ (HQ i m Hi Hm) (HR i m Hi Hm)).
Qed.

Lemma parsed_app_ok b A B p : parsed_loads (set_loads b (A ++ B)) = Ok p -> exists q r, parsed_loads (set_loads b A) = Ok q /\ parsed_loads (set_loads b B) = Ok r /\ p = q ++ r.
Proof.
  unfold parsed_loads. cbn [set_loads with_LM b_LM]. intros E. apply rbind_ok in E as (l & El & E). destruct (parse_app_ok A B l El) as (q & r & Q & Rr & ->). rewrite Q, Rr. cbn [rbind].
  rewrite mapM_app in E. apply rbind_ok in E as (q' & Eq & E). apply rbind_ok in E as (r' & Er & E). apply ok_inj in E. subst p.
  exists q', r'. split; [exact Eq|]. split; [exact Er|reflexivity].
Qed.
Lemma swaps_parts b X Y k x y : parsed_loads (set_loads b X) = Ok x -> parsed_loads (set_loads b Y) = Ok y ->
  (forall i m z, (i < b_nspans b)%nat -> member_at b i = Ok m -> same_on gl m (loads_of x i ++ z) (loads_of y i ++ z)) -> swaps gl b (X ++ k) (Y ++ k).
Proof.
  intros EX EY H p P. destruct (parsed_app_ok b X k p P) as (q & r & Q & Rr & ->). assert (q = x) by congruence. subst q.
  exists (y ++ r). split; [exact (parsed_app b Y k y r EY Rr)|]. intros i m Hi Hm. rewrite !loads_of_app. apply H; assumption.
Qed.
Lemma swaps_both b X Y k x y : parsed_loads (set_loads b X) = Ok x -> parsed_loads (set_loads b Y) = Ok y ->
  (forall i m z, (i < b_nspans b)%nat -> member_at b i = Ok m -> same_on gl m (loads_of x i ++ z) (loads_of y i ++ z) /\ same_on gl m (loads_of y i ++ z) (loads_of x i ++ z)) ->
  swaps gl b (X ++ k) (Y ++ k) /\ swaps gl b (Y ++ k) (X ++ k).
Proof.
  intros EX EY H. split; [apply (swaps_parts b X Y k x y EX EY)|apply (swaps_parts b Y X k y x EY EX)]; intros i m z Hi Hm; apply (H i m z Hi Hm).
Qed.

Lemma parsed_rows b rows ps : Forall2 (fun r p => parse_row r = Ok [p] /\ not_ic (snd p)) rows ps -> parsed_loads (set_loads b rows) = Ok ps.
Proof.
  induction 1 as [|r [s ld] rows ps [H N] HF IH]; [reflexivity|]. change (r :: rows) with ([r] ++ rows). change ((s, ld) :: ps) with ([(s, ld)] ++ ps). apply parsed_app; [|exact IH].
  unfold parsed_loads, parse_LM. cbn [with_LM b_LM]. destruct r; try discriminate. cbn [forallb is_list_row negb andb mapM rbind]. rewrite H. cbn [rbind concat app mapM].
  destruct ld; try contradiction; reflexivity.
Qed.

Lemma loads_of_cons s ld ps i : loads_of ((s, ld) :: ps) i = (if Z.eqb s (Z.of_nat i) then [ld] else []) ++ loads_of ps i.
Proof. unfold loads_of. cbn [filter fst]. destruct (Z.eqb s (Z.of_nat i)); reflexivity. Qed.

(** One load for two, and one for one, on member [s]. *)
Lemma rows_sum b s L k r r1 r2 ld l1 l2 : free_span b s L -> (0 < L -> sums gl L ld l1 l2) -> parse_row r = Ok [((s - 1)%Z, ld)] -> parse_row r1 = Ok [((s - 1)%Z, l1)] -> parse_row r2 = Ok [((s - 1)%Z, l2)] ->
  swaps gl b (r :: k) ([r1; r2] ++ k) /\ swaps gl b ([r1; r2] ++ k) (r :: k).
Proof.
  intros (Hs & m & Hm & EL & HL & HK & HE & HG) HS P P1 P2. specialize (HS HL). change (r :: k) with ([r] ++ k). pose proof HS as (N & N1 & N2 & _).
  apply swaps_both with (x := [((s - 1)%Z, ld)]) (y := [((s - 1)%Z, l1); ((s - 1)%Z, l2)]); try (apply parsed_rows; repeat constructor; assumption).
  intros i mm z Hi Hmm. rewrite !loads_of_cons. cbn [loads_of filter map app]. destruct (Z.eqb_spec (s - 1) (Z.of_nat i)) as [E|E].
  - assert (mm = m). { rewrite E, Nat2Z.id in Hm. congruence. } subst mm. cbn [app]. subst L. apply on_sum; assumption.
  - split; apply same_on_refl.
Qed.
Lemma rows_same b s L k r r1 ld l1 : free_span b s L -> (0 < L -> equals gl L ld l1) -> parse_row r = Ok [((s - 1)%Z, ld)] -> parse_row r1 = Ok [((s - 1)%Z, l1)] ->
  swaps gl b (r :: k) ([r1] ++ k) /\ swaps gl b ([r1] ++ k) (r :: k).
Proof.
  intros (Hs & m & Hm & EL & HL & HK & HE & HG) HS P P1. specialize (HS HL). change (r :: k) with ([r] ++ k). pose proof HS as (N & N1 & _).
  apply swaps_both with (x := [((s - 1)%Z, ld)]) (y := [((s - 1)%Z, l1)]); try (apply parsed_rows; repeat constructor; assumption).
  intros i mm z Hi Hmm. rewrite !loads_of_cons. cbn [loads_of filter map app]. destruct (Z.eqb_spec (s - 1) (Z.of_nat i)) as [E|E].
  - assert (mm = m). { rewrite E, Nat2Z.id in Hm. congruence. } subst mm. cbn [app]. subst L. apply on_same; assumption.
  - split; apply same_on_refl.
Qed.
(** The same on a member with a foundation. *)
Lemma rows_bed_sum b s L k r r1 r2 ld l1 l2 : bed_span b s L -> not_ic ld -> not_ic l1 -> not_ic l2 -> (forall f, 0 < fe_L f -> (0 < fe_n f <= 400)%nat -> sub_sum gl f ld l1 l2) ->
  parse_row r = Ok [((s - 1)%Z, ld)] -> parse_row r1 = Ok [((s - 1)%Z, l1)] -> parse_row r2 = Ok [((s - 1)%Z, l2)] ->
  swaps gl b (r :: k) ([r1; r2] ++ k) /\ swaps gl b ([r1; r2] ++ k) (r :: k).
Proof.
  intros (Hs & m & kf & Hm & EL & HL & HK) N N1 N2 HS P P1 P2. change (r :: k) with ([r] ++ k).
  apply swaps_both with (x := [((s - 1)%Z, ld)]) (y := [((s - 1)%Z, l1); ((s - 1)%Z, l2)]); try (apply parsed_rows; repeat constructor; assumption).
  intros i mm z Hi Hmm. rewrite !loads_of_cons. cbn [loads_of filter map app]. destruct (Z.eqb_spec (s - 1) (Z.of_nat i)) as [E|E].
  - assert (mm = m). { rewrite E, Nat2Z.id in Hm. congruence. } subst mm. cbn [app]. subst L. apply (on_bed gl m kf HK). intros f F.
    destruct (foundation_shape m kf f HL F) as (_ & HF & HN). apply bed_sum; [apply h_pos; assumption|apply HS; assumption].
  - split; apply same_on_refl.
Qed.
Lemma rows_bed_same b s L k r r1 ld l1 : bed_span b s L -> not_ic ld -> not_ic l1 -> (forall f, fe_L f = L -> 0 < fe_L f -> (0 < fe_n f <= 400)%nat -> forall e, (e < fe_n f)%nat -> sub_load f ld e = sub_load f l1 e) ->
  parse_row r = Ok [((s - 1)%Z, ld)] -> parse_row r1 = Ok [((s - 1)%Z, l1)] ->
  swaps gl b (r :: k) ([r1] ++ k) /\ swaps gl b ([r1] ++ k) (r :: k).
Proof.
  intros (Hs & m & kf & Hm & EL & HL & HK) N N1 HS P P1. change (r :: k) with ([r] ++ k).
  apply swaps_both with (x := [((s - 1)%Z, ld)]) (y := [((s - 1)%Z, l1)]); try (apply parsed_rows; repeat constructor; assumption).
  intros i mm z Hi Hmm. rewrite !loads_of_cons. cbn [loads_of filter map app]. destruct (Z.eqb_spec (s - 1) (Z.of_nat i)) as [E|E].
  - assert (mm = m). { rewrite E, Nat2Z.id in Hm. congruence. } subst mm. cbn [app]. subst L. apply (on_bed gl m kf HK). intros f F.
    destruct (foundation_shape m kf f HL F) as (EF & HF & HN). apply bed_one, HS; assumption.
  - split; apply same_on_refl.
Qed.
Lemma rows_alike b k r r1 p : parse_row r = Ok [p] -> parse_row r1 = Ok [p] -> not_ic (snd p) -> swaps gl b (r :: k) ([r1] ++ k) /\ swaps gl b ([r1] ++ k) (r :: k).
Proof.
  intros P P1 N. change (r :: k) with ([r] ++ k). apply swaps_both with (x := [p]) (y := [p]); try (apply parsed_rows; repeat constructor; assumption). intros. split; apply same_on_refl.
Qed.

Lemma says_swaps b r rs k : says b r rs -> swaps gl b (r :: k) (rs ++ k) /\ swaps gl b (rs ++ k) (r :: k).
Proof.
  intros H. destruct H.
  - eapply rows_sum; [eassumption| |reflexivity|reflexivity|reflexivity]. intros HL. apply sum_udl.
  - eapply rows_sum; [eassumption| |reflexivity|reflexivity|reflexivity]. intros HL. apply sum_point.
  - eapply rows_sum; [eassumption| |reflexivity|reflexivity|reflexivity]. intros HL. apply sum_part. assumption.
  - eapply rows_sum; [eassumption| |reflexivity|reflexivity|reflexivity]. intros HL. apply sum_moment.
  - eapply rows_sum; [eassumption| |reflexivity|reflexivity|reflexivity]. intros HL. apply sum_ramp.
  - eapply rows_same; [eassumption| |reflexivity|reflexivity]. intros HL. apply same_whole. assumption.
  - eapply rows_same; [eassumption| |reflexivity|reflexivity]. intros HL. apply same_level; assumption.
  - eapply rows_alike; [reflexivity|reflexivity|exact I].
  - eapply rows_same; [eassumption| |reflexivity|reflexivity]. intros HL. apply same_extent.
  - eapply rows_sum; [eassumption| |reflexivity|reflexivity|reflexivity]. intros HL. apply cut_part; assumption.
  - eapply rows_sum; [eassumption| |reflexivity|reflexivity|reflexivity]. intros HL. apply cut_ramp; assumption.
  - eapply rows_bed_sum; [eassumption| | | | |reflexivity|reflexivity|reflexivity]; [exact I|exact I|exact I|]. intros f HF HN. apply bed_udl.
  - eapply rows_bed_sum; [eassumption| | | | |reflexivity|reflexivity|reflexivity]; [exact I|exact I|exact I|]. intros f HF HN. apply bed_point.
  - eapply rows_bed_sum; [eassumption| | | | |reflexivity|reflexivity|reflexivity]; [exact I|exact I|exact I|]. intros f HF HN. apply bed_part; assumption.
  - eapply rows_bed_same; [eassumption| | | |reflexivity|reflexivity]; [exact I|exact I|]. intros f EF HF HN e He. rewrite <- EF. apply bed_whole; assumption.
  - eapply rows_alike; [reflexivity|reflexivity|exact I].
  - eapply rows_alike; [reflexivity|reflexivity|exact I].
  - eapply rows_alike; [reflexivity|reflexivity|exact I].
  - eapply rows_alike; [reflexivity|reflexivity|exact I].
Qed.

Lemma same_swaps b A B : same_loading b A B -> swaps gl b A B /\ swaps gl b B A.
Proof.
  induction 1 as [l k P|r rs k H|l k H IH|l k j H1 IH1 H2 IH2].
  - split; [apply order_swaps, P|apply order_swaps, Permutation_sym, P].
  - apply says_swaps, H.
  - tauto.
  - split; [apply swaps_trans with k; tauto|apply swaps_trans with k; tauto].
Qed.

Theorem same_results a sps npts check A B a1 r : an_n a = b_nspans (an_beam a) -> same_loading (an_beam a) A B ->
  analyze gl ill (with_beam a (set_loads (an_beam a) A)) sps npts check = (a1, Ok r) ->
  exists a2, analyze gl ill (with_beam a (set_loads (an_beam a) B)) sps npts check = (a2, Ok r).
Proof. intros HN H E. eexists. apply (swap_outcome gl ill a A B HN (proj1 (same_swaps _ _ _ H)) _ _ _ _ _ E). Qed.

(** Rows that put nothing on the beam. *)
Lemma idle_parsed b r : idle b r -> exists x, parsed_loads (set_loads b [r]) = Ok x /\ forall i, (i < b_nspans b)%nat -> loads_of x i = [].
Proof.
  intros H. destruct H as [s t args Ht|s t args Hs Ht Ha].
  - exists []. split; [|reflexivity]. unfold parsed_loads, parse_LM. cbn [set_loads with_LM b_LM forallb is_list_row andb negb mapM rbind].
    assert (E : parse_row (Row s t args) = Ok []).
    { unfold parse_row. cbv zeta. destruct (Z.eqb_spec t 1); [lia|]. destruct (Z.eqb_spec t 2); [lia|]. destruct (Z.eqb_spec t 3); [lia|]. destruct (Z.eqb_spec t 4); [lia|]. destruct (Z.eqb_spec t 5); [lia|]. destruct (Z.eqb_spec t 6); [lia|]. reflexivity. }
    rewrite E. reflexivity.
  - assert (E : exists ld, parse_row (Row s t args) = Ok [((s - 1)%Z, ld)] /\ not_ic ld).
    { assert (T : (t = 1 \/ t = 2 \/ t = 3 \/ t = 4 \/ t = 5)%Z) by lia.
      destruct T as [->|[->|[->|[->| ->]]]]; cbn in Ha; destruct args as [|a0 [|a1 [|a2 l]]]; cbn in Ha; try lia; eexists; (split; [reflexivity|exact I]). }
    destruct E as (ld & E & N). exists [((s - 1)%Z, ld)]. split; [apply parsed_rows; repeat constructor; assumption|]. intros i Hi. rewrite loads_of_cons.
    destruct (Z.eqb_spec (s - 1) (Z.of_nat i)); [lia|reflexivity].
Qed.
Lemma idle_swaps b r k : idle b r -> swaps gl b (r :: k) k /\ swaps gl b k (r :: k).
Proof.
  intros H. destruct (idle_parsed b r H) as (x & X & HX). change (r :: k) with ([r] ++ k). change k with ([] ++ k) at 2 3.
  apply swaps_both with (x := x) (y := []); [exact X|reflexivity|]. intros i m z Hi Hm. rewrite (HX i Hi). split; apply same_on_refl.
Qed.
Theorem idle_results a sps npts check x k r : an_n a = b_nspans (an_beam a) -> idle (an_beam a) x ->
  (exists a1, analyze gl ill (with_beam a (set_loads (an_beam a) (x :: k))) sps npts check = (a1, Ok r)) <->
  (exists a2, analyze gl ill (with_beam a (set_loads (an_beam a) k)) sps npts check = (a2, Ok r)).
Proof.
  intros HN H. destruct (idle_swaps (an_beam a) x k H) as [S1 S2].
  split; intros (a1 & E); eexists; [apply (swap_outcome gl ill a (x :: k) k HN S1 _ _ _ _ _ E)|apply (swap_outcome gl ill a k (x :: k) HN S2 _ _ _ _ _ E)].
Qed.
End S.
