From Coq Require Import Lia ZArith Sorted String.
From Verif Require Import Base BaseFacts Linalg SectionModel FlexModel LoadModel LoadSpec FoundationModel ElementModel ElementSpec UtilsModel BeamModel BeamSpec AnalysisModel AnalysisSpec
  BalanceFacts AnalysisFacts AnalysisFacts2 SuperFacts MechFacts AnalysisFacts3 HistoryFacts CtorFacts ResultsModel ResultsSpec ResultsFacts EnvelopeModel EnvelopeSpec EnvelopeFacts LoadCasesModel LoadCasesSpec LoadCasesFacts SegmentFacts
  ShapeFacts VehicleModel VehicleSpec VehicleFacts BridgeModel BridgeSpec BridgeFacts CritFacts BridgeFacts2 BridgeFacts3 BridgeFacts4 LMFacts CombFacts CombCases InfModel InfSpec InfFacts InfFacts2.
Open Scope R_scope.
Local Notation length := List.length.
Local Open Scope list_scope.

(** ** The constructed object *)
Lemma il_init_spec L EI rs types s : il_init L EI rs types = Ok s -> (1 <= b_nspans (an_beam (il_a s)))%nat -> Forall (Rlt 0) (b_lengths (an_beam (il_a s))) ->
  bridge_model (il_a s) /\ no_settlement (an_beam (il_a s)) /\ il_L s = deck_length (an_beam (il_a s)) /\ il_res s = [] /\ il_pos s = [] /\ b_R (an_beam (il_a s)) = rs.
Proof.
  unfold il_init. intros H N P. apply rbind_ok in H as (a & Ha & H). apply ok_inj in H. subst s. cbn [il_a il_L il_res il_pos] in *.
  unfold analysis_init in Ha. apply rbind_ok in Ha as (b & Hb & Ha). apply ok_inj in Ha. subst a. cbn [an_beam] in *.
  assert (D := constructed_deck _ _ Hb N P). assert (Hb' := Hb). unfold beam_init, ctor_R in Hb. cbn [il_ctor ct_sup BeamModel.ct_R ct_GAv ct_kf ct_L ct_EI ct_types ct_D ct_LM rbind broadcast_GAv broadcast_kf] in Hb.
  apply rbind_ok in Hb as (b0 & H0 & Hb). destruct (negb (Nat.eqb _ _)); [discriminate|]. cbn [rbind] in Hb. apply ok_inj in Hb. subst b.
  assert (K : Forall (eq None) (b_kf b0)).
  { assert (G : exists es, add_spans beam_empty (zip5 L es types (repeat None (length L)) (repeat None (length L))) = Ok b0) by (destruct EI; [eexists; exact H0|destruct (Nat.eqb _ _); [eexists; exact H0|discriminate]]).
    destruct G as (es & G). apply (add_spans_inv (fun _ => True) _ _ _ G); [|constructor|constructor]. intros l e t g k Hin. destruct (zip5_in _ _ _ _ _ _ _ _ _ _ Hin) as [_ Hk].
    split; [exact (repeat_spec _ _ _ Hk)|auto]. }
  split; [|split; [|split; [exact (dk_len _ D)|auto]]].
  - constructor; cbn [an_n an_beam an_npts]; [exact D|reflexivity|lia|]. intros i mb _ H. unfold member_at in H.
    apply rbind_ok in H as (e & He & H). apply rbind_ok in H as (l & Hl & H). apply rbind_ok in H as (t & Ht & H). apply ok_inj in H. subst mb. cbn [mb_kf].
    cbn [with_LM with_D with_R b_kf]. destruct (nth_error (b_kf b0) i) eqn:E; [|reflexivity]. apply nth_error_In in E. rewrite Forall_forall in K. symmetry. exact (K _ E).
  - intros i. left. unfold prescribed. cbn [with_LM with_D with_R b_D]. destruct (Nat.lt_ge_cases i (length rs)) as [Hi|Hi]; [|apply nth_overflow; rewrite repeat_length; exact Hi].
    apply (repeat_spec (length rs)). apply nth_In. rewrite repeat_length. exact Hi.
Qed.

Section IL.
Variables (gl : nat -> list (R * R)) (ill : nat -> mat -> bool).
Local Notation none := (fun _ : nat => @nil R).

Section Loop.
Variable a0 : analysis.
Let b := an_beam a0.
Hypothesis D : deck b.
Local Notation run1 := (analysed_with gl ill a0 none).

Lemma loop_any : forall ps a lv pos rs a' pos' rs', kin gl ill a0 a -> il_loop gl ill a lv ps pos rs = ((a', pos', rs'), Ok tt) ->
  exists rt, pos' = pos ++ ps /\ rs' = rs ++ rt /\ kin gl ill a0 a' /\ Forall2 (fun _ r => exists lm, run1 lm = Ok r) ps rt.
Proof.
  induction ps as [|p ps IH]; intros a lv pos rs a' pos' rs' K H; cbn [il_loop] in H.
  - injection H as <- <- <-. exists []. rewrite !app_nil_r. auto.
  - destruct (get_local_span_coords _ _) as [[i x]|e]; [|discriminate]. cbv zeta in H. set (lv' := if Z.eqb i (-1) then 0 else lv) in *. set (lm := [Row (i + 1) 2 [lv'; x; 0]]) in *.
    destruct (analyze gl ill (with_beam a (set_loads (an_beam a) lm)) none None true) as [a1 [r|e]] eqn:E; [|discriminate].
    destruct (kin_step _ _ _ _ _ _ _ _ K E) as (K1 & _). destruct (IH _ _ _ _ _ _ _ K1 H) as (rt & -> & -> & K2 & F).
    exists (r :: rt). rewrite <- !app_assoc. split; [reflexivity|]. split; [reflexivity|]. split; [exact K2|]. constructor; [|exact F].
    exists lm. rewrite <- (kin_result gl ill a0 a lm none K), E. reflexivity.
Qed.
Lemma lookup_row p : 0 <= p -> (p <= deck_length b /\ exists i x, get_local_span_coords b p = Ok (Z.of_nat i, x) /\ forall P, axle_row b (p, P) (Row (Z.of_nat i + 1) 2 [P; x; 0])) \/
  (deck_length b < p /\ get_local_span_coords b p = Ok ((-1)%Z, 0)).
Proof.
  intros H. destruct (deck_lookup b p D) as [A B]. destruct (Rle_dec p (deck_length b)) as [L|L]; [left|right; split; [lra|apply B; lra]].
  split; [exact L|]. destruct (A (conj H L)) as (i & x & E & R). exists i, x. split; [exact E|]. intros P. exists i, x. auto.
Qed.
Lemma loop_unit : forall ps a lv pos rs a' pos' rs', kin gl ill a0 a -> Forall (Rle 0) ps -> StronglySorted Rlt ps -> il_loop gl ill a lv ps pos rs = ((a', pos', rs'), Ok tt) ->
  exists rt, pos' = pos ++ ps /\ rs' = rs ++ rt /\ kin gl ill a0 a' /\ Forall2 (unit_run gl ill a0 lv) ps rt.
Proof.
  induction ps as [|p ps IH]; intros a lv pos rs a' pos' rs' K P S H.
  - cbn [il_loop] in H. injection H as <- <- <-. exists []. rewrite !app_nil_r. auto.
  - inversion P as [|? ? P0 P1]; subst. inversion S as [|? ? S0 S1]; subst. destruct (lookup_row p P0) as [(Lp & i & x & E & AR)|(Lp & E)].
    + cbn [il_loop] in H. rewrite (k_beam _ _ _ _ K) in H. change (get_local_span_coords (set_loads (an_beam a0) (b_LM (an_beam a))) p) with (get_local_span_coords b p) in H. rewrite E in H.
      destruct (Z.eqb_spec (Z.of_nat i) (-1)); [lia|]. cbv zeta in H. set (lm := [Row (Z.of_nat i + 1) 2 [lv; x; 0]]) in *. rewrite <- (k_beam _ _ _ _ K) in H.
      destruct (analyze gl ill (with_beam a (set_loads (an_beam a) lm)) none None true) as [a1 [r|e]] eqn:EA; [|discriminate].
      destruct (kin_step _ _ _ _ _ _ _ _ K EA) as (K1 & _). destruct (IH _ _ _ _ _ _ _ K1 P1 S0 H) as (rt & -> & -> & K2 & F).
      exists (r :: rt). rewrite <- !app_assoc. split; [reflexivity|]. split; [reflexivity|]. split; [exact K2|]. constructor; [|exact F].
      assert (R : run1 lm = Ok r) by (rewrite <- (kin_result gl ill a0 a lm none K), EA; reflexivity). split; [exists lm; exact R|]. intros _. eexists. split; [apply AR|exact R].
    + destruct (loop_any _ _ _ _ _ _ _ _ K H) as (rt & E1 & E2 & K2 & F). exists rt. split; [exact E1|]. split; [exact E2|]. split; [exact K2|].
      assert (Out : Forall (Rlt (deck_length b)) (p :: ps)) by (constructor; [exact Lp|]; rewrite Forall_forall in S1 |- *; intros q Hq; specialize (S1 q Hq); lra).
      clear - F Out. induction F as [|q r l m A F IHF]; [constructor|]. inversion Out; subst. constructor; [|auto]. split; [exact A|]. intros [_ H']. unfold b in *. lra.
Qed.
(** The loop ends normally if every analysis does. *)
Lemma loop_total : forall ps a lv pos rs, kin gl ill a0 a -> Forall (Rle 0) ps -> (forall i P x, exists r, run1 [Row i 2 [P; x; 0]] = Ok r) -> 
  exists st, il_loop gl ill a lv ps pos rs = (st, Ok tt).
Proof.
  induction ps as [|p ps IH]; intros a lv pos rs K F H; cbn [il_loop]; [eexists; reflexivity|]. inversion F; subst.
  rewrite (k_beam _ _ _ _ K). change (get_local_span_coords (set_loads (an_beam a0) (b_LM (an_beam a))) p) with (get_local_span_coords b p). rewrite <- (k_beam _ _ _ _ K).
  assert (E : exists i x, get_local_span_coords b p = Ok (i, x)) by (destruct (lookup_row p ltac:(assumption)) as [(_ & i & x & E & _)|(_ & E)]; rewrite E; eauto).
  destruct E as (i & x & ->). cbv zeta. set (lv' := if Z.eqb i (-1) then 0 else lv). destruct (H (i + 1)%Z lv' x) as (r & Hr).
  rewrite <- (kin_result gl ill a0 a _ none K) in Hr. destruct (analyze gl ill (with_beam a (set_loads (an_beam a) [Row (i + 1) 2 [lv'; x; 0]])) none None true) as [a1 y] eqn:EA. cbn [snd] in Hr. subst y.
  apply IH; [|assumption|exact H]. exact (proj1 (kin_step _ _ _ _ _ _ _ _ K EA)).
Qed.
End Loop.

(** Positions. *)
Definition il_positions (L st : R) : list R := map (fun i => INR i * st) (seq 0 (Z.to_nat (py_round (L / st) + 1))).
Lemma steps_pos st : 0 < st -> forall n s, Forall (Rle 0) (map (fun i => INR i * st) (seq s n)) /\ StronglySorted Rlt (map (fun i => INR i * st) (seq s n)).
Proof.
  intros Hs. induction n as [|n IH]; intros s; cbn [seq map]; [split; constructor|]. destruct (IH (S s)) as [A B]. split; constructor; auto.
  - apply Rmult_le_pos; [apply pos_INR|lra].
  - apply Forall_forall. intros x Hx. apply in_map_iff in Hx as (k & <- & Hk). apply in_seq in Hk. apply Rmult_lt_compat_r; [exact Hs|]. apply lt_INR. lia.
Qed.
Lemma il_positions_some L st : 0 < L -> 0 < st -> il_positions L st <> [] /\ Rabs (L - INR (length (il_positions L st) - 1) * st) <= st / 2.
Proof.
  intros HL Hs. assert (Q : 0 < L / st) by (apply Rdiv_lt_0_compat; assumption). assert (N := py_round_near (L / st)).
  assert (Z0 : (0 <= py_round (L / st))%Z). { apply Z.lt_pred_le, lt_IZR. unfold Z.pred. rewrite plus_IZR. unfold Rabs in N. destruct (Rcase_abs _); lra. }
  unfold il_positions. rewrite map_length, seq_length. split.
  - replace (Z.to_nat (py_round (L / st) + 1)) with (S (Z.to_nat (py_round (L / st)))) by lia. discriminate.
  - replace (Z.to_nat (py_round (L / st) + 1) - 1)%nat with (Z.to_nat (py_round (L / st))) by lia. rewrite INR_IZR_INZ, Z2Nat.id by exact Z0.
    replace (L - IZR (py_round (L / st)) * st) with ((L / st - IZR (py_round (L / st))) * st) by (field; lra). rewrite Rabs_mult, (Rabs_right st) by lra.
    assert (X := Rmult_le_compat_r st _ _ ltac:(lra) N). lra.
Qed.
Lemma create_spec s step st lv s1 : bridge_model (il_a s) -> il_L s = deck_length (an_beam (il_a s)) -> 0 < st -> given (il_L s / 100) step = st ->
  create_ils gl ill s step lv = (s1, Ok tt) ->
  il_pos s1 = il_pos s ++ il_positions (il_L s) st /\ il_L s1 = il_L s /\ kin gl ill (il_a s) (il_a s1) /\ Forall2 (unit_run gl ill (il_a s) lv) (il_positions (il_L s) st) (il_res s1).
Proof.
  intros BM EL Hs <- H. unfold create_ils in H. fold (given (il_L s / 100) step) in H. destruct (Reqb_spec (given (il_L s / 100) step) 0) as [E|_]; [lra|]. cbv zeta in H. fold (il_positions (il_L s) (given (il_L s / 100) step)) in H.
  destruct (il_loop _ _ _ _ _ _ _) as [[[a pos] rs] r] eqn:E. injection H as <- ->. cbn [il_pos il_L il_a il_res].
  destruct (steps_pos _ Hs (Z.to_nat (py_round (il_L s / given (il_L s / 100) step) + 1)) 0) as [F S].
  destruct (loop_unit (il_a s) (bm_deck _ BM) _ _ _ _ _ _ _ _ (kin_refl gl ill _) F S E) as (rt & -> & -> & K & U). auto.
Qed.

(** ** Reading the ordinates *)
Lemma mapM_get {A} (f : A -> result R) (l : A -> R) rs eta : (forall r x, f r = Ok x -> x = l r) -> mapM f rs = Ok eta -> eta = map l rs.
Proof.
  intros H. revert eta. induction rs as [|r rs IH]; intros eta E; cbn [mapM] in E.
  - apply ok_inj in E. subst. reflexivity.
  - apply rbind_ok in E as (x & Hx & E). apply rbind_ok in E as (xs & Hxs & E). apply ok_inj in E. subst. cbn [map]. rewrite (H _ _ Hx), (IH _ Hxs). reflexivity.
Qed.
Lemma mapM_first {A B} (f : A -> result B) r rs l : mapM f (r :: rs) = Ok l -> exists x, f r = Ok x.
Proof. cbn [mapM]. intros E. apply rbind_ok in E as (x & Hx & _). eauto. Qed.

Lemma ordinates a0 a lv xs rs ints poi eff eta res : bridge_model a0 -> no_settlement (an_beam a0) -> kin gl ill a0 a -> lv <> 0 -> xs <> [] ->
  (match effect_of eff with EffR | EffMR => plain_restraints (an_beam a0) | _ => True end) ->
  Forall2 (unit_run gl ill a0 lv) xs rs -> res = rs ->
  (do ik <- station_index (an_beam a) res poi;
   match effect_of eff with
             | EffV => mapM (fun r => do m <- get (br_mem r) (fst ik); get (r_V m) (snd ik)) res
             | EffM => mapM (fun r => do m <- get (br_mem r) (fst ik); get (r_M m) (snd ik)) res
             | EffR => do k <- support_index ints (an_beam a) poi 0; mapM (fun r => get (br_R r) k) res
             | EffMR => do k <- support_index ints (an_beam a) poi 1; mapM (fun r => get (br_R r) k) res
             end) = Ok eta ->
  predicts gl ill a0 lv poi (effect_of eff) xs eta.
Proof.
  intros BM ND K NZ NE PR U -> H. rewrite (k_beam _ _ _ _ K) in H. set (b := an_beam a0) in *.
  assert (D := bm_deck _ BM). fold b in D.
  assert (EN := bm_n _ BM). assert (KF : members (an_beam a0) (an_n a0) (fun mb => mb_kf mb = None)) by (intros i mb Hi Hm; apply (bm_kf _ BM i mb); [rewrite <- EN; exact Hi|exact Hm]).
  change (station_index (set_loads b (b_LM (an_beam a))) rs poi) with (station_index b rs poi) in H.
  change (support_index ints (set_loads b (b_LM (an_beam a))) poi 0) with (support_index ints b poi 0) in H. change (support_index ints (set_loads b (b_LM (an_beam a))) poi 1) with (support_index ints b poi 1) in H.
  apply rbind_ok in H as ([i k] & Hik & H). cbn [fst snd] in H.
  destruct rs as [|r0 rs]; [inversion U; subst; congruence|].
  assert (R0 : exists A, analysed_with gl ill a0 none A = Ok r0) by (inversion U as [|? ? ? ? [X _] _]; subst; exact X).
  unfold station_index in Hik. destruct (lookup_member b poi D) as (sp & Esp & MO). rewrite Esp in Hik. cbn [rbind] in Hik. set (ii := if Z.eqb (fst sp) (-1) then _ else _) in *.
  cbn [get nth_error rbind] in Hik. apply rbind_ok in Hik as (m0 & Hm0 & Hik). apply get_ok in Hm0.
  assert (ST : read_station (r_x m0) poi k /\ i = ii).
  { assert (SN := station_nearest (r_x m0) poi). destruct (List.tl (removelast (r_x m0))) as [|y inner] eqn:EI; [discriminate|]. apply ok_inj in Hik. injection Hik as -> <-. split; [apply SN; discriminate|reflexivity]. }
  destruct ST as [ST ->]. clear Hik Esp.
  assert (LEN : length eta = length (r0 :: rs)) by (destruct (effect_of eff); [|apply rbind_ok in H as (? & _ & H)|apply rbind_ok in H as (? & _ & H)|]; exact (mapM_length _ _ _ H)).
  split; [rewrite LEN; exact (Forall2_len _ _ _ U)|]. intros loads rows LA.
  destruct (superpose gl ill a0 EN KF ND lv xs (r0 :: rs) r0 D NZ U R0 loads rows LA) as (r & Er & SH & LIN).
  assert (DG : forall f, (f = r_M \/ f = r_V) -> mapM (fun r => do m <- get (br_mem r) ii; get (f m) k) (r0 :: rs) = Ok eta ->
    exists v, diagram_value b f r poi v /\ lv * v = lsum (map (fun jP => snd jP * nth (fst jP) eta 0) loads)).
  { intros f Hf HM. destruct (mapM_first _ _ _ _ HM) as (v0 & Hv0). apply rbind_ok in Hv0 as (m' & Hm' & Hv0). apply get_ok in Hm'. rewrite Hm0 in Hm'. injection Hm' as <-. apply get_ok in Hv0.
    assert (E : eta = map (mem_read f ii k) (r0 :: rs)).
    { apply (mapM_get (fun r => do m <- get (br_mem r) ii; get (f m) k)); [|exact HM]. intros q x Hq. apply rbind_ok in Hq as (mm & Hmm & Hq). apply get_ok in Hmm, Hq. unfold mem_read. rewrite Hmm. symmetry. apply nth_error_nth. exact Hq. }
    destruct (nth_error (br_mem r) ii) as [m|] eqn:Em; [|exfalso; apply nth_error_None in Em; assert (ii < length (br_mem r0))%nat by (apply nth_error_Some; congruence); rewrite (sh_len _ _ SH) in Em; lia].
    destruct (sh_mem _ _ SH ii m0 m Hm0 Em) as (X & LM & LV).
    assert (Lk : (k < length (f m))%nat) by (assert (k < length (f m0))%nat by (apply nth_error_Some; congruence); destruct Hf as [->| ->]; lia).
    exists (nth k (f m) 0). split.
    - exists ii, m, k. split; [exact MO|]. split; [exact Em|]. split; [rewrite X; exact ST|]. apply nth_error_nth'. exact Lk.
    - rewrite E, <- (LIN _ (mem_linear f ii k Hf)). unfold mem_read. rewrite Em. reflexivity. }
  assert (RG : forall off, (off <= 1)%nat -> plain_restraints b -> (do k <- support_index ints b poi off; mapM (fun r => get (br_R r) k) (r0 :: rs)) = Ok eta ->
    exists v, reaction_value b off r poi v /\ lv * v = lsum (map (fun jP => snd jP * nth (fst jP) eta 0) loads)).
  { intros off Hoff PR' HM. apply rbind_ok in HM as (q & Hq & HM). destruct (support_spec' _ _ _ _ _ D Hoff PR' Hq) as (_ & n & RS & Eq).
    destruct (mapM_first _ _ _ _ HM) as (v0 & Hv0). apply get_ok in Hv0.
    assert (E : eta = map (fun r => nth q (br_R r) 0) (r0 :: rs)).
    { apply (mapM_get (fun r => get (br_R r) q)); [|exact HM]. intros u x Hu. apply get_ok in Hu. symmetry. apply nth_error_nth. exact Hu. }
    assert (Lq : (q < length (br_R r))%nat) by (rewrite (sh_R _ _ SH); apply nth_error_Some; congruence).
    exists (nth q (br_R r) 0). split.
    - exists n. split; [exact RS|]. rewrite <- Eq. apply nth_error_nth'. exact Lq.
    - rewrite E, <- (LIN _ (R_linear q)). reflexivity. }
  exists r. destruct (effect_of eff); cbn [effect_value].
  - destruct (DG r_V (or_intror eq_refl) H) as (v & A & B). exists v. auto.
  - destruct (RG 0%nat ltac:(lia) PR H) as (v & A & B). exists v. auto.
  - destruct (RG 1%nat ltac:(lia) PR H) as (v & A & B). exists v. auto.
  - destruct (DG r_M (or_introl eq_refl) H) as (v & A & B). exists v. auto.
Qed.
End IL.
