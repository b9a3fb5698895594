(** Combining case responses is analysing the factored loads (C29). *)
From Coq Require Import Lia Permutation String.
From Verif Require Import Base BaseFacts Linalg LinalgFacts SectionModel FlexModel LoadModel LoadSpec FoundationModel
  ElementModel ElementSpec UtilsModel BeamModel AnalysisModel AnalysisSpec LMFacts LinearFacts AnalysisFacts AnalysisFacts2 SuperFacts
  ClampFacts ResultsModel ResultsSpec ResultsFacts LoadCasesModel LoadCasesSpec LoadCasesFacts CombFacts.
Open Scope R_scope.
Local Notation length := List.length.
Local Open Scope list_scope.

Lemma lin_app l1 l2 : loads_lin 1 l1 1 l2 (l1 ++ l2).
Proof. intros phi _. rewrite map_app, lsum_app. ring. Qed.
Lemma lin_scale g l : loads_lin g l 0 l (map (scale_load g) l).
Proof.
  intros phi H. rewrite map_map. unfold lsum. induction l as [|ld l IH]; cbn; [ring|]. rewrite IH, H. ring.
Qed.
Lemma no_imposed_app l k : no_imposed l -> no_imposed k -> no_imposed (l ++ k).
Proof. intros H K ld Hl. apply in_app_or in Hl as [Hl|Hl]; [exact (H ld Hl)|exact (K ld Hl)]. Qed.
Lemma no_imposed_scale g l : no_imposed l -> no_imposed (map (scale_load g) l).
Proof. intros H ld Hl. apply in_map_iff in Hl as (q & <- & Hq). specialize (H q Hq). destruct q; exact H. Qed.
Lemma cnl_scale_ok gl g L l cs : mapM (fun ld => get_cnl gl ld L) l = Ok cs -> exists cs', mapM (fun ld => get_cnl gl ld L) (map (scale_load g) l) = Ok cs'.
Proof.
  revert cs. induction l as [|ld l IH]; intros cs H; cbn [map mapM] in *; [eexists; reflexivity|].
  apply rbind_ok in H as (c & Hc & H). apply rbind_ok in H as (t & Ht & H). rewrite get_cnl_scale, Hc. cbn [rbind].
  destruct (IH _ Ht) as (t' & ->). eexists. reflexivity.
Qed.
Lemma parsed_factor b A A' g pA : Forall wf_row A -> factor_LM A g = Ok A' -> parsed_loads (set_loads b A) = Ok pA ->
  parsed_loads (set_loads b A') = Ok (map (scale_pl g) pA).
Proof.
  intros W F EA. unfold parsed_loads in *. cbn [set_loads with_LM b_LM] in *.
  apply rbind_ok in EA as (ps & E1 & E2). destruct (factor_parse A g W) as (ps' & A2 & P1 & F2 & _ & P2 & _).
  replace ps' with ps in * by congruence. replace A2 with A' in * by congruence. rewrite P2. cbn [rbind].
  change (attach_EI (set_loads b A')) with (attach_EI b). change (attach_EI (set_loads b A)) with (attach_EI b) in E2.
  clear - E2. revert pA E2. induction ps as [|p ps IH]; intros pA E2; cbn [mapM map] in *.
  - injection E2 as <-. reflexivity.
  - apply rbind_ok in E2 as (q & Hq & E2). apply rbind_ok in E2 as (qs & Hqs & E2). injection E2 as <-.
    rewrite (attach_scale _ _ _ _ Hq). cbn [rbind]. rewrite (IH _ Hqs). reflexivity.
Qed.

Section Steps.
Variables (gl : nat -> list (R * R)) (ill : nat -> mat -> bool) (a : analysis) (sps : nat -> list R) (npts : option nat) (check : bool).
Let b := an_beam a.
Hypothesis EN : an_n a = b_nspans b.
Hypothesis KF : members b (an_n a) (fun mb => mb_kf mb = None).
Hypothesis ND : no_settlement b.
Let solve := solve_lm gl ill a sps npts check.

Lemma rel_add A B p q : parsed_loads (set_loads b A) = Ok p -> parsed_loads (set_loads b B) = Ok q -> loads_rel gl a 1 A 1 B (add_LM A B).
Proof.
  intros HA HB. assert (HC := parsed_app b A B p q HA HB). constructor.
  - exists p, q, (p ++ q). repeat (split; [assumption|]). intros m. rewrite loads_of_app. split; [apply lin_app|].
    intros L c1 c2 E1 E2. rewrite mapM_app, E1. cbn [rbind]. rewrite E2. eexists. reflexivity.
  - intros PA PB r m Hr. change (set_loads (an_beam a) (add_LM A B)) with (with_LM b (add_LM A B)) in Hr. rewrite HC in Hr. injection Hr as <-.
    rewrite loads_of_app. apply no_imposed_app; [apply PA; exact HA|apply PB; exact HB].
Qed.
Lemma rel_factor A A' g p : Forall wf_row A -> factor_LM A g = Ok A' -> parsed_loads (set_loads b A) = Ok p -> loads_rel gl a g A 0 A A'.
Proof.
  intros W F HA. assert (HC := parsed_factor b A A' g p W F HA). constructor.
  - exists p, p, (map (scale_pl g) p). repeat (split; [assumption|]). intros m. rewrite loads_of_scale. split; [apply lin_scale|].
    intros L c1 c2 E1 E2. exact (cnl_scale_ok _ _ _ _ _ E1).
  - intros PA _ r m Hr. change (an_beam a) with b in Hr. rewrite HC in Hr. injection Hr as <-. rewrite loads_of_scale. apply no_imposed_scale, PA, HA.
Qed.
Lemma rel_nil A p : parsed_loads (set_loads b A) = Ok p -> loads_rel gl a 0 A 0 A [].
Proof.
  intros HA. constructor.
  - exists p, p, []. repeat (split; [first [assumption|reflexivity]|]). intros m. split; [apply lin_nil|]. intros. exists []. reflexivity.
  - intros _ _ r m Hr. injection Hr as <-. intros ld [].
Qed.
Lemma run_nil A oA : run gl ill a A check = Ok oA ->
  exists o, run gl ill a [] check = Ok o /\ combination (an_ndof a) 0 oA 0 oA o /\
    forall m, (m < an_n a)%nat -> ends_comb 0 (member_forces gl (set_loads b A) (o_d oA) m)
      0 (member_forces gl (set_loads b A) (o_d oA) m) (member_forces gl (set_loads b []) (o_d o) m).
Proof.
  intros HA. destruct (run_solved _ _ _ _ _ _ HA) as (kA & rA & SA & LA).
  destruct (loads_vec_nil _ _ _ _ _ LA) as (r & Lr & Er). rewrite run_eq in HA. rewrite run_eq.
  refine (comb_general gl ill a A _ A _ [] _ _ check kA rA rA r oA oA 0 0 HA SA SA (no_settle_comb _ 0 0 ND) Lr _).
  intros m p Hm. rewrite (Er m p Hm). ring.
Qed.
Lemma solve_parsed A a' r : solve A = (a', Ok r) -> exists p, parsed_loads (set_loads b A) = Ok p.
Proof.
  intros H. destruct (analyze_split _ _ _ _ _ _ _ _ H) as (o & Ho & Hv & _). destruct (analyze_core_state _ _ _ _ _ _ _ Ho) as (EB & _). rewrite EB in Hv.
  destruct (member_analysis_spec _ _ _ _ _ _ _ Hv) as (p & Hp & _). exists p. exact Hp.
Qed.
Lemma solve_add A B a1 a2 r1 r2 : solve A = (a1, Ok r1) -> solve B = (a2, Ok r2) ->
  exists a' r, solve (add_LM A B) = (a', Ok r) /\ res_comb a 1 A r1 1 B r2 r.
Proof.
  intros H1 H2. destruct (solve_parsed _ _ _ H1) as (p & Hp), (solve_parsed _ _ _ H2) as (q & Hq).
  apply (results_comb gl ill a sps npts check EN KF 1 A r1 1 B r2 (add_LM A B) a1 a2 H1 H2 (rel_add A B p q Hp Hq)).
  intros o1 o2 R1 R2. exact (run_add gl ill a A B check o1 o2 ND R1 R2).
Qed.
Lemma solve_factor A A' g a1 r1 : Forall wf_row A -> factor_LM A g = Ok A' -> solve A = (a1, Ok r1) ->
  exists a' r, solve A' = (a', Ok r) /\ res_comb a g A r1 0 A r1 r.
Proof.
  intros W F H1. destruct (solve_parsed _ _ _ H1) as (p & Hp).
  apply (results_comb gl ill a sps npts check EN KF g A r1 0 A r1 A' a1 a1 H1 H1 (rel_factor A A' g p W F Hp)).
  intros o1 o2 R1 R2. rewrite R1 in R2. injection R2 as <-. exact (run_factor gl ill a A A' g check o1 ND W F R1).
Qed.
Lemma solve_nil A a1 r1 : solve A = (a1, Ok r1) -> exists a' r, solve [] = (a', Ok r) /\ res_comb a 0 A r1 0 A r1 r.
Proof.
  intros H1. destruct (solve_parsed _ _ _ H1) as (p & Hp).
  apply (results_comb gl ill a sps npts check EN KF 0 A r1 0 A r1 [] a1 a1 H1 H1 (rel_nil A p Hp)).
  intros o1 o2 R1 R2. rewrite R1 in R2. injection R2 as <-. exact (run_nil A o1 R1).
Qed.

(** Responses that combine whatever the loads. *)
Definition combinable (resp : response) : Prop := resp = RespM \/ resp = RespV \/ members b (an_n a) one_recovery.
Lemma res_pick resp c1 A r1 c2 B r2 r : res_comb a c1 A r1 c2 B r2 r -> combinable resp \/ plain a A /\ plain a B ->
  L3 c1 c2 (pick resp (br_all r1)) (pick resp (br_all r2)) (pick resp (br_all r)).
Proof.
  intros (_ & M & V & RD) H.
  assert (K : resp = RespM \/ resp = RespV \/ (members b (an_n a) one_recovery \/ plain a A /\ plain a B)) by (unfold combinable in H; tauto).
  destruct K as [->|[->|K]]; [exact M|exact V|]. destruct (RD K) as [HR HD]. destruct resp; [exact M|exact V|exact HD|exact HR].
Qed.
Lemma plain_factor A A' g : Forall wf_row A -> factor_LM A g = Ok A' -> (exists p, parsed_loads (set_loads b A) = Ok p) -> plain a A -> plain a A'.
Proof. intros W F (p & Hp) H. exact (lr_plain _ _ _ _ _ _ _ (rel_factor A A' g p W F Hp) H H). Qed.

Definition step (acc : list row) (p : R * lcase) : result (list row) :=
  if Reqb (fst p) 0 then Ok acc else do r <- factor_LM (lc_loads (snd p)) (fst p); Ok (acc ++ r).
Definition analysed (resp : response) (c : lcase) (y : list R) : Prop :=
  Forall wf_row (lc_loads c) /\ (exists a' r, solve (lc_loads c) = (a', Ok r) /\ y = pick resp (br_all r)) /\ (combinable resp \/ plain a (lc_loads c)).
Lemma comb_fold resp : forall fs cs B, length fs = length cs -> Forall2 (analysed resp) cs B -> forall acc a0 r0,
  solve acc = (a0, Ok r0) -> combinable resp \/ plain a acc -> (forall y, In y B -> length y = length (pick resp (br_all r0))) ->
  exists lm a' r, foldM step (combine fs cs) acc = Ok lm /\ solve lm = (a', Ok r) /\ r_x (br_all r) = r_x (br_all r0) /\
    length (pick resp (br_all r)) = length (pick resp (br_all r0)) /\
    forall k, nth k (pick resp (br_all r)) 0 = nth k (pick resp (br_all r0)) 0 + dot fs (column B k).
Proof.
  induction fs as [|g fs IH]; intros cs B HL HB acc a0 r0 H0 HP HY.
  - exists acc, a0, r0. cbn [combine foldM]. repeat (split; [first [reflexivity|exact H0]|]). intros k. unfold dot, lsum. cbn. ring.
  - destruct cs as [|c cs]; [discriminate|]. inversion HB as [|? y ? B' (W & (a1 & r1 & H1 & Ey) & PC) HB']; subst. cbn [combine foldM]. unfold step at 1. cbn [fst snd].
    assert (HD : forall k, dot (g :: fs) (column (pick resp (br_all r1) :: B') k) = g * nth k (pick resp (br_all r1)) 0 + dot fs (column B' k)) by reflexivity.
    destruct (Reqb_spec g 0) as [Z|Z].
    + cbn [rbind]. destruct (IH cs B' ltac:(cbn in HL; lia) HB' acc a0 r0 H0 HP) as (lm & a' & r & E & Hs & Hx & Hlen & Hk); [intros y Hy; apply HY; right; exact Hy|].
      exists lm, a', r. repeat (split; [assumption|]). intros k. rewrite Hk, HD, Z. ring.
    + destruct (factor_parse (lc_loads c) g W) as (ps & A' & _ & F & _). rewrite F. cbn [rbind].
      destruct (solve_factor _ _ _ _ _ W F H1) as (a2 & r2 & H2 & C2).
      destruct (solve_add acc A' a0 a2 r0 r2 H0 H2) as (a3 & r3 & H3 & C3).
      assert (P2 : combinable resp \/ plain a A').
      { destruct PC as [PC|PC]; [left; exact PC|right]. eapply plain_factor; [exact W|exact F| |exact PC]. exact (solve_parsed _ _ _ H1). }
      assert (L2 := res_pick resp _ _ _ _ _ _ _ C2 ltac:(tauto)). assert (L3' := res_pick resp _ _ _ _ _ _ _ C3 ltac:(tauto)).
      assert (P3 : combinable resp \/ plain a (add_LM acc A')).
      { destruct HP as [HP|HP]; [left; exact HP|]. destruct P2 as [P2|P2]; [left; exact P2|right].
        destruct (solve_parsed _ _ _ H0) as (p & Hp), (solve_parsed _ _ _ H2) as (q & Hq). exact (lr_plain _ _ _ _ _ _ _ (rel_add acc A' p q Hp Hq) HP P2). }
      destruct (L3_len _ _ _ _ _ L3') as [N1 N2].
      destruct (IH cs B' ltac:(cbn in HL; lia) HB' (add_LM acc A') a3 r3 H3 P3) as (lm & a' & r & E & Hs & Hx & Hlen & Hk); [intros y Hy; rewrite <- N1; apply HY; right; exact Hy|].
      exists lm, a', r. split; [exact E|]. split; [exact Hs|]. split; [rewrite Hx; apply C3|]. split; [congruence|].
      intros k. rewrite Hk, HD, (L3_nth _ _ _ _ _ k L3'), (L3_nth _ _ _ _ _ k L2). ring.
Qed.
Lemma analysed_len resp c y a0 r0 : solve [] = (a0, Ok r0) -> analysed resp c y -> length y = length (pick resp (br_all r0)).
Proof.
  intros H0 (W & (a1 & r1 & H1 & ->) & PC). destruct (solve_nil _ _ _ H1) as (a' & r & H & C). rewrite H in H0. injection H0 as _ <-.
  destruct PC as [PC|PC].
  - apply (L3_len _ _ _ _ _ (res_pick resp _ _ _ _ _ _ _ C (or_introl PC))).
  - apply (L3_len _ _ _ _ _ (res_pick resp _ _ _ _ _ _ _ C (or_intror (conj PC PC)))).
Qed.
Lemma comb_cases resp fs cs B : length fs = length cs -> cs <> [] -> Forall2 (analysed resp) cs B ->
  exists lm a' r, foldM step (combine fs cs) [] = Ok lm /\ solve lm = (a', Ok r) /\ pick resp (br_all r) = matvec fs B /\
    forall c y a1 r1, In c cs -> solve (lc_loads c) = (a1, Ok r1) -> y = r_x (br_all r1) -> r_x (br_all r) = y.
Proof.
  intros HL HN HB. destruct cs as [|c0 cs0]; [contradiction|]. set (cs := c0 :: cs0) in *.
  assert (H0 : exists a0 r0, solve [] = (a0, Ok r0) /\ forall i, nth i (pick resp (br_all r0)) 0 = 0).
  { inversion HB as [|? y ? B' (W & (a1 & r1 & H1 & Ey) & PC) HB']; subst. destruct (solve_nil _ _ _ H1) as (a0 & r0 & H0 & C0). exists a0, r0. split; [exact H0|].
    intros i. assert (Q : L3 0 0 (pick resp (br_all r1)) (pick resp (br_all r1)) (pick resp (br_all r0))) by (apply (res_pick resp _ _ _ _ _ _ _ C0); tauto).
    rewrite (L3_nth _ _ _ _ _ i Q). ring. }
  destruct H0 as (a0 & r0 & H0 & Z0).
  assert (HY : forall y, In y B -> length y = length (pick resp (br_all r0))).
  { intros y Hy. apply In_nth_error in Hy as (j & Hj). destruct (nth_error cs j) as [c|] eqn:Ec.
    - assert (Q : analysed resp c y). { clear -HB Ec Hj. revert j Ec Hj. induction HB as [|u v l k Huv HB IH]; intros [|j] Ec Hj; try discriminate; cbn in *; [injection Ec as <-; injection Hj as <-; exact Huv|exact (IH j Ec Hj)]. }
      exact (analysed_len _ _ _ _ _ H0 Q).
    - apply nth_error_None in Ec. assert (j < length B)%nat by (apply nth_error_Some; congruence). assert (length cs = length B) by (clear -HB; induction HB; cbn; congruence). lia. }
  assert (P0 : combinable resp \/ plain a []) by (right; intros p m Hp; injection Hp as <-; intros ld []).
  destruct (comb_fold resp fs cs B HL HB [] a0 r0 H0 P0 HY) as (lm & a' & r & E & Hs & Hx & Hlen & Hk).
  exists lm, a', r. split; [exact E|]. split; [exact Hs|]. split.
  - assert (HC : cols B = length (pick resp (br_all r))).
    { rewrite Hlen. inversion HB; subst. cbn [cols hd]. apply HY. left. reflexivity. }
    apply (nth_ext _ _ 0 0); [rewrite matvec_len; congruence|]. intros k Hk'. rewrite Hk, Z0, matvec_nth by (rewrite HC; exact Hk'). ring.
  - intros c y a1 r1 Hc H1 ->. destruct (solve_nil _ _ _ H1) as (a2 & r2 & H2 & C2). rewrite H0 in H2. injection H2 as _ <-. rewrite Hx. apply C2.
Qed.
End Steps.

(** ** The models built for the cases of a collection *)
Lemma build_other b lm a lm' : build_model b lm = Ok a -> build_model b lm' = Ok (with_beam a (set_loads (an_beam a) lm')).
Proof.
  unfold build_model, analysis_init, beam_init, ctor_R. cbn [build_ctor ct_sup ct_R ct_GAv ct_kf ct_L ct_EI ct_types ct_D ct_LM rbind].
  intros H. apply rbind_ok in H as (bb & H & E). apply rbind_ok in H as (g & Hg & H). rewrite Hg. cbn [rbind].
  apply rbind_ok in H as (k & Hk & H). rewrite Hk. cbn [rbind]. apply rbind_ok in H as (b0 & Hb & H). rewrite Hb. cbn [rbind] in H |- *.
  destruct (negb (Nat.eqb _ _)); [discriminate|]. apply rbind_ok in H as (d & Hd & H). rewrite Hd. cbn [rbind]. injection H as <-. injection E as <-. reflexivity.
Qed.
Lemma add_spans_inv (P : nat -> Prop) xs : forall b b', add_spans b xs = Ok b' ->
  (forall l e t g k, In (l, e, t, g, k) xs -> k = None /\ forall n, coerce t = Ok n -> P n) ->
  Forall (eq None) (b_kf b) -> Forall P (b_types b) -> Forall (eq None) (b_kf b') /\ Forall P (b_types b').
Proof.
  induction xs as [|[[[[l e] t] g] k] xs IH]; intros b b' H HX HK HT; cbn [add_spans foldM] in H.
  - unfold add_spans in H. cbn in H. injection H as <-. auto.
  - unfold add_spans in H. cbn [foldM] in H. apply rbind_ok in H as (b1 & H1 & H).
    destruct (HX l e t g k (or_introl eq_refl)) as [Kn Tn].
    apply (IH b1 b' H); [intros; eapply HX; right; eassumption| |]; unfold add_span in H1;
      destruct (check_rigid e l); try discriminate; (destruct (match g with Some _ => _ | None => _ end); try discriminate);
      destruct (coerce t) as [n|]; try discriminate; injection H1 as <-; cbn [b_kf b_types]; apply Forall_app; split; auto.
Qed.
Lemma zip5_in Ls Es Ts Gs Ks l e t g k : In (l, e, t, g, k) (zip5 Ls Es Ts Gs Ks) -> In t Ts /\ In k Ks.
Proof.
  revert Es Ts Gs Ks. induction Ls as [|x Ls IH]; intros [|e' Es] [|t' Ts] [|g' Gs] [|k' Ks] H; cbn in H; try contradiction.
  destruct H as [H|H]; [injection H as <- <- <- <- <-; split; left; reflexivity|]. destruct (IH _ _ _ _ H). split; right; assumption.
Qed.
Lemma build_beam b lm a : build_model b lm = Ok a -> an_n a = b_nspans (an_beam a) /\ b_D (an_beam a) = b_D b /\
  (forall i mb, member_at (an_beam a) i = Ok mb -> mb_kf mb = None) /\
  (Forall (eq 1%nat) (b_types b) -> forall i mb, member_at (an_beam a) i = Ok mb -> mb_type mb = 1%nat).
Proof.
  unfold build_model, analysis_init, beam_init, ctor_R. cbn [build_ctor ct_sup ct_R ct_GAv ct_kf ct_L ct_EI ct_types ct_D ct_LM rbind].
  intros H. apply rbind_ok in H as (bb & H & E). apply rbind_ok in H as (g & Hg & H).
  apply rbind_ok in H as (k & Hk & H). apply rbind_ok in H as (b0 & Hb & H). cbn [rbind] in H.
  destruct (negb (Nat.eqb _ _)); [discriminate|]. apply rbind_ok in H as (d & Hd & H). injection H as <-. injection E as <-.
  cbn [an_n an_beam]. split; [reflexivity|]. destruct (negb _); [discriminate|]. injection Hd as <-. split; [reflexivity|].
  destruct (Nat.eqb _ _); [|discriminate]. cbn in Hk. injection Hk as <-.
  assert (G : forall P : nat -> Prop, (forall t n, In t (b_types b) -> coerce (EtNum [Z.of_nat t]) = Ok n -> P n) -> Forall (eq None) (b_kf b0) /\ Forall P (b_types b0)).
  { intros P HP. apply (add_spans_inv P _ _ _ Hb); [|constructor|constructor]. intros l e t g' k' Hin. destruct (zip5_in _ _ _ _ _ _ _ _ _ _ Hin) as [Ht Hk].
    split; [exact (repeat_spec _ _ _ Hk)|]. intros n Hn. apply in_map_iff in Ht as (tt & <- & Ht). exact (HP tt n Ht Hn). }
  assert (M : forall i mb, member_at b0 i = Ok mb -> (exists t, nth_error (b_types b0) i = Some t /\ mb_type mb = t) /\ mb_kf mb = match nth_error (b_kf b0) i with Some k => k | None => None end).
  { intros i mb H. unfold member_at in H. apply rbind_ok in H as (e & He & H). apply rbind_ok in H as (l & Hl & H). apply rbind_ok in H as (t & Ht & H). injection H as <-.
    split; [exists t; split; [apply get_ok; exact Ht|reflexivity]|reflexivity]. }
  split.
  - intros i mb H. destruct (M i mb H) as [_ ->]. destruct (G (fun _ => True) (fun _ _ _ _ => I)) as [K _]. destruct (nth_error (b_kf b0) i) eqn:E; [|reflexivity].
    apply nth_error_In in E. rewrite Forall_forall in K. symmetry. exact (K _ E).
  - intros HT i mb H. destruct (M i mb H) as [(t & Ht & ->) _]. destruct (G (eq 1%nat)) as [_ K].
    + intros t' n Hin Hc. rewrite Forall_forall in HT. rewrite <- (HT t' Hin) in Hc. cbn in Hc. injection Hc as <-. reflexivity.
    + rewrite Forall_forall in K. symmetry. apply K. eapply nth_error_In. exact Ht.
Qed.
Lemma plain_rows a lm : (forall s t args, In (Row s t args) lm -> t <> 6%Z) -> plain a lm.
Proof.
  intros H p m Hp ld Hld. unfold parsed_loads in Hp. cbn [set_loads with_LM b_LM] in Hp. apply rbind_ok in Hp as (ps & E1 & E2).
  unfold loads_of in Hld. apply in_map_iff in Hld as ([z l] & <- & Hld). apply filter_In in Hld as [Hld _].
  destruct (mapM_In _ _ _ E2 _ Hld) as ([z' l'] & Hin & Ha).
  unfold parse_LM in E1. destruct (negb _); [discriminate|]. apply rbind_ok in E1 as (cs & E1 & E3). injection E3 as <-.
  apply in_concat in Hin as (c & Hc & Hin). destruct (mapM_In _ _ _ E1 _ Hc) as (r & Hr & Hp).
  cbn [snd]. destruct l as [| | | | | |kk ee]; try exact I. destruct l' as [| | | | | |k' e']; cbn in Ha; try discriminate.
  destruct r as [s t args| |]; cbn in Hp; try discriminate. specialize (H s t args Hr).
  destruct (Z.eqb_spec t 1). { apply rbind_ok in Hp as (? & _ & Hp). injection Hp as <-. destruct Hin as [Q|[]]; discriminate. }
  destruct (Z.eqb_spec t 2). { apply rbind_ok in Hp as (? & _ & Hp). apply rbind_ok in Hp as (? & _ & Hp). injection Hp as <-. destruct Hin as [Q|[]]; discriminate. }
  destruct (Z.eqb_spec t 3). { apply rbind_ok in Hp as (? & _ & Hp). apply rbind_ok in Hp as (? & _ & Hp). apply rbind_ok in Hp as (? & _ & Hp). injection Hp as <-. destruct Hin as [Q|[]]; discriminate. }
  destruct (Z.eqb_spec t 4). { apply rbind_ok in Hp as (? & _ & Hp). apply rbind_ok in Hp as (? & _ & Hp). injection Hp as <-. destruct Hin as [Q|[]]; discriminate. }
  destruct (Z.eqb_spec t 5). { apply rbind_ok in Hp as (? & _ & Hp). apply rbind_ok in Hp as (? & _ & Hp). injection Hp as <-. destruct Hin as [Q|[]]; discriminate. }
  destruct (Z.eqb_spec t 6); [contradiction|]. injection Hp as <-. contradiction.
Qed.

Lemma lcs_factors_len cs f l : lcs_factors cs f = Ok (F1 l) -> length l = length cs.
Proof.
  destruct f as [s|rs|m]; cbn [lcs_factors].
  3: { intros H. apply rbind_ok in H as (out & Ho & H). injection H as <-. revert Ho. unfold map_factors.
    assert (G : forall m o0 out, foldM (fun out kv => do i <- key_index cs (fst kv); Ok (set_nth out i (snd kv))) m o0 = Ok out -> length out = length o0).
    { clear. induction m as [|kv m IH]; intros o0 out H; cbn [foldM] in H; [injection H as <-; reflexivity|]. apply rbind_ok in H as (o1 & H1 & H).
      apply rbind_ok in H1 as (i & _ & H1). injection H1 as <-. rewrite (IH _ _ H). apply set_nth_len. }
    intros H. rewrite (G _ _ _ H), repeat_length. reflexivity. }
  - destruct (Nat.eqb_spec (length s) (length cs)); cbn; [|discriminate]. intros H. injection H as <-. assumption.
  - destruct (negb _); discriminate.
Qed.

Lemma combine_is_analysis gl ill t cs f resp rr xs y :
  no_settlement (t_beam t) -> (forall c, In c cs -> Forall wf_row (lc_loads c)) -> response_of resp = Some rr ->
  (rr = RespM \/ rr = RespV \/ Forall (eq 1%nat) (b_types (t_beam t)) \/ (forall c s k args, In c cs -> In (Row s k args) (lc_loads c) -> k <> 6%Z)) ->
  lcs_combine gl ill t cs f resp = Ok (xs, F1 y) ->
  exists br, analyze_combination gl ill t cs f None = Ok br /\ r_x (br_all br) = xs /\ pick rr (br_all br) = y.
Proof.
  intros ND W Hr HC H. unfold lcs_combine in H. apply rbind_ok in H as ([x B] & HB & H). apply rbind_ok in H as (v & Hv & H). cbn [fst snd] in H.
  destruct v as [l|ls]; [|discriminate]. injection H as -> <-.
  assert (HL := lcs_factors_len _ _ _ Hv). destruct (collect_spec _ _ _ _ _ _ _ HB) as (NB & Ncs & (c0 & y0 & E0 & H0) & HS).
  assert (AL : forall c xx yy, analyse_load_case gl ill t (lc_loads c) resp = Ok (xx, yy) -> exists br, analyse_loads gl ill t (lc_loads c) (t_npts t) = Ok br /\ xx = r_x (br_all br) /\ yy = pick rr (br_all br)).
  { intros c xx yy Q. unfold analyse_load_case in Q. rewrite Hr in Q. apply rbind_ok in Q as (br & Hbr & Q). injection Q as <- <-. exists br. auto. }
  destruct (AL _ _ _ H0) as (br0 & Hbr0 & _ & _). unfold analyse_loads in Hbr0. apply rbind_ok in Hbr0 as (a & Ha & _).
  destruct (build_beam _ _ _ Ha) as (EN & ED & KF & FF).
  assert (ND' : no_settlement (an_beam a)) by (intros i; unfold prescribed; rewrite ED; apply ND).
  assert (SV : forall lm np br, analyse_loads gl ill t lm np = Ok br <-> exists a', solve_lm gl ill a (fun _ => []) np true lm = (a', Ok br)).
  { intros lm np br. unfold analyse_loads. rewrite (build_other _ _ _ lm Ha). cbn [rbind]. unfold solve_lm. destruct (analyze _ _ _ _ _ _) as [a' r]. cbn [snd].
    split; [intros ->; eauto|]. intros (a'' & E). injection E as _ E. exact E. }
  assert (CB : combinable a rr \/ forall c, In c cs -> plain a (lc_loads c)).
  { destruct HC as [->|[->|[HT|HC]]]; [left; left; reflexivity|left; right; left; reflexivity|left; right; right|right].
    - intros i mb Hi Hm. left. rewrite (FF HT i mb Hm). lia.
    - intros c Hc. apply plain_rows. intros s k args. exact (HC c s k args Hc). }
  assert (HF : Forall2 (analysed gl ill a (fun _ => []) (t_npts t) true rr) cs B).
  { assert (G : forall j c yy, nth_error cs j = Some c -> nth_error B j = Some yy -> analysed gl ill a (fun _ => []) (t_npts t) true rr c yy).
    { intros j c yy Hc Hy. destruct (HS j c Hc) as (xx & y' & E1 & E2 & _). rewrite Hy in E2. injection E2 as <-.
      destruct (AL _ _ _ E1) as (br & Hbr & _ & ->). apply SV in Hbr as (a' & Hs). split; [apply W; eapply nth_error_In; exact Hc|].
      split; [exists a', br; auto|]. destruct CB as [CB|CB]; [left; exact CB|right; apply CB; eapply nth_error_In; exact Hc]. }
    clear -NB G. revert B NB G. induction cs as [|c cs IH]; intros [|y B] NB G; try discriminate; constructor; [exact (G 0%nat c y eq_refl eq_refl)|].
    apply IH; [cbn in NB; lia|]. intros j c' y' E1 E2. exact (G (S j) c' y' E1 E2). }
  destruct (comb_cases gl ill a (fun _ => []) (t_npts t) true EN (fun i mb _ Hm => KF i mb Hm) ND' rr l cs B HL Ncs HF) as (lm & a' & r & Hlm & Hs & Hy & Hx).
  exists r. split; [|split; [|exact Hy]].
  - unfold analyze_combination, combined_loads. rewrite Hv. cbn [rbind]. change (foldM _ (combine l cs) []) with (foldM step (combine l cs) []). rewrite Hlm. cbn [rbind].
    apply SV. exists a'. exact Hs.
  - destruct (AL _ _ _ H0) as (br & Hbr & Ex & _). apply SV in Hbr as (a1 & H1). rewrite Ex. apply (Hx c0 _ a1 br (nth_error_In _ _ E0) H1 eq_refl).
Qed.

(** Superposition of the recovered diagrams. *)
Lemma res_comb_lcomb a c1 A r1 c2 B r2 r : res_comb a c1 A r1 c2 B r2 r ->
  r_x (br_all r) = r_x (br_all r1) /\
  lcomb c1 (r_M (br_all r1)) c2 (r_M (br_all r2)) (r_M (br_all r)) /\ lcomb c1 (r_V (br_all r1)) c2 (r_V (br_all r2)) (r_V (br_all r)) /\
  (members (an_beam a) (an_n a) (fun mb => mb_type mb = 1%nat) \/ (forall s t args, In (Row s t args) (A ++ B) -> t <> 6%Z) ->
   lcomb c1 (r_R (br_all r1)) c2 (r_R (br_all r2)) (r_R (br_all r)) /\ lcomb c1 (r_D (br_all r1)) c2 (r_D (br_all r2)) (r_D (br_all r))).
Proof.
  intros (X & M & V & RD). split; [exact X|]. split; [apply L3_lcomb, M|]. split; [apply L3_lcomb, V|]. intros H.
  destruct RD as [HR HD]; [|split; apply L3_lcomb; assumption]. destruct H as [H|H]; [left|right; split; apply plain_rows; intros; eapply H; apply in_or_app; eauto].
  intros i mb Hi Hm. left. rewrite (H i mb Hi Hm). lia.
Qed.
Lemma diagrams_add gl ill a sps npts check A B a1 r1 a2 r2 : an_n a = b_nspans (an_beam a) -> members (an_beam a) (an_n a) (fun mb => mb_kf mb = None) -> no_settlement (an_beam a) ->
  analyze gl ill (with_beam a (set_loads (an_beam a) A)) sps npts check = (a1, Ok r1) ->
  analyze gl ill (with_beam a (set_loads (an_beam a) B)) sps npts check = (a2, Ok r2) ->
  exists a' r, analyze gl ill (with_beam a (set_loads (an_beam a) (add_LM A B))) sps npts check = (a', Ok r) /\
  r_x (br_all r) = r_x (br_all r1) /\
  lcomb 1 (r_M (br_all r1)) 1 (r_M (br_all r2)) (r_M (br_all r)) /\ lcomb 1 (r_V (br_all r1)) 1 (r_V (br_all r2)) (r_V (br_all r)) /\
  (members (an_beam a) (an_n a) (fun mb => mb_type mb = 1%nat) \/ (forall s t args, In (Row s t args) (A ++ B) -> t <> 6%Z) ->
   lcomb 1 (r_R (br_all r1)) 1 (r_R (br_all r2)) (r_R (br_all r)) /\ lcomb 1 (r_D (br_all r1)) 1 (r_D (br_all r2)) (r_D (br_all r))).
Proof.
  intros EN KF ND H1 H2. destruct (solve_add gl ill a sps npts check EN KF ND A B a1 a2 r1 r2 H1 H2) as (a' & r & H & C).
  exists a', r. split; [exact H|]. exact (res_comb_lcomb _ _ _ _ _ _ _ _ C).
Qed.
Lemma lcomb_0 g l1 l2 l : length l2 = length l -> lcomb g l1 0 l2 l -> l = map (Rmult g) l1.
Proof.
  intros _ (A & B & C). apply (nth_ext _ _ 0 0); [rewrite map_length; lia|]. intros i Hi. rewrite C, nth_scaled. ring.
Qed.
Lemma diagrams_scale gl ill a sps npts check A A' g a1 r1 : an_n a = b_nspans (an_beam a) -> members (an_beam a) (an_n a) (fun mb => mb_kf mb = None) -> no_settlement (an_beam a) ->
  Forall wf_row A -> factor_LM A g = Ok A' ->
  analyze gl ill (with_beam a (set_loads (an_beam a) A)) sps npts check = (a1, Ok r1) ->
  exists a' r, analyze gl ill (with_beam a (set_loads (an_beam a) A')) sps npts check = (a', Ok r) /\
  r_x (br_all r) = r_x (br_all r1) /\ r_M (br_all r) = map (Rmult g) (r_M (br_all r1)) /\ r_V (br_all r) = map (Rmult g) (r_V (br_all r1)) /\
  (members (an_beam a) (an_n a) (fun mb => mb_type mb = 1%nat) \/ (forall s t args, In (Row s t args) A -> t <> 6%Z) ->
   r_R (br_all r) = map (Rmult g) (r_R (br_all r1)) /\ r_D (br_all r) = map (Rmult g) (r_D (br_all r1))).
Proof.
  intros EN KF ND W F H1. destruct (solve_factor gl ill a sps npts check EN KF ND A A' g a1 r1 W F H1) as (a' & r & H & C).
  exists a', r. split; [exact H|]. destruct (res_comb_lcomb _ _ _ _ _ _ _ _ C) as (X & M & V & RD).
  assert (Z : forall l l2 l1, lcomb g l1 0 l2 l -> l = map (Rmult g) l1) by (intros l l2 l1 Q; eapply lcomb_0; [|exact Q]; apply Q).
  split; [exact X|]. split; [exact (Z _ _ _ M)|]. split; [exact (Z _ _ _ V)|]. intros K. destruct RD as [HR HD].
  - destruct K as [K|K]; [left; exact K|right]. intros s t args Hin. apply in_app_or in Hin as [Hin|Hin]; exact (K _ _ _ Hin).
  - split; [exact (Z _ _ _ HR)|exact (Z _ _ _ HD)].
Qed.
