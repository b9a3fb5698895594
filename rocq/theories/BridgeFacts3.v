(** The traverse theorems and the critical values. *)
From Coq Require Import Lia ZArith Sorted.
From Verif Require Import Base BaseFacts Linalg SectionModel FlexModel LoadModel LoadSpec FoundationModel ElementModel UtilsModel BeamModel BeamSpec AnalysisModel AnalysisSpec
  AnalysisFacts2 HistoryFacts CtorFacts ResultsModel ResultsSpec ResultsFacts EnvelopeModel EnvelopeSpec EnvelopeFacts LoadCasesModel LoadCasesSpec LoadCasesFacts SegmentFacts
  ShapeFacts VehicleModel VehicleSpec BridgeModel BridgeSpec BridgeFacts CritFacts BridgeFacts2.
Open Scope R_scope.
Local Notation length := List.length.

Lemma Forall2_imp {A B} (P Q : A -> B -> Prop) l m : (forall x y, P x y -> Q x y) -> Forall2 P l m -> Forall2 Q l m.
Proof. intros H F. induction F; constructor; auto. Qed.

Lemma geometric_axles v : geometric (fun b p => axle_LM b v p).
Proof. intros b lm p. reflexivity. Qed.
Lemma geometric_lane v c bf w : geometric (fun b p => do r <- axle_LM b v p; Ok (r ++ lane_rows b v c bf w p)%list).
Proof. intros b lm p. reflexivity. Qed.

Lemma member_length b i mb : member_at b i = Ok mb -> mb_L mb = nth i (b_lengths b) 0.
Proof.
  intros Hm. unfold member_at in Hm. apply rbind_ok in Hm as (e & _ & Hm). apply rbind_ok in Hm as (l & Hl & Hm). apply rbind_ok in Hm as (t & _ & Hm). injection Hm as <-.
  cbn [mb_L]. apply get_ok in Hl. symmetry. apply nth_error_nth. exact Hl.
Qed.
Lemma model_grid a : bridge_model a -> sound_grid (an_beam a).
Proof.
  intros [D _ _ K] i mb Hi Hm. split; [|exact (K i mb Hi Hm)]. rewrite (member_length _ _ _ Hm). apply deck_nth; assumption.
Qed.

Section Runs.
Variable gl : nat -> list (R * R).
Variable ill : nat -> mat -> bool.

Lemma one_result a sps lm r : bridge_model a -> analysed_with gl ill a sps lm = Ok r ->
  length (r_M (br_all r)) = length (r_x (br_all r)) /\ length (r_V (br_all r)) = length (r_x (br_all r)) /\ (0 < length (r_x (br_all r)))%nat /\
  M_at 0 r = 0 /\ V_at 0 r = 0 /\ In 0 (r_x (br_all r)) /\ In (deck_length (an_beam a)) (r_x (br_all r)).
Proof.
  intros BM E. unfold analysed_with in E. set (a1 := with_beam a (set_loads (an_beam a) lm)) in E. destruct (analyze gl ill a1 sps None true) as [a' x] eqn:EA. cbn [snd] in E. subst x.
  assert (SG : sound_grid (an_beam a1)) by exact (model_grid a BM).
  destruct (analyze_split _ _ _ _ _ _ _ _ EA) as (o & Ho & Hv & EL & _). destruct (analyze_core_state _ _ _ _ _ _ _ Ho) as (EB & _ & _ & EP).
  assert (P : (0 < an_npts a')%nat) by (rewrite EP; exact (bm_npts _ BM)).
  destruct (diagram_lengths _ _ _ _ _ _ _ _ EA P SG) as [D1 D2]. split; [exact D1|]. split; [exact D2|]. clear D1 D2.
  rewrite EB in Hv. destruct (member_analysis_spec _ _ _ _ _ _ _ Hv) as (ls & _ & Hlen & _). change (b_nspans (an_beam a1)) with (b_nspans (an_beam a)) in Hlen.
  assert (DK := bm_deck _ BM). assert (N1 := dk_some _ DK).
  unfold M_at, V_at. rewrite EL. cbn [mres_concat r_x r_M r_V].
  assert (L0 : nth_error (br_mem r) 0 <> None) by (apply nth_error_Some; lia).
  assert (Ll : nth_error (br_mem r) (b_nspans (an_beam a) - 1) <> None) by (apply nth_error_Some; lia).
  destruct (nth_error (br_mem r) 0) as [m0|] eqn:E0; [|congruence]. destruct (nth_error (br_mem r) (b_nspans (an_beam a) - 1)) as [ml|] eqn:El; [|congruence].
  destruct (mem_at gl ill a1 sps None true a' r EA P SG 0 m0 E0) as (mb0 & _ & _ & _ & (V0 & M0 & C0) & G0).
  destruct (mem_at gl ill a1 sps None true a' r EA P SG _ ml El) as (mbl & _ & _ & _ & _ & Gl).
  assert (LX : (0 < length (r_x m0))%nat) by (rewrite (sg_count _ _ _ _ G0); lia).
  destruct (mc_len _ _ _ _ C0) as (LV & LM & _). destruct (mc_ends _ _ _ _ C0) as (ZV & ZM & _).
  destruct (br_mem r) as [|m0' rest] eqn:EM; [discriminate|]. cbn in E0. injection E0 as ->. cbn [flat_map].
  split; [rewrite app_length; lia|]. split; [rewrite app_nth1 by lia; exact ZM|]. split; [rewrite app_nth1 by lia; exact ZV|]. split.
  - apply in_or_app. left. replace 0 with (nth 0 (r_x m0) 0); [apply nth_In; exact LX|]. rewrite (sg_first _ _ _ _ G0). reflexivity.
  - change (r_x m0 ++ flat_map r_x rest)%list with (flat_map r_x (m0 :: rest)). apply in_flat_map. exists ml. split; [eapply nth_error_In; exact El|].
    replace (deck_length (an_beam a)) with (nth (length (r_x ml) - 1) (r_x ml) 0).
    + apply nth_In. rewrite (sg_count _ _ _ _ Gl). lia.
    + rewrite (sg_count _ _ _ _ Gl), (sg_last _ _ _ _ Gl). unfold deck_length. change (node_x (an_beam a1) (b_nspans (an_beam a) - 1 + 1) = node_x (an_beam a1) (b_nspans (an_beam a))). f_equal. lia.
Qed.
Lemma analysed_shape a sps lm1 r1 lm2 r2 : analysed_with gl ill a sps lm1 = Ok r1 -> analysed_with gl ill a sps lm2 = Ok r2 ->
  r_x (br_all r2) = r_x (br_all r1) /\ length (br_R r2) = length (br_R r1).
Proof.
  unfold analysed_with. intros E1 E2. set (a1 := with_beam a (set_loads (an_beam a) lm1)) in *. set (a2 := with_beam a (set_loads (an_beam a) lm2)) in *.
  destruct (analyze gl ill a1 sps None true) as [a1' x] eqn:EA1. cbn [snd] in E1. subst x.
  destruct (analyze gl ill a2 sps None true) as [a2' x] eqn:EA2. cbn [snd] in E2. subst x.
  apply (same_shape gl ill a1 sps None true a1' r1 a2 lm2 None true a2' r2 EA1 EA2 eq_refl eq_refl).
  destruct (analyze_split _ _ _ _ _ _ _ _ EA1) as (o1 & H1 & _). destruct (analyze_split _ _ _ _ _ _ _ _ EA2) as (o2 & H2 & _).
  destruct (analyze_core_state _ _ _ _ _ _ _ H1) as (_ & _ & _ & ->). destruct (analyze_core_state _ _ _ _ _ _ _ H2) as (_ & _ & _ & ->). reflexivity.
Qed.
Lemma analysed_restraints a sps lm r : bridge_model a -> analysed_with gl ill a sps lm = Ok r -> (2 * b_nspans (an_beam a) < length (b_R (an_beam a)))%nat.
Proof.
  intros BM. unfold analysed_with. set (a1 := with_beam a (set_loads (an_beam a) lm)). destruct (analyze gl ill a1 sps None true) as [a1' x] eqn:EA. cbn [snd]. intros ->.
  destruct (analyze_split _ _ _ _ _ _ _ _ EA) as (o & Ho & _). unfold analyze_core in Ho.
  destruct (an_forces gl (an_beam a1) (an_n a1)) as [f|]; cbn [rbind] in Ho; [|discriminate].
  destruct (an_validate (b_R (an_beam a1)) (b_D (an_beam a1)) f (an_ndof a1)) as [[]|] eqn:EV; cbn [rbind] in Ho; [|discriminate].
  apply an_validate_len in EV. change (an_ndof a1) with (2 * (an_n a + 1))%nat in EV. change (b_R (an_beam a1)) with (b_R (an_beam a)) in EV. rewrite (bm_n _ BM) in EV. lia.
Qed.

Definition ran (a : analysis) (sps : nat -> list R) (rs : list bres) : Prop := Forall (fun r => exists lm, analysed_with gl ill a sps lm = Ok r) rs.
Lemma ran_compat a sps rs : bridge_model a -> ran a sps rs -> exists n s, (rs <> [] -> 0 < n)%nat /\ compatible n s rs /\ forall r r', In r rs -> In r' rs -> r_x (br_all r) = r_x (br_all r').
Proof.
  intros BM F. destruct F as [|r rs (lm & E) F]; [exists 0%nat, 0%nat; split; [congruence|split; [constructor|intros ? ? []]]|].
  exists (length (r_x (br_all r))), (length (br_R r)). destruct (one_result _ _ _ _ BM E) as (A & B & C & _). split; [auto|].
  assert (G : forall q, In q (r :: rs) -> r_x (br_all q) = r_x (br_all r) /\ length (br_R q) = length (br_R r) /\ exists lm', analysed_with gl ill a sps lm' = Ok q).
  { intros q [<-|Hq]; [repeat split; eauto|]. rewrite Forall_forall in F. destruct (F q Hq) as (lm' & E'). destruct (analysed_shape _ _ _ _ _ _ E E') as [X Y]. eauto. }
  split.
  - apply Forall_forall. intros q Hq. destruct (G q Hq) as (X & Y & lm' & E'). destruct (one_result _ _ _ _ BM E') as (A' & B' & _). rewrite A', B', X, Y. auto.
  - intros q q' Hq Hq'. rewrite (proj1 (G q Hq)), (proj1 (G q' Hq')). reflexivity.
Qed.

(** The rows at a position, and what is known of them. *)
Definition described (rows : beam -> R -> result (list row)) (P : beam -> R -> list row -> Prop) (a : analysis) : Prop :=
  forall p, exists rw, rows (an_beam a) p = Ok rw /\ P (an_beam a) p rw.

Lemma one_described rows P a static sps p r : described rows P a -> one gl ill a static sps rows p = Ok r ->
  exists rw, P (an_beam a) p rw /\ analysed_with gl ill a sps (static ++ rw)%list = Ok r.
Proof. intros D H. destruct (D p) as (rw & E & HP). unfold one in H. rewrite E in H. cbn [rbind] in H. eauto. Qed.

Lemma run_spec g a v rows P step pstart pend sp dv g' e : bg_ba g = Some a -> bg_veh g = Some v -> geometric (rows v) -> described (rows v) P a -> b_length (an_beam a) = deck_length (an_beam a) ->
  run_positions gl ill g rows step pstart pend sp dv = (g', Ok e) ->
  exists k sps, apply_shear_points (an_beam a) sp dv = Ok (sps, bg_spx g') /\
    bg_pos g' = positions (given 0 pstart) step k /\
    Rabs (given (deck_length (an_beam a) + v_L v) pend - (given 0 pstart + INR k * step)) <= Rabs step / 2 /\
    Forall2 (fun p r => exists rw, P (an_beam a) p rw /\ analysed_with gl ill a sps (bg_static g ++ rw)%list = Ok r) (bg_pos g') (bg_results g') /\
    env_init (bg_results g') = Ok e /\ envelope_of (bg_results g') e /\ e_nres e = S k /\
    bg_static g' = bg_static g /\ bg_veh g' = Some v /\ bg_sps g' = (fun _ => []) /\
    exists a', bg_ba g' = Some a' /\ kin gl ill a a' /\ exists rw, P (an_beam a) (given 0 pstart + INR k * step) rw /\ b_LM (an_beam a') = (bg_static g ++ rw)%list.
Proof.
  intros Ea Ev G DS DL H. destruct (run_ok_inv _ _ _ _ _ _ _ _ _ _ _ H) as (a0 & v0 & sps & spx & Ea' & Ev' & Hs & Hp).
  rewrite Ea in Ea'. injection Ea' as <-. rewrite Ev in Ev'. injection Ev' as <-.
  destruct (run_outcome gl ill g a v rows step pstart pend sp dv sps spx Ea Ev G Hs Hp) as [O1 O2]. rewrite H in O1, O2. cbn [fst snd] in O1, O2. rewrite DL in O1, O2.
  set (ps := run_ps _ _ _) in *. destruct (mapM (one gl ill a (bg_static g) sps (rows v)) ps) as [rs|] eqn:EM; [|discriminate]. cbn [rbind] in O1.
  destruct (O2 rs eq_refl) as (E1 & E2 & E3 & E4 & E5 & E6 & a' & E7 & K & LL). clear O2.
  assert (NE : ps <> []) by (intros X; rewrite X in EM; cbn in EM; injection EM as <-; discriminate O1).
  destruct (run_ps_positions _ _ _ Hs NE) as (k & Ek & Hk). fold ps in Ek.
  exists k, sps. rewrite E1, E2, E5. split; [exact Hp|]. split; [exact Ek|]. split; [exact Hk|].
  assert (F := mapM_ok _ _ _ EM). split.
  { revert F. apply Forall2_imp. intros p r. apply one_described. exact DS. }
  split; [symmetry; exact O1|]. split; [apply built_envelope, env_built; symmetry; exact O1|].
  assert (LR : length rs = S k) by (rewrite <- (Forall2_len _ _ _ F), Ek; unfold positions; rewrite map_length, seq_length; reflexivity).
  split; [destruct (env_sizes _ _ (eq_sym O1)) as (_ & X & _); rewrite X; exact LR|].
  split; [exact E3|]. split; [exact E4|]. split; [exact E6|]. exists a'. split; [exact E7|]. split; [exact K|].
  destruct (LL (given 0 pstart + INR k * step) NE) as (rw & Erw & Elm).
  { rewrite Ek. unfold positions. rewrite seq_S, map_app. cbn [map]. rewrite last_last. reflexivity. }
  destruct (DS (given 0 pstart + INR k * step)) as (rw' & Erw' & HP). rewrite Erw in Erw'. injection Erw' as <-. exists rw. auto.
Qed.
Lemma run_complete g a v rows step pstart pend sp dv k sps spx rs : bg_ba g = Some a -> bg_veh g = Some v -> geometric (rows v) -> bridge_model a ->
  apply_shear_points (an_beam a) sp dv = Ok (sps, spx) -> step <> 0 ->
  Rabs (given (deck_length (an_beam a) + v_L v) pend - (given 0 pstart + INR k * step)) < Rabs step / 2 ->
  Forall2 (fun p r => exists rw, rows v (an_beam a) p = Ok rw /\ analysed_with gl ill a sps (bg_static g ++ rw)%list = Ok r) (positions (given 0 pstart) step k) rs ->
  exists g' e, run_positions gl ill g rows step pstart pend sp dv = (g', Ok e) /\ bg_results g' = rs.
Proof.
  intros Ea Ev G BM Hp Hs Hk F. destruct (run_outcome gl ill g a v rows step pstart pend sp dv sps spx Ea Ev G Hs Hp) as [O1 O2].
  rewrite (dk_len _ (bm_deck _ BM)) in O1, O2. fold (deck_length (an_beam a)) in O1, O2. rewrite (run_ps_exact _ _ _ k Hs Hk) in O1, O2.
  assert (EM : mapM (one gl ill a (bg_static g) sps (rows v)) (positions (given 0 pstart) step k) = Ok rs).
  { apply mapM_complete. revert F. apply Forall2_imp. intros p r (rw & E1 & E2). unfold one. rewrite E1. exact E2. }
  destruct (O2 rs EM) as (_ & E2 & _). rewrite EM in O1. cbn [rbind] in O1.
  assert (RN : ran a sps rs).
  { clear - F. induction F as [|p r l m (rw & _ & E) F IH]; constructor; eauto. }
  destruct (ran_compat a sps rs BM RN) as (n & s & _ & CP & _).
  assert (NE : rs <> []) by (inversion F; discriminate).
  destruct (c21 n s rs NE CP) as (e & Ee & _). rewrite Ee in O1.
  destruct (run_positions gl ill g rows step pstart pend sp dv) as [g' x]. cbn [fst snd] in *. subst x. eauto.
Qed.
Lemma run_fails g a v rows step pstart pend sp dv k sps spx j x : bg_ba g = Some a -> bg_veh g = Some v -> geometric (rows v) -> b_length (an_beam a) = deck_length (an_beam a) ->
  apply_shear_points (an_beam a) sp dv = Ok (sps, spx) -> step <> 0 ->
  Rabs (given (deck_length (an_beam a) + v_L v) pend - (given 0 pstart + INR k * step)) < Rabs step / 2 ->
  (j <= k)%nat -> (forall i, (i < j)%nat -> exists r, one gl ill a (bg_static g) sps (rows v) (given 0 pstart + INR i * step) = Ok r) ->
  one gl ill a (bg_static g) sps (rows v) (given 0 pstart + INR j * step) = Err x ->
  snd (run_positions gl ill g rows step pstart pend sp dv) = Err x.
Proof.
  intros Ea Ev G DL Hp Hs Hk Hj Hi Hx. destruct (run_outcome gl ill g a v rows step pstart pend sp dv sps spx Ea Ev G Hs Hp) as [O1 _].
  rewrite DL, (run_ps_exact _ _ _ k Hs Hk) in O1. rewrite O1. unfold positions. replace (S k) with (j + S (k - j))%nat by lia. rewrite seq_app, map_app, mapM_app. cbn [Nat.add seq map mapM].
  assert (exists rs, mapM (one gl ill a (bg_static g) sps (rows v)) (map (fun i => given 0 pstart + INR i * step) (seq 0 j)) = Ok rs) as (rs & ->).
  { clear - Hi. induction j as [|j IH]; [exists []; reflexivity|]. destruct IH as (rs & E); [intros; apply Hi; lia|]. rewrite seq_S, map_app, mapM_app, E. cbn [rbind Nat.add map mapM].
    destruct (Hi j ltac:(lia)) as (r & ->). cbn [rbind]. eexists. reflexivity. }
  cbn [rbind]. rewrite Hx. reflexivity.
Qed.

(** Critical values of a run. *)
Lemma greatest_extreme l m : extreme Rle l m <-> greatest l m.
Proof. reflexivity. Qed.
Lemma governs_ext (p q : list R -> R -> Prop) f h xs ps vr c : (forall l m, p l m <-> q l m) -> governs p f h xs ps vr c -> governs q f h xs ps vr c.
Proof.
  intros H [A B C]. constructor; [apply H; exact A|exact B|]. destruct C as (js & C1 & C2 & C3). exists js. split; [exact C1|]. split; [exact C2|]. intros j. rewrite C3.
  split; intros (X & m & Y & Z); (split; [exact X|]); exists m; (split; [apply H; exact Y|exact Z]).
Qed.
Lemma crit_spec g a sps vr e : bridge_model a -> ran a sps vr -> env_init vr = Ok e -> bg_results g = vr -> length (bg_pos g) = length vr ->
  (exists a', bg_ba g = Some a' /\ b_R (an_beam a') = b_R (an_beam a) /\ b_lengths (an_beam a') = b_lengths (an_beam a) /\ deck (an_beam a')) ->
  (forall x, In x (bg_spx g) -> 0 < x < deck_length (an_beam a)) ->
  exists c, critical_values g e = Ok c /\
    governs greatest (fun r => r_M (br_all r)) (fun r => r_V (br_all r)) (e_x e) (bg_pos g) vr (cv_Mmax c) /\
    governs least (fun r => r_M (br_all r)) (fun r => r_V (br_all r)) (e_x e) (bg_pos g) vr (cv_Mmin c) /\
    governs greatest (fun r => r_V (br_all r)) (fun r => r_M (br_all r)) (e_x e) (bg_pos g) vr (cv_Vmax c) /\
    governs least (fun r => r_V (br_all r)) (fun r => r_M (br_all r)) (e_x e) (bg_pos g) vr (cv_Vmin c) /\
    cv_nsup c = e_nsup e /\ length (cv_Rmax c) = e_nsup e /\ length (cv_Rmin c) = e_nsup e /\
    (forall i, (i < e_nsup e)%nat -> reaction_governs true i (bg_pos g) vr (nth i (cv_Rmax c) (0, 0)) /\ reaction_governs false i (bg_pos g) vr (nth i (cv_Rmin c) (0, 0))) /\
    Forall2 (section_shear (an_beam a) e) (bg_spx g) (cv_shear c).
Proof.
  intros BM RN EI ER EP (a' & Ea' & EbR & EbL & DK') HS.
  assert (NE := proj1 (env_sizes _ _ EI)). destruct (ran_compat a sps vr BM RN) as (n & s & Hn & CP & XX). specialize (Hn NE).
  destruct (c21 n s vr NE CP) as (e' & Ee & EN & ES & _ & EO). rewrite EI in Ee. injection Ee as <-. assert (CO := c22 vr e EI). assert (BU := env_built _ _ EI).
  assert (X1 : exists r, In r vr /\ e_x e = r_x (br_all r)).
  { clear - EI. unfold env_init in EI. destruct vr as [|r0 vr']; [discriminate|]. apply rbind_ok in EI as (v & _ & EI). apply rbind_ok in EI as (R0 & _ & EI). injection EI as <-. exists r0. split; [left; reflexivity|reflexivity]. }
  destruct X1 as (r1 & Hr1 & Ex).
  assert (CF : forall r, In r vr -> length (r_x (br_all r)) = n /\ length (r_M (br_all r)) = n /\ length (r_V (br_all r)) = n /\ M_at 0 r = 0 /\ V_at 0 r = 0).
  { intros r Hr. unfold compatible in CP. rewrite Forall_forall in CP. destruct (CP r Hr) as (A & B & C & _). unfold ran in RN. rewrite Forall_forall in RN. destruct (RN r Hr) as (lm & El).
    destruct (one_result _ _ _ _ BM El) as (_ & _ & _ & Z1 & Z2 & _). auto. }
  assert (LX : length (e_x e) = n) by (rewrite Ex; apply CF; exact Hr1).
  destruct (eo_len _ _ EO) as (L1 & L2 & L3 & L4 & _). rewrite EN in *.
  assert (antiR : forall x y, x <= y -> y <= x -> x = y) by (intros; lra). assert (antiL : forall x y, x >= y -> y >= x -> x = y) by (intros; lra).
  assert (tR : forall x y z, x <= y -> y <= z -> x <= z) by (intros; lra). assert (tL : forall x y z, x >= y -> y >= z -> x >= z) by (intros; lra).
  assert (iR : forall l, l <> [] -> In (row_max l) l) by (intros l N; apply row_max_greatest; exact N).
  assert (iL : forall l, l <> [] -> In (row_min l) l) by (intros l N; apply row_min_least; exact N).
  assert (bR : forall l x, In x l -> x <= row_max l) by (intros l x Hx; apply row_max_greatest; [intros ->; destruct Hx|exact Hx]).
  assert (bL : forall l x, In x l -> x >= row_min l) by (intros l x Hx; apply Rle_ge, row_min_least; [intros ->; destruct Hx|exact Hx]).
  assert (npR : forall l, l <> [] -> np_max l = Ok (row_max l)) by (intros [|]; [congruence|reflexivity]).
  assert (npL : forall l, l <> [] -> np_min l = Ok (row_min l)) by (intros [|]; [congruence|reflexivity]).
  assert (SM : forall f (c : R), smallest f vr c -> bound Rge f vr c).
  { intros f c (A & B & C). split; [lra|]. split; [intros q Hq; apply Rle_ge, B, Hq|exact C]. }
  assert (LG : forall l m, extreme Rge l m <-> least l m).
  { intros l m. unfold extreme, least. split; intros [A B]; (split; [exact A|]); intros x Hx; specialize (B x Hx); lra. }
  assert (FM : forall r, In r vr -> length (r_M (br_all r)) = n /\ nth 0 (r_M (br_all r)) 0 = 0) by (intros r Hr; destruct (CF r Hr) as (_ & A & _ & B & _); auto).
  assert (FV : forall r, In r vr -> length (r_V (br_all r)) = n /\ nth 0 (r_V (br_all r)) 0 = 0) by (intros r Hr; destruct (CF r Hr) as (_ & _ & A & _ & B); auto).
  pose proof (bu_l5 _ _ BU) as L5. pose proof (bu_l6 _ _ BU) as L6. pose proof (bu_l7 _ _ BU) as L7. pose proof (bu_l8 _ _ BU) as L8. rewrite EN in L5, L6, L7, L8.
  destruct (crit_one Rle row_max antiR iR bR tR g (fun r => r_M (br_all r)) (fun r => r_V (br_all r)) (e_x e) (e_Mmax e) (e_VcoMmax e) vr n np_max npR Hn NE FM L1 L5 LX) as (i1 & c1 & A1 & B1 & N1 & C1 & G1); [| |exact ER|exact EP|].
  { intros k Hk. apply (eo_M _ _ EO). rewrite EN. exact Hk. } { intros k Hk. apply (co_Mmax _ _ CO). rewrite EN. exact Hk. }
  destruct (crit_one Rge row_min antiL iL bL tL g (fun r => r_M (br_all r)) (fun r => r_V (br_all r)) (e_x e) (e_Mmin e) (e_VcoMmin e) vr n np_min npL Hn NE FM L2 L6 LX) as (i2 & c2 & A2 & B2 & N2 & C2 & G2); [| |exact ER|exact EP|].
  { intros k Hk. apply SM, (eo_M _ _ EO). rewrite EN. exact Hk. } { intros k Hk. apply (co_Mmin _ _ CO). rewrite EN. exact Hk. }
  destruct (crit_one Rle row_max antiR iR bR tR g (fun r => r_V (br_all r)) (fun r => r_M (br_all r)) (e_x e) (e_Vmax e) (e_McoVmax e) vr n np_max npR Hn NE FV L3 L7 LX) as (i3 & c3 & A3 & B3 & N3 & C3 & G3); [| |exact ER|exact EP|].
  { intros k Hk. apply (eo_V _ _ EO). rewrite EN. exact Hk. } { intros k Hk. apply (co_Vmax _ _ CO). rewrite EN. exact Hk. }
  destruct (crit_one Rge row_min antiL iL bL tL g (fun r => r_V (br_all r)) (fun r => r_M (br_all r)) (e_x e) (e_Vmin e) (e_McoVmin e) vr n np_min npL Hn NE FV L4 L8 LX) as (i4 & c4 & A4 & B4 & N4 & C4 & G4); [| |exact ER|exact EP|].
  { intros k Hk. apply SM, (eo_V _ _ EO). rewrite EN. exact Hk. } { intros k Hk. apply (co_Vmin _ _ CO). rewrite EN. exact Hk. }
  destruct (env_sizes _ _ EI) as (_ & _ & ERM & ERm).
  set (rowM := fun i => map (fun r => Rmax 0 (R_at i r)) vr) in *. set (rowm := fun i => map (fun r => Rmin 0 (R_at i r)) vr) in *.
  assert (ZM : forall x, Rmax 0 x = 0 \/ Rmax 0 x = x) by (intros x; unfold Rmax; destruct (Rle_dec 0 x); auto).
  assert (Zm : forall x, Rmin 0 x = 0 \/ Rmin 0 x = x) by (intros x; unfold Rmin; destruct (Rle_dec 0 x); auto).
  assert (PM : exists lM, mapM (fun i => do row <- get (e_Rmax e) i; reaction_crit g np_max argmax row) (seq 0 (e_nsup e)) = Ok lM /\ length lM = e_nsup e /\
    forall i, (i < e_nsup e)%nat -> reaction_governs true i (bg_pos g) vr (nth i lM (0, 0))).
  { assert (Q : forall i, (i < e_nsup e)%nat -> exists vp, (do row <- get (e_Rmax e) i; reaction_crit g np_max argmax row) = Ok vp /\ reaction_governs true i (bg_pos g) vr vp).
    { intros i Hi. rewrite ERM, (get_nth _ i []) by (rewrite map_length, seq_length; exact Hi). cbn [rbind]. rewrite (nth_map_seq0 rowM) by exact Hi.
      destruct (reaction_one row_max iR g (Rmax 0) i vr np_max npR ZM NE EP) as (p & E1 & E2). change (fun l => index_of (row_max l) l) with argmax in E1.
      exists (row_max (rowM i), p). split; [exact E1|]. split; [cbn [fst]; apply (row_max_largest (R_at i)); exact NE|exact E2]. }
    clear - Q. assert (H : forall m, (m <= e_nsup e)%nat -> exists lM, mapM (fun i => do row <- get (e_Rmax e) i; reaction_crit g np_max argmax row) (seq 0 m) = Ok lM /\ length lM = m /\
      forall i, (i < m)%nat -> reaction_governs true i (bg_pos g) vr (nth i lM (0, 0))).
    { induction m as [|m IH]; intros Hm; [exists []; split; [reflexivity|split; [reflexivity|intros; lia]]|]. destruct (IH ltac:(lia)) as (lM & E & LL & F). destruct (Q m ltac:(lia)) as (vp & Ev & Gv).
      exists (lM ++ [vp])%list. rewrite seq_S, mapM_app, E. cbn [rbind Nat.add mapM]. rewrite Ev. cbn [rbind]. split; [reflexivity|]. rewrite app_length. cbn [length]. split; [lia|].
      intros i Hi. destruct (Nat.eq_dec i m) as [->|N]; [rewrite app_nth2 by lia; rewrite LL, Nat.sub_diag; exact Gv|rewrite app_nth1 by lia; apply F; lia]. }
    exact (H _ (le_n _)). }
  assert (Pm : exists lM, mapM (fun i => do row <- get (e_Rmin e) i; reaction_crit g np_min argmin row) (seq 0 (e_nsup e)) = Ok lM /\ length lM = e_nsup e /\
    forall i, (i < e_nsup e)%nat -> reaction_governs false i (bg_pos g) vr (nth i lM (0, 0))).
  { assert (Q : forall i, (i < e_nsup e)%nat -> exists vp, (do row <- get (e_Rmin e) i; reaction_crit g np_min argmin row) = Ok vp /\ reaction_governs false i (bg_pos g) vr vp).
    { intros i Hi. rewrite ERm, (get_nth _ i []) by (rewrite map_length, seq_length; exact Hi). cbn [rbind]. rewrite (nth_map_seq0 rowm) by exact Hi.
      destruct (reaction_one row_min iL g (Rmin 0) i vr np_min npL Zm NE EP) as (p & E1 & E2). change (fun l => index_of (row_min l) l) with argmin in E1.
      exists (row_min (rowm i), p). split; [exact E1|]. split; [cbn [fst]; apply (row_min_smallest (R_at i)); exact NE|exact E2]. }
    clear - Q. assert (H : forall m, (m <= e_nsup e)%nat -> exists lM, mapM (fun i => do row <- get (e_Rmin e) i; reaction_crit g np_min argmin row) (seq 0 m) = Ok lM /\ length lM = m /\
      forall i, (i < m)%nat -> reaction_governs false i (bg_pos g) vr (nth i lM (0, 0))).
    { induction m as [|m IH]; intros Hm; [exists []; split; [reflexivity|split; [reflexivity|intros; lia]]|]. destruct (IH ltac:(lia)) as (lM & E & LL & F). destruct (Q m ltac:(lia)) as (vp & Ev & Gv).
      exists (lM ++ [vp])%list. rewrite seq_S, mapM_app, E. cbn [rbind Nat.add mapM]. rewrite Ev. cbn [rbind]. split; [reflexivity|]. rewrite app_length. cbn [length]. split; [lia|].
      intros i Hi. destruct (Nat.eq_dec i m) as [->|N]; [rewrite app_nth2 by lia; rewrite LL, Nat.sub_diag; exact Gv|rewrite app_nth1 by lia; apply F; lia]. }
    exact (H _ (le_n _)). }
  destruct PM as (lM & EM & LM & GM). destruct Pm as (lm & Em & Lm & Gm).
  (* shear sections *)
  assert (DK := bm_deck _ BM).
  assert (ENS : b_nspans (an_beam a') = b_nspans (an_beam a)) by (rewrite (dk_n _ DK'), (dk_n _ DK), EbL; reflexivity).
  assert (ENA : forall i, node_at (an_beam a') i = node_at (an_beam a) i) by (intros i; unfold node_at; rewrite EbL; reflexivity).
  unfold ran in RN. assert (RN1 := RN). rewrite Forall_forall in RN1. destruct (RN1 r1 Hr1) as (lm1 & Elm1).
  assert (HRl := analysed_restraints _ _ _ _ BM Elm1). destruct (one_result _ _ _ _ BM Elm1) as (_ & _ & _ & _ & _ & I0 & IL).
  assert (SH : exists l, mapM (shear_block (an_beam a') e) (bg_spx g) = Ok l /\ Forall2 (section_shear (an_beam a) e) (bg_spx g) (concat l)).
  { clear - HS HRl I0 IL Ex DK' ENS ENA EbR EbL L3 L4 LX. induction (bg_spx g) as [|x l IH]; [exists []; split; [reflexivity|constructor]|].
    destruct IH as (t & Et & Ft); [intros; apply HS; right; assumption|]. assert (Hx := HS x (or_introl eq_refl)).
    destruct (shear_block_spec (an_beam a') e x DK') as (s & Es & Gs).
    - rewrite ENS, EbR. exact HRl.
    - congruence.
    - congruence.
    - exists 0. rewrite Ex. split; [exact I0|lra].
    - exists (deck_length (an_beam a)). rewrite Ex. split; [exact IL|lra].
    - exists ([s] :: t). cbn [mapM]. rewrite Es, Et. split; [reflexivity|]. cbn [concat app]. constructor; [|exact Ft].
      destruct Gs as [S1 S2 S3 S4 S5 S6]. constructor; auto. assert (VS : forall y, vertical_support (an_beam a') y <-> vertical_support (an_beam a) y).
      { intros y. unfold vertical_support, restraint. rewrite ENS, EbR. split; intros (i & A & B & C); exists i; rewrite ENA in *; auto. }
      destruct (se_support s) as [[y lft]|].
      + destruct S6 as (T1 & T2 & T3). split; [apply VS; exact T1|]. split; [intros y' Hy'; apply T2, VS, Hy'|exact T3].
      + intros y Hy. apply (S6 y), VS, Hy. }
  destruct SH as (sl & Esl & Fsl).
  unfold critical_values. rewrite A1, A2, A3, A4. cbn [rbind]. rewrite B1, B2, B3, B4. cbn [rbind existsb].
  destruct i1 as [|p1 q1]; [congruence|]. destruct i2 as [|p2 q2]; [congruence|]. destruct i3 as [|p3 q3]; [congruence|]. destruct i4 as [|p4 q4]; [congruence|]. cbn [orb].
  change (fun l => index_of (row_max l) l) with argmax in C1, C3. change (fun l => index_of (row_min l) l) with argmin in C2, C4.
  rewrite C1, C2, C3, C4. cbn [rbind]. rewrite EM, Em. cbn [rbind]. rewrite Ea'.
  assert (SHE : (match bg_spx g, Some a' with [], _ => Ok [] | pts, Some a => do l <- mapM (shear_block (an_beam a) e) pts; Ok (concat l) | _, None => Err AttributeError end) = Ok (concat sl)).
  { clear - Esl. destruct (bg_spx g) as [|q t]; [cbn in Esl; injection Esl as <-; reflexivity|]. rewrite Esl. reflexivity. }
  rewrite SHE. cbn [rbind]. eexists. split; [reflexivity|]. cbn [cv_Mmax cv_Mmin cv_Vmax cv_Vmin cv_nsup cv_Rmax cv_Rmin cv_shear].
  split; [exact G1|]. split; [exact (governs_ext _ _ _ _ _ _ _ _ LG G2)|]. split; [exact G3|]. split; [exact (governs_ext _ _ _ _ _ _ _ _ LG G4)|].
  split; [reflexivity|]. split; [exact LM|]. split; [exact Lm|]. split; [intros i Hi; split; [apply GM|apply Gm]; exact Hi|exact Fsl].
Qed.
End Runs.
