(** The statements of the bridge properties, and sample runs. *)
From Coq Require Import Lia ZArith Sorted.
From Coquelicot Require Import Coquelicot.
From Verif Require Import Base BaseFacts Linalg SectionModel FlexModel LoadModel LoadSpec FoundationModel ElementModel ElementSpec UtilsModel BeamModel BeamSpec AnalysisModel AnalysisSpec
  BalanceFacts AnalysisFacts AnalysisFacts2 MechFacts AnalysisFacts3 HistoryFacts CtorFacts ResultsModel ResultsSpec ResultsFacts EnvelopeModel EnvelopeSpec EnvelopeFacts LoadCasesModel LoadCasesSpec LoadCasesFacts SegmentFacts
  ShapeFacts VehicleModel VehicleSpec VehicleFacts BridgeModel BridgeSpec BridgeFacts CritFacts BridgeFacts2 BridgeFacts3 LMFacts.
Open Scope R_scope.
Local Notation length := List.length.

Lemma constructed_deck c b : beam_init c = Ok b -> (1 <= b_nspans b)%nat -> Forall (Rlt 0) (b_lengths b) -> deck b.
Proof. intros H N P. destruct (ctor_laid _ _ H) as [A B C]. constructor; assumption. Qed.
Lemma axles_spec b v pos : deck b -> exists rows, axle_LM b v pos = Ok rows /\ axle_rows b v pos rows /\
  (forall rows', axle_rows b v pos rows' -> rows' = rows) /\
  lsum (map row_force rows) = lsum (map snd (on_deck b (axles_at v pos))).
Proof.
  intros D. destruct (axle_LM_spec b v pos D) as (rows & E & A). exists rows. split; [exact E|]. split; [exact A|]. split; [intros r H; eapply axle_rows_unique; eassumption|apply axle_rows_force; exact A].
Qed.

Lemma apply_sections b sp dv sps pts : deck b -> (2 * b_nspans b < length (b_R b))%nat -> apply_shear_points b sp dv = Ok (sps, pts) -> shear_sections b sp dv sps pts.
Proof.
  intros D HR H. destruct (resolve_spec b (match sp with SpPoints p => p | _ => None end) dv D HR) as (s & q & E & S1 & S2 & S3).
  destruct sp as [d|[p|]]; cbn [apply_shear_points shear_sections] in *.
  - injection H as <- <-. auto.
  - rewrite E in H. injection H as <- <-. auto.
  - destruct dv as [d|]; [rewrite E in H; injection H as <- <-; auto|injection H as <- <-; auto].
Qed.
Lemma apply_total b sp dv : deck b -> (2 * b_nspans b < length (b_R b))%nat -> exists sps pts, apply_shear_points b sp dv = Ok (sps, pts) /\ shear_sections b sp dv sps pts.
Proof.
  intros D HR. assert (E : exists sps pts, apply_shear_points b sp dv = Ok (sps, pts)).
  { destruct sp as [d|p]; [cbn; eauto|]. destruct (resolve_spec b p dv D HR) as (s & q & E & _). cbn. destruct p; [eauto|destruct dv; [eauto|cbn; eauto]]. }
  destruct E as (sps & pts & E). exists sps, pts. split; [exact E|]. apply apply_sections; assumption.
Qed.

Section Runs.
Variable gl : nat -> list (R * R).
Variable ill : nat -> mat -> bool.

Lemma run_traversed g a v rows P step pstart pend sp dv g' e : bg_ba g = Some a -> bg_veh g = Some v -> bridge_model a -> geometric (rows v) -> described (rows v) P a ->
  run_positions gl ill g rows step pstart pend sp dv = (g', Ok e) ->
  exists k sps, shear_sections (an_beam a) sp dv sps (bg_spx g') /\ traversed gl ill P g a v step pstart pend sps g' e k /\ env_init (bg_results g') = Ok e.
Proof.
  intros Ea Ev BM G DS H. destruct (run_spec gl ill g a v rows P step pstart pend sp dv g' e Ea Ev G DS (dk_len _ (bm_deck _ BM)) H)
    as (k & sps & A1 & A2 & A3 & A4 & A5 & A6 & A7 & A8 & A9 & A10 & a' & B1 & K & rw & B2 & B3).
  exists k, sps. split.
  - apply apply_sections; [exact (bm_deck _ BM)| |exact A1]. rewrite A2 in A4. inversion A4 as [|p r l m (rw' & _ & X) F E1 E2]. exact (analysed_restraints _ _ _ _ _ _ BM X).
  - split; [|exact A5]. constructor; try assumption.
    + intros i. rewrite A10. reflexivity.
    + exists a', rw. split; [exact B1|]. split; [exact B2|]. split; [rewrite <- B3; exact (k_beam _ _ _ _ K)|]. split; [exact (k_n _ _ _ _ K)|exact (k_npts _ _ _ _ K)].
Qed.
Lemma axles_described a v : deck (an_beam a) -> described (fun b p => axle_LM b v p) (axle_loads v) a.
Proof. intros D p. destruct (axle_LM_spec (an_beam a) v p D) as (rw & E & A). exists rw. auto. Qed.
Lemma lane_described a v c bf w : deck (an_beam a) -> Forall (Rlt length_tol) (b_lengths (an_beam a)) -> 0 <= v_L v -> validate_clearances c = Ok bf ->
  described (fun b p => do r <- axle_LM b v p; Ok (r ++ lane_rows b v c bf w p)%list) (axle_lane_loads v c w) a.
Proof.
  intros D F HL V p. destruct (axle_LM_spec (an_beam a) v p D) as (rw & E & A). exists (rw ++ lane_rows (an_beam a) v c bf w p)%list. rewrite E. split; [reflexivity|].
  exists rw, (lane_rows (an_beam a) v c bf w p). split; [reflexivity|]. split; [exact A|]. apply lane_spec; assumption.
Qed.

Lemma vehicle_traversed g a v step pstart pend sp dv g' e : bg_ba g = Some a -> bg_veh g = Some v -> bridge_model a ->
  run_vehicle gl ill g step pstart pend sp dv = (g', Ok e) ->
  exists k sps, shear_sections (an_beam a) sp dv sps (bg_spx g') /\ traversed gl ill (axle_loads v) g a v step pstart pend sps g' e k.
Proof.
  intros Ea Ev BM H. destruct (run_traversed g a v (fun v b p => axle_LM b v p) (axle_loads v) step pstart pend sp dv g' e Ea Ev BM (geometric_axles v) (axles_described a v (bm_deck _ BM)) H) as (k & sps & A & B & _).
  eauto.
Qed.
Lemma model_traversed g a v step w c pstart pend sp dv g' e : bg_ba g = Some a -> bg_veh g = Some v -> bridge_model a -> Forall (Rlt length_tol) (b_lengths (an_beam a)) -> 0 <= v_L v ->
  run_load_model gl ill g step w c pstart pend sp dv = (g', Ok e) ->
  exists k sps, shear_sections (an_beam a) sp dv sps (bg_spx g') /\ traversed gl ill (axle_lane_loads v c w) g a v step pstart pend sps g' e k.
Proof.
  intros Ea Ev BM F HL H. unfold run_load_model in H. destruct (validate_clearances c) as [bf|] eqn:V; [|discriminate].
  destruct (run_traversed g a v _ (axle_lane_loads v c w) step pstart pend sp dv g' e Ea Ev BM (geometric_lane v c bf w) (lane_described a v c bf w (bm_deck _ BM) F HL V) H) as (k & sps & A & B & _). eauto.
Qed.
Lemma vehicle_completes g a v step pstart pend sp dv k : bg_ba g = Some a -> bg_veh g = Some v -> bridge_model a -> (2 * b_nspans (an_beam a) < length (b_R (an_beam a)))%nat ->
  step <> 0 -> Rabs (given (deck_length (an_beam a) + v_L v) pend - (given 0 pstart + INR k * step)) < Rabs step / 2 ->
  (forall sps pts p rows, shear_sections (an_beam a) sp dv sps pts -> In p (positions (given 0 pstart) step k) -> axle_rows (an_beam a) v p rows ->
     exists r, analysed_with gl ill a sps (bg_static g ++ rows)%list = Ok r) ->
  exists g' e, run_vehicle gl ill g step pstart pend sp dv = (g', Ok e).
Proof.
  intros Ea Ev BM HR Hs Hk F. destruct (apply_total (an_beam a) sp dv (bm_deck _ BM) HR) as (sps & pts & E0 & S0).
  assert (X : exists rs, Forall2 (fun p r => exists rw, axle_LM (an_beam a) v p = Ok rw /\ analysed_with gl ill a sps (bg_static g ++ rw)%list = Ok r) (positions (given 0 pstart) step k) rs).
  { assert (F' : forall p rows, In p (positions (given 0 pstart) step k) -> axle_rows (an_beam a) v p rows -> exists r, analysed_with gl ill a sps (bg_static g ++ rows)%list = Ok r) by (intros; eapply F; eassumption).
    clear - F' BM. induction (positions (given 0 pstart) step k) as [|p l IH]; [exists []; constructor|]. destruct IH as (rs & IH); [intros; eapply F'; [right|]; eassumption|].
    destruct (axle_LM_spec (an_beam a) v p (bm_deck _ BM)) as (rw & E & A). destruct (F' p rw (or_introl eq_refl) A) as (r & Er). exists (r :: rs). constructor; eauto. }
  destruct X as (rs & X). destruct (run_complete gl ill g a v (fun v b p => axle_LM b v p) step pstart pend sp dv k sps pts rs Ea Ev (geometric_axles v) BM E0 Hs Hk X) as (g' & e & H & _). eauto.
Qed.
Lemma model_completes g a v step w c pstart pend sp dv k : bg_ba g = Some a -> bg_veh g = Some v -> bridge_model a -> (2 * b_nspans (an_beam a) < length (b_R (an_beam a)))%nat ->
  Forall (Rlt length_tol) (b_lengths (an_beam a)) -> 0 <= v_L v ->
  step <> 0 -> Rabs (given (deck_length (an_beam a) + v_L v) pend - (given 0 pstart + INR k * step)) < Rabs step / 2 -> (exists bf, validate_clearances c = Ok bf) ->
  (forall sps pts p rows, shear_sections (an_beam a) sp dv sps pts -> In p (positions (given 0 pstart) step k) -> axle_lane_loads v c w (an_beam a) p rows ->
     exists r, analysed_with gl ill a sps (bg_static g ++ rows)%list = Ok r) ->
  exists g' e, run_load_model gl ill g step w c pstart pend sp dv = (g', Ok e).
Proof.
  intros Ea Ev BM HR HT HL Hs Hk (bf & V) F. destruct (apply_total (an_beam a) sp dv (bm_deck _ BM) HR) as (sps & pts & E0 & S0). unfold run_load_model. rewrite V.
  set (rows := fun v b p => _).
  assert (X : exists rs, Forall2 (fun p r => exists rw, rows v (an_beam a) p = Ok rw /\ analysed_with gl ill a sps (bg_static g ++ rw)%list = Ok r) (positions (given 0 pstart) step k) rs).
  { assert (F' : forall p rows, In p (positions (given 0 pstart) step k) -> axle_lane_loads v c w (an_beam a) p rows -> exists r, analysed_with gl ill a sps (bg_static g ++ rows)%list = Ok r) by (intros; eapply F; eassumption).
    clear - F' BM V HT HL. induction (positions (given 0 pstart) step k) as [|p l IH]; [exists []; constructor|]. destruct IH as (rs & IH); [intros; eapply F'; [right|]; eassumption|].
    destruct (lane_described a v c bf w (bm_deck _ BM) HT HL V p) as (rw & E & A). destruct (F' p rw (or_introl eq_refl) A) as (r & Er). exists (r :: rs). constructor; eauto. }
  destruct X as (rs & X). destruct (run_complete gl ill g a v rows step pstart pend sp dv k sps pts rs Ea Ev (geometric_lane v c bf w) BM E0 Hs Hk X) as (g' & e & H & _). eauto.
Qed.
Lemma vehicle_fails g a v step pstart pend sp dv k j x rows sps : bg_ba g = Some a -> bg_veh g = Some v -> bridge_model a -> (2 * b_nspans (an_beam a) < length (b_R (an_beam a)))%nat ->
  step <> 0 -> Rabs (given (deck_length (an_beam a) + v_L v) pend - (given 0 pstart + INR k * step)) < Rabs step / 2 ->
  sp = SpDict sps -> (j <= k)%nat ->
  (forall i rw, (i < j)%nat -> axle_rows (an_beam a) v (given 0 pstart + INR i * step) rw -> exists r, analysed_with gl ill a sps (bg_static g ++ rw)%list = Ok r) ->
  axle_rows (an_beam a) v (given 0 pstart + INR j * step) rows -> analysed_with gl ill a sps (bg_static g ++ rows)%list = Err x ->
  snd (run_vehicle gl ill g step pstart pend sp dv) = Err x.
Proof.
  intros Ea Ev BM HR Hs Hk -> Hj Hi Hr Hx. unfold run_vehicle.
  apply (run_fails gl ill g a v (fun v b p => axle_LM b v p) step pstart pend (SpDict sps) dv k sps [] j x Ea Ev (geometric_axles v) (dk_len _ (bm_deck _ BM)) eq_refl Hs Hk Hj).
  - intros i Hij. destruct (axle_LM_spec (an_beam a) v (given 0 pstart + INR i * step) (bm_deck _ BM)) as (rw & E & A). destruct (Hi i rw Hij A) as (r & Er). exists r. unfold one. rewrite E. exact Er.
  - destruct (axle_LM_spec (an_beam a) v (given 0 pstart + INR j * step) (bm_deck _ BM)) as (rw & E & A). assert (rw = rows) as -> by (eapply axle_rows_unique; [exact (bm_deck _ BM)|exact A|exact Hr]).
    unfold one. rewrite E. exact Hx.
Qed.
Lemma vehicle_backwards g a v step pstart pend sp dv : bg_ba g = Some a -> bg_veh g = Some v -> bridge_model a -> (2 * b_nspans (an_beam a) < length (b_R (an_beam a)))%nat ->
  step <> 0 -> (given (deck_length (an_beam a) + v_L v) pend - given 0 pstart) / step < -1/2 ->
  snd (run_vehicle gl ill g step pstart pend sp dv) = Err IndexError.
Proof.
  intros Ea Ev BM HR Hs Hk. destruct (apply_total (an_beam a) sp dv (bm_deck _ BM) HR) as (sps & pts & E0 & S0). unfold run_vehicle.
  destruct (run_outcome gl ill g a v (fun v b p => axle_LM b v p) step pstart pend sp dv sps pts Ea Ev (geometric_axles v) Hs E0) as [O _]. rewrite O.
  rewrite (dk_len _ (bm_deck _ BM)). fold (deck_length (an_beam a)). rewrite run_ps_empty by exact Hk. reflexivity.
Qed.
Lemma vehicle_missing g step pstart pend sp dv : bg_ba g = None \/ bg_veh g = None -> run_vehicle gl ill g step pstart pend sp dv = (g, Err ValueError).
Proof. unfold run_vehicle, run_positions. intros [-> | ->]; [reflexivity|]. destruct (bg_ba g); reflexivity. Qed.
Lemma clearances_rejected g step w c pstart pend sp dv : (c = ClBad \/ exists b f, c = ClPair b f /\ (b < 0 \/ f < 0)) -> run_load_model gl ill g step w c pstart pend sp dv = (g, Err ValueError).
Proof.
  intros H. assert (V : validate_clearances c = Err ValueError).
  { destruct H as [->|(b & f & -> & H)]; [reflexivity|]. unfold validate_clearances, Rltb. destruct (Rlt_dec b 0); [reflexivity|]. destruct (Rlt_dec f 0); [reflexivity|]. lra. }
  unfold run_load_model. rewrite V. reflexivity.
Qed.
Lemma clearances_accepted c : (c = ClNone \/ exists b f, c = ClPair b f /\ 0 <= b /\ 0 <= f) -> exists bf, validate_clearances c = Ok bf.
Proof.
  intros [->|(b & f & -> & H1 & H2)]; [eexists; reflexivity|]. unfold validate_clearances, Rltb. destruct (Rlt_dec b 0); [lra|]. destruct (Rlt_dec f 0); [lra|]. eexists. reflexivity.
Qed.
Lemma zero_step g a v pstart pend sp dv sps pts : bg_ba g = Some a -> bg_veh g = Some v -> apply_shear_points (an_beam a) sp dv = Ok (sps, pts) ->
  snd (run_vehicle gl ill g 0 pstart pend sp dv) = Err ZeroDivisionError /\ bg_sps (fst (run_vehicle gl ill g 0 pstart pend sp dv)) = sps.
Proof.
  intros Ea Ev E. unfold run_vehicle, run_positions. rewrite Ea, Ev, E. cbv zeta. destruct (Reqb_spec 0 0) as [_|N]; [|exfalso; apply N; reflexivity]. split; reflexivity.
Qed.

(** Critical values of a successful run. *)
Lemma traversed_critical P g a v step pstart pend sp dv sps g' e k : bridge_model a -> shear_sections (an_beam a) sp dv sps (bg_spx g') -> traversed gl ill P g a v step pstart pend sps g' e k ->
  env_init (bg_results g') = Ok e -> exists c, critical_values g' e = Ok c /\ critical (an_beam a) e (bg_pos g') (bg_results g') (bg_spx g') c.
Proof.
  intros BM SS TV EI. destruct (crit_spec gl ill g' a sps (bg_results g') e BM) as (c & A1 & A2 & A3 & A4 & A5 & A6 & A7 & A8 & A9 & A10).
  - assert (F := tv_res _ _ _ _ _ _ _ _ _ _ _ _ _ TV). clear - F. unfold ran. induction F as [|p r l m (rw & _ & E) F IH]; constructor; eauto.
  - exact EI.
  - reflexivity.
  - exact (Forall2_len _ _ _ (tv_res _ _ _ _ _ _ _ _ _ _ _ _ _ TV)).
  - destruct (tv_ba _ _ _ _ _ _ _ _ _ _ _ _ _ TV) as (a' & rw & E & _ & Eb & _). exists a'. rewrite Eb. split; [exact E|]. split; [reflexivity|]. split; [reflexivity|].
    destruct (bm_deck _ BM) as [D1 D2 D3 D4 D5]. constructor; assumption.
  - intros x Hx. clear - SS Hx. destruct sp as [d|[p|]]; cbn [shear_sections] in SS.
    + destruct SS as [_ E]. rewrite E in Hx. destruct Hx.
    + destruct SS as (_ & S & _). apply S in Hx. apply Hx.
    + destruct dv as [d|]; [destruct SS as (_ & S & _); apply S in Hx; apply Hx|]. destruct SS as [_ E]. rewrite E in Hx. destruct Hx.
  - exists c. split; [exact A1|]. constructor; auto.
Qed.
Lemma vehicle_critical g a v step pstart pend sp dv g' e : bg_ba g = Some a -> bg_veh g = Some v -> bridge_model a -> run_vehicle gl ill g step pstart pend sp dv = (g', Ok e) ->
  exists c, critical_values g' e = Ok c /\ critical (an_beam a) e (bg_pos g') (bg_results g') (bg_spx g') c.
Proof.
  intros Ea Ev BM H. destruct (run_traversed g a v (fun v b p => axle_LM b v p) (axle_loads v) step pstart pend sp dv g' e Ea Ev BM (geometric_axles v) (axles_described a v (bm_deck _ BM)) H) as (k & sps & A & B & C).
  exact (traversed_critical _ g a v step pstart pend sp dv sps g' e k BM A B C).
Qed.
Lemma vehicle_init_env g a v step pstart pend sp dv g' e : bg_ba g = Some a -> bg_veh g = Some v -> bridge_model a -> run_vehicle gl ill g step pstart pend sp dv = (g', Ok e) -> exists vr, env_init vr = Ok e.
Proof.
  intros Ea Ev BM H. destruct (run_traversed g a v (fun v b p => axle_LM b v p) (axle_loads v) step pstart pend sp dv g' e Ea Ev BM (geometric_axles v) (axles_described a v (bm_deck _ BM)) H) as (k & sps & A & B & C). eauto.
Qed.
Lemma model_critical g a v step w c pstart pend sp dv g' e : bg_ba g = Some a -> bg_veh g = Some v -> bridge_model a -> Forall (Rlt length_tol) (b_lengths (an_beam a)) -> 0 <= v_L v ->
  run_load_model gl ill g step w c pstart pend sp dv = (g', Ok e) ->
  exists cv, critical_values g' e = Ok cv /\ critical (an_beam a) e (bg_pos g') (bg_results g') (bg_spx g') cv.
Proof.
  intros Ea Ev BM F HL H. unfold run_load_model in H. destruct (validate_clearances c) as [bf|] eqn:V; [|discriminate].
  destruct (run_traversed g a v _ (axle_lane_loads v c w) step pstart pend sp dv g' e Ea Ev BM (geometric_lane v c bf w) (lane_described a v c bf w (bm_deck _ BM) F HL V) H) as (k & sps & A & B & C).
  exact (traversed_critical _ g a v step pstart pend sp dv sps g' e k BM A B C).
Qed.

(** ** Sample: the encastre span *)
Definition simple_load (ld : load) : Prop := match ld with LUDL _ | LPL _ _ => True | LPUDL _ a c => 0 <= a <= 6 | _ => False end.
Definition simple_row (r : row) : Prop := exists p, parse_row r = Ok [p] /\ simple_load (snd p).
Lemma simple_parsed lm : Forall simple_row lm -> exists ls, parse_LM lm = Ok ls /\ Forall (fun p => simple_load (snd p)) ls.
Proof.
  intros F. unfold parse_LM. assert (N : forallb is_list_row lm = true).
  { apply forallb_forall. rewrite Forall_forall in F. intros r Hr. destruct (F r Hr) as (p & E & _). destruct r; (reflexivity || discriminate). }
  rewrite N. cbn [negb]. clear N. induction F as [|r lm (p & E & S) F (ls & IH & L)]; [exists []; split; [reflexivity|constructor]|]. cbn [mapM]. rewrite E. cbn [rbind].
  destruct (mapM parse_row lm) as [t|]; [|discriminate]. cbn [rbind] in *. injection IH as <-. eexists. split; [reflexivity|]. cbn [concat app]. constructor; assumption.
Qed.
Lemma simple_attached b ls : Forall (fun p : Z * load => simple_load (snd p)) ls -> mapM (attach_EI b) ls = Ok ls.
Proof. induction 1 as [|[z ld] l S F IH]; [reflexivity|]. cbn [mapM]. rewrite IH. destruct ld; try destruct S; reflexivity. Qed.
Lemma simple_parsed_loads b : Forall simple_row (b_LM b) -> exists ls, parsed_loads b = Ok ls /\ Forall (fun p => simple_load (snd p)) ls.
Proof.
  intros F. destruct (simple_parsed _ F) as (ls & E & S). exists ls. split; [|exact S]. unfold parsed_loads. rewrite E. cbn [rbind]. apply simple_attached. exact S.
Qed.
Lemma simple_loads ls i : Forall (fun p : Z * load => simple_load (snd p)) ls -> Forall simple_load (loads_of ls i).
Proof.
  intros F. unfold loads_of. induction F as [|p l S F IH]; [constructor|]. cbn [filter]. destruct (Z.eqb _ _); [cbn [map]; constructor; assumption|exact IH].
Qed.
Lemma ff_bridge : bridge_model ff.
Proof.
  constructor.
  - constructor; cbn; [reflexivity|unfold node_at; cbn; ring|unfold node_at; cbn; repeat f_equal; ring|lia|repeat constructor; lra].
  - reflexivity.
  - cbn. lia.
  - intros i mb _ H. apply (ff_member i mb H).
Qed.
Definition ff_lm (lm : list row) : analysis := with_beam ff (set_loads (an_beam ff) lm).
Lemma ff_lm_wf lm : Forall simple_row lm -> well_formed gl (an_beam (ff_lm lm)) 1.
Proof.
  intros F. split; [cbn; lia|]. split; [cbn; lia|]. destruct (simple_parsed_loads (an_beam (ff_lm lm)) F) as (ls & E & S). exists ls. split; [exact E|]. intros m Hm.
  replace m with 0%nat by lia. assert (S0 := simple_loads ls 0 S). do 2 eexists. assert (X : exists r, forall mb, member_at (an_beam (ff_lm lm)) 0 = Ok mb -> span_ref gl mb (loads_of ls 0) = Ok r).
  { cut (exists r, span_ref gl {| mb_L := 6; mb_EI := RConst 2; mb_GAv := None; mb_kf := None; mb_type := 1 |} (loads_of ls 0) = Ok r).
    - intros (r & Er). exists r. intros mb Hm'. cbn in Hm'. injection Hm' as <-. exact Er.
    - unfold span_ref. cbn [mb_kf]. generalize (fun _ : nat => 0). induction S0 as [|ld l Sl S0 IH]; intros acc; [eexists; reflexivity|]. cbn [foldM].
      assert (Q : exists u, ref_one gl {| mb_L := 6; mb_EI := RConst 2; mb_GAv := None; mb_kf := None; mb_type := 1 |} ld = Ok u) by (destruct ld; try destruct Sl; [eexists; reflexivity|eexists; reflexivity|]; unfold ref_one; cbn [mb_GAv mb_EI mb_L mb_type]; unfold load_get_ref; cbn [get_cnl]; unfold pudl_cnl, Rltb; destruct (Rlt_dec 6 a); [lra|eexists; reflexivity]).
      destruct Q as (u & ->). cbn [rbind]. apply IH. }
  destruct X as (r & Hr). exists r. split; [reflexivity|]. split; [reflexivity|]. apply Hr. reflexivity.
Qed.
Lemma ff_lm_total lm sps : Forall simple_row lm -> exists r, analysed_with gl ill ff sps lm = Ok r.
Proof.
  intros F. assert (WF := ff_lm_wf lm F). destruct (simple_parsed_loads (an_beam (ff_lm lm)) F) as (ls & El & Sl). unfold analysed_with. fold (ff_lm lm).
  assert (C : exists o, snd (analyze_core gl ill (ff_lm lm) None true) = Ok o).
  { destruct (well_formed_system _ _ _ WF) as (kb & rf & S). apply (core_total gl ill (ff_lm lm) true kb rf S).
    - cbn. lia.
    - cbn. lia.
    - intros i Hi (C & _). change (restraint (an_beam (ff_lm lm)) i) with (restraint ff_beam i) in C. rewrite ff_restraint in C by (cbn in Hi; lia). lra.
    - intros y Hy i Hi. specialize (Hy i Hi). unfold bcv in Hy. change (prescribed (an_beam (ff_lm lm)) i) with (prescribed ff_beam i) in Hy.
      change (restraint (an_beam (ff_lm lm)) i) with (restraint ff_beam i) in Hy. rewrite ff_prescribed, ff_restraint in Hy by (cbn in Hi; lia). destruct (Rlt_dec (-1) 0); [exact Hy|lra].
    - right. destruct S as [Hk _]. destruct (an_assemble_total gl (an_beam (ff_lm lm)) 1 kb Hk ltac:(cbn; lia)) as (k & EA & _). exists k. split; [exact EA|]. unfold check_stability.
      change (b_R (an_beam (ff_lm lm))) with [-1; -1; -1; -1]. change (b_D (an_beam (ff_lm lm))) with (@cons (option R) None [None; None; None]).
      assert (FD : free_dofs [-1; -1; -1; -1] [None; None; None; None] (seq 0 (2 * (an_n (ff_lm lm) + 1))) = Ok []).
      { cbn [ff_lm with_beam ff an_n Nat.add Nat.mul seq]. cbn. unfold Rltb. destruct (Rlt_dec (-1) 0); [reflexivity|lra]. }
      rewrite FD. reflexivity. }
  destruct C as (o & Ho). destruct (analyze_total_ok gl ill (ff_lm lm) sps None true o ls Ho) as (a' & br & E & _).
  - reflexivity.
  - exact WF.
  - exact El.
  - intros i mb Hi E. destruct (ff_member i mb E) as (_ & _ & A & B & _). auto.
  - intros i mb Hi E. assert (S0 := simple_loads ls i Sl). clear - S0 E. induction S0 as [|ld l S S0 (cs & IH)]; [exists []; reflexivity|]. cbn [mapM]. rewrite IH.
    destruct (ff_member i mb E) as (_ & _ & _ & _ & L6 & _). rewrite L6. destruct ld; try destruct S; [eexists; reflexivity|eexists; reflexivity|]. cbn [get_cnl]. unfold pudl_cnl, Rltb. destruct (Rlt_dec 6 a); [lra|eexists; reflexivity].
  - exists br. rewrite E. reflexivity.
Qed.
Lemma axle_rows_simple b v p rows : axle_rows b v p rows -> Forall simple_row rows.
Proof. unfold axle_rows. induction 1 as [|q r l m (i & x & -> & _) F IH]; constructor; [|exact IH]. eexists. split; [reflexivity|exact I]. Qed.
Lemma lane_simple v c w p rows : lane (an_beam ff) v c w p rows -> Forall simple_row rows.
Proof.
  assert (G : Forall (udl_row (an_beam ff) w) rows -> Forall simple_row rows).
  { apply Forall_impl. intros r (i & a & c0 & E & Hi & A & B & C). cbn in Hi. replace i with 0%nat in C by lia. eexists. split; [exact E|]. cbn in C |- *. lra. }
  intros H. apply G. destruct c as [|bk fr|]; [..|destruct H]; destruct H as [H _]; exact H.
Qed.
Definition ff_bridge0 : bridge := bridge_init (Some ff) (Some truck).
Lemma ff_static : Forall simple_row (bg_static ff_bridge0).
Proof. repeat constructor. eexists. split; [reflexivity|exact I]. Qed.
Lemma ff_length : deck_length (an_beam ff) = 6.
Proof. unfold deck_length, node_at. cbn. ring. Qed.
Lemma ff_run sp dv : exists g' e, run_vehicle gl ill ff_bridge0 4 None None sp dv = (g', Ok e).
Proof.
  apply (vehicle_completes ff_bridge0 ff truck 4 None None sp dv 4 eq_refl eq_refl ff_bridge); [cbn; lia|lra| |].
  - rewrite ff_length. cbn [given truck v_L INR]. replace (6 + (0 + 4 + 6) - (0 + (1 + 1 + 1 + 1) * 4)) with 0 by ring. rewrite Rabs_R0, Rabs_right; lra.
  - intros sps pts p rows _ _ A. apply ff_lm_total. apply Forall_app. split; [exact ff_static|]. eapply axle_rows_simple; exact A.
Qed.
Lemma ff_tol : Forall (Rlt length_tol) (b_lengths (an_beam ff)).
Proof. repeat constructor. unfold length_tol. cbn. lra. Qed.
Lemma ff_model_run sp dv : exists g' e, run_load_model gl ill ff_bridge0 4 10 (ClPair 1 2) None None sp dv = (g', Ok e).
Proof.
  apply (model_completes ff_bridge0 ff truck 4 10 (ClPair 1 2) None None sp dv 4 eq_refl eq_refl ff_bridge); [cbn; lia|exact ff_tol|cbn; lra|lra| | |].
  - rewrite ff_length. cbn [given truck v_L INR]. replace (6 + (0 + 4 + 6) - (0 + (1 + 1 + 1 + 1) * 4)) with 0 by ring. rewrite Rabs_R0, Rabs_right; lra.
  - apply clearances_accepted. right. exists 1, 2. split; [reflexivity|lra].
  - intros sps pts p rows _ _ (ax & ln & -> & A & B). apply ff_lm_total. apply Forall_app. split; [exact ff_static|]. apply Forall_app. split; [eapply axle_rows_simple; exact A|eapply lane_simple; exact B].
Qed.
(** After a run the analysis carries the axles of the last position: another bridge analysis
    made with it takes them as static loads. *)
Lemma ff_reused : exists g' e a', run_vehicle gl ill ff_bridge0 4 None None (SpPoints None) None = (g', Ok e) /\ bg_ba g' = Some a' /\
  bg_static ff_bridge0 = [Row 1 1 [2]] /\ bg_static (bridge_init (Some a') (Some truck)) = [Row 1 1 [2]; Row 1 2 [140; 6; 0]].
Proof.
  destruct (ff_run (SpPoints None) None) as (g' & e & H). destruct (vehicle_traversed ff_bridge0 ff truck 4 None None (SpPoints None) None g' e eq_refl eq_refl ff_bridge H) as (k & sps & _ & T).
  assert (E := tv_end _ _ _ _ _ _ _ _ _ _ _ _ _ T). rewrite ff_length in E. cbn [given truck v_L] in E.
  assert (k = 4%nat) as ->.
  { rewrite (Rabs_right 4) in E by lra. assert (3 < INR k < 5 \/ INR k = 7/2 \/ INR k = 9/2) as B by (unfold Rabs in E; destruct (Rcase_abs _); lra).
    assert (3 < INR k < 5) as [B1 B2] by lra. change 3 with (IZR 3) in B1. change 5 with (IZR 5) in B2. rewrite INR_IZR_INZ in B1, B2. apply lt_IZR in B1, B2. lia. }
  destruct (tv_ba _ _ _ _ _ _ _ _ _ _ _ _ _ T) as (a' & rows & Ea & A & Eb & _). exists g', e, a'. split; [exact H|]. split; [exact Ea|]. split; [reflexivity|].
  cbn [bridge_init bg_static]. rewrite Eb. cbn [set_loads with_LM b_LM]. change (bg_static ff_bridge0) with [Row 1 1 [2]]. cbn [app]. f_equal.
  apply (axle_rows_unique (an_beam ff) truck (given 0 None + INR 4 * 4) rows [Row 1 2 [140; 6; 0]]); [exact (bm_deck _ ff_bridge)|exact A|].
  unfold axle_rows, on_deck, axles_at, axles. cbn [truck v_coords v_axw combine map fst snd filter]. rewrite ff_length. unfold within. cbn [given INR].
  destruct (Rle_dec (0 + (1 + 1 + 1 + 1) * 4 - 0) 6); [lra|]. destruct (Rle_dec (0 + (1 + 1 + 1 + 1) * 4 - (0 + 4)) 6); [lra|].
  destruct (Rle_dec (0 + (1 + 1 + 1 + 1) * 4 - (0 + 4 + 6)) 6); [|lra].
  destruct (Rle_dec 0 (0 + (1 + 1 + 1 + 1) * 4 - 0)); destruct (Rle_dec 0 (0 + (1 + 1 + 1 + 1) * 4 - (0 + 4))); (destruct (Rle_dec 0 (0 + (1 + 1 + 1 + 1) * 4 - (0 + 4 + 6))); [|lra]);
  (apply Forall2_cons; [|constructor]); exists 0%nat, 6; cbn [snd fst]; (split; [reflexivity|]); (split; [cbn; lia|]); (split; [unfold node_at; cbn; ring|]); (split; [lra|]); right; cbn; split; (lia || lra).
Qed.
End Runs.
