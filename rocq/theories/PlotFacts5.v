(** Facts about animated traverses, and instances for the drawn diagrams. *)
From Coq Require Import String Ascii Lra Lia.
From Verif Require Import Base BaseFacts Linalg SectionModel LoadModel LoadSpec FoundationModel ElementModel UtilsModel BeamModel BeamSpec AnalysisModel AnalysisSpec UnitsModel ResultsModel ResultsSpec ResultsFacts ShapeFacts CombFacts
  EnvelopeModel EnvelopeSpec EnvelopeFacts EnvReadModel EnvReadSpec EnvReadFacts SpanSample EnvReadExample ExportModel ExportSpec ExportFacts VehicleModel VehicleSpec VehicleFacts BridgeModel BridgeSpec BridgeFacts BridgeFacts2 BridgeFacts3 BridgeFacts4 CritFacts InfModel ModalModel NonlinModel PlotModel PlotSpec PlotFacts PlotFacts2 PlotFacts3 PlotFacts4.
Open Scope R_scope.
Local Notation length := List.length.
Local Open Scope list_scope.

Lemma Forall2_len {A B} (P : A -> B -> Prop) l m : Forall2 P l m -> length l = length m.
Proof. induction 1; cbn; congruence. Qed.
Section Runs.
Variables (gl : nat -> list (R * R)) (ill : nat -> mat -> bool).
(** The results of a traverse are on the stations of its envelope. *)
Lemma traverse_stations g a v step pstart pend sp dv g' e : bg_ba g = Some a -> bg_veh g = Some v -> bridge_model a -> run_vehicle gl ill g step pstart pend sp dv = (g', Ok e) ->
  env_init (bg_results g') = Ok e /\ on_stations (e_x e) (bg_results g') /\ e_x e <> [] /\ length (bg_pos g') = length (bg_results g') /\ bg_results g' <> [] /\ envelope_of (bg_results g') e /\
  exists a', bg_ba g' = Some a' /\ b_length (an_beam a') = deck_length (an_beam a).
Proof.
  intros Ea Ev BM H. destruct (run_traversed gl ill g a v (fun v b p => axle_LM b v p) (axle_loads v) step pstart pend sp dv g' e Ea Ev BM (geometric_axles v) (axles_described a v (bm_deck _ BM)) H) as (k & sps & _ & TV & EI).
  assert (RN : ran gl ill a sps (bg_results g')).
  { destruct TV as [_ _ F _ _ _ _ _ _]. unfold ran. clear - F. induction F as [|p r l m (rw & _ & E) F IH]; constructor; eauto. }
  destruct (init_parts _ _ EI) as (r0 & t & ER & X & _). assert (H0 : In r0 (bg_results g')) by (rewrite ER; left; reflexivity).
  assert (ST : on_stations (e_x e) (bg_results g')).
  { apply Forall_forall. intros r Hr. destruct (ran_compat gl ill a sps _ BM RN) as (n & s & _ & _ & XX). rewrite X, <- (XX r r0 Hr H0). unfold ran in RN. rewrite Forall_forall in RN. destruct (RN r Hr) as (lm & E).
    destruct (one_result gl ill a sps lm r BM E) as (A & B & _). auto. }
  split; [exact EI|]. split; [exact ST|]. split.
  { unfold ran in RN. rewrite Forall_forall in RN. destruct (RN r0 H0) as (lm & E). destruct (one_result gl ill a sps lm r0 BM E) as (_ & _ & C & _). rewrite X. intros Z. rewrite Z in C. cbn in C. lia. }
  split; [exact (Forall2_len _ _ _ (tv_res _ _ _ _ _ _ _ _ _ _ _ _ _ TV))|]. split; [rewrite ER; discriminate|]. split; [exact (tv_env _ _ _ _ _ _ _ _ _ _ _ _ _ TV)|].
  destruct (tv_ba _ _ _ _ _ _ _ _ _ _ _ _ _ TV) as (a' & rows & EA & _ & EB & _). exists a'. split; [exact EA|]. rewrite EB. exact (dk_len _ (bm_deck _ BM)).
Qed.
Lemma animate_frames us0 g a v step pstart pend units us g' e : bg_ba g = Some a -> bg_veh g = Some v -> bridge_model a -> resolve us0 units = Ok us ->
  run_vehicle gl ill g step pstart pend (SpPoints None) None = (g', Ok e) ->
  exists fs, animate gl ill us0 g step pstart pend units = (g', Ok fs) /\ Forall2 (frame_of us (deck_length (an_beam a)) (bg_pos g') (e_x e) (bg_results g')) (seq 0 (length (bg_pos g'))) fs.
Proof.
  intros Ea Ev BM U H. destruct (traverse_stations _ _ _ _ _ _ _ _ _ _ Ea Ev BM H) as (EI & ST & NX & LP & NE & _ & a' & EA & DL).
  unfold animate. rewrite U, H, EA, DL. destruct (frames_drawn us (deck_length (an_beam a)) (bg_pos g') (e_x e) (bg_results g') ST NX NE LP) as (fs & E & F). exists fs. rewrite E. auto.
Qed.
Lemma animate_needs_run us0 g step pstart pend units g' fs : animate gl ill us0 g step pstart pend units = (g', Ok fs) -> exists e, run_vehicle gl ill g step pstart pend (SpPoints None) None = (g', Ok e).
Proof.
  unfold animate. destruct (resolve us0 units); [|discriminate]. destruct (run_vehicle gl ill g step pstart pend (SpPoints None) None) as [g1 [e|x]]; [|discriminate]. intros H. injection H as -> _. eauto.
Qed.
(** The envelope bounds the bands of the last frame and reaches them unless they stay on one side of zero. *)
Lemma greatest_unique l a b : greatest l a -> greatest l b -> a = b.
Proof. intros (A & A') (B & B'). apply Rle_antisym; auto. Qed.
Lemma largest_of_greatest {A} (f : A -> R) l m g : largest f l m -> greatest (map f l) g -> m = Rmax 0 g.
Proof.
  intros (P & Q & [Z|(x & Hx & E)]) (I & B).
  - apply in_map_iff in I as (y & <- & Hy). specialize (Q y Hy). rewrite Rmax_left; lra.
  - assert (f x <= g) by (apply B, in_map, Hx). apply in_map_iff in I as (y & <- & Hy). specialize (Q y Hy). rewrite Rmax_right; lra.
Qed.
Lemma smallest_of_least {A} (f : A -> R) l m g : smallest f l m -> least (map f l) g -> m = Rmin 0 g.
Proof.
  intros (P & Q & [Z|(x & Hx & E)]) (I & B).
  - apply in_map_iff in I as (y & <- & Hy). specialize (Q y Hy). rewrite Rmin_left; lra.
  - assert (g <= f x) by (apply B, in_map, Hx). apply in_map_iff in I as (y & <- & Hy). specialize (Q y Hy). rewrite Rmin_right; lra.
Qed.
Lemma last_bands us L pos vr e f : env_init vr = Ok e -> on_stations (e_x e) vr -> vr <> [] -> frame_of us L pos (e_x e) vr (pred (length vr)) f ->
  exists hM lM yM hV lV yV, page (fr_M f) = [beam_line L; ("0.55"%string, above (e_x e) hM); ("0.55"%string, above (e_x e) lM); yM] /\ page (fr_V f) = [beam_line L; ("0.55"%string, above (e_x e) hV); ("0.55"%string, above (e_x e) lV); yV] /\
    forall k, (k < length (e_x e))%nat -> nth k (e_Mmax e) 0 = Rmax 0 (- nth k lM 0) /\ nth k (e_Mmin e) 0 = Rmin 0 (- nth k hM 0) /\ nth k (e_Vmax e) 0 = Rmax 0 (nth k hV 0) /\ nth k (e_Vmin e) 0 = Rmin 0 (nth k lV 0).
Proof.
  intros E O NE (_ & (r & _ & (hM & lM & PM & HM & KM) & (hV & lV & PV & HV & KV)) & _). exists hM, lM. eexists. exists hV, lV. eexists. split; [exact PM|]. split; [exact PV|]. intros k Hk.
  destruct (init_envelope _ _ E O) as [EO N]. assert (Kn : (k < e_npts e)%nat) by (rewrite N; exact Hk).
  assert (S : S (pred (length vr)) = length vr) by (destruct vr; [congruence|reflexivity]).
  destruct HM as (_ & HM), KM as (_ & KM), HV as (_ & HV), KV as (_ & KV). specialize (HM k Hk). specialize (KM k Hk). specialize (HV k Hk). specialize (KV k Hk). rewrite S, firstn_all in *.
  destruct (eo_M _ _ EO k Kn) as (A & B), (eo_V _ _ EO k Kn) as (C & D).
  assert (FL : forall m, least (map (fun r => - M_at k r) vr) m -> greatest (map (M_at k) vr) (- m)).
  { intros m (I & Q). apply in_map_iff in I as (y & <- & Hy). split; [rewrite Ropp_involutive; apply in_map, Hy|]. intros x Hx. apply in_map_iff in Hx as (z & <- & Hz). specialize (Q (- M_at k z) (in_map (fun r => - M_at k r) _ _ Hz)). lra. }
  assert (FG : forall m, greatest (map (fun r => - M_at k r) vr) m -> least (map (M_at k) vr) (- m)).
  { intros m (I & Q). apply in_map_iff in I as (y & <- & Hy). split; [rewrite Ropp_involutive; apply in_map, Hy|]. intros x Hx. apply in_map_iff in Hx as (z & <- & Hz). specialize (Q (- M_at k z) (in_map (fun r => - M_at k r) _ _ Hz)). lra. }
  split; [exact (largest_of_greatest _ _ _ _ A (FL _ KM))|]. split; [exact (smallest_of_least _ _ _ _ B (FG _ HM))|]. split; [exact (largest_of_greatest _ _ _ _ C HV)|exact (smallest_of_least _ _ _ _ D KV)].
Qed.

(** ** Instances *)
Lemma ff_count sps lm r : analysed_with gl ill ff sps lm = Ok r -> length (r_x (br_all r)) = (103 + 2 * inside_points 6 (sps 0%nat))%nat.
Proof.
  intros E. unfold analysed_with in E. set (a1 := with_beam ff (set_loads (an_beam ff) lm)) in E. destruct (analyze gl ill a1 sps None true) as [a' x] eqn:EA. cbn [snd] in E. subst x.
  assert (SG : sound_grid (an_beam a1)) by exact (model_grid ff ff_bridge).
  destruct (analyze_split _ _ _ _ _ _ _ _ EA) as (o & Ho & Hv & EL & _). destruct (analyze_core_state _ _ _ _ _ _ _ Ho) as (EB & _ & _ & EP).
  rewrite EB in Hv. destruct (member_analysis_spec _ _ _ _ _ _ _ Hv) as (ls & _ & Hlen & _). change (b_nspans (an_beam a1)) with 1%nat in Hlen.
  destruct (br_mem r) as [|m [|m2 l]] eqn:EM; try discriminate Hlen. assert (P : (0 < an_npts a')%nat) by (rewrite EP; cbn; lia).
  destruct (mem_at gl ill a1 sps None true a' r EA P SG 0 m ltac:(rewrite EM; reflexivity)) as (mb & _ & Hm & _ & _ & G). destruct (ff_member 0 mb Hm) as (_ & _ & _ & _ & L6 & _). rewrite L6, EP in G.
  rewrite EL. unfold mres_concat. cbn. rewrite app_nil_r. rewrite (sg_count _ _ _ _ G). cbn [an_npts a1 with_beam ff]. lia.
Qed.
Lemma static_plot_sample us0 : exists g1 g2 r r', static_vehicle gl ill ff_bridge0 3 (SpDict (fun _ => [3])) None = (g1, Ok r) /\
  static_vehicle_plot gl ill us0 ff_bridge0 3 (SpDict (fun _ => [3])) None = (g2, Ok r') /\ length (r_x (br_all r)) = 105%nat /\ length (r_x (br_all r')) = 103%nat.
Proof.
  destruct (axle_LM_spec (an_beam ff) truck 3 (bm_deck _ ff_bridge)) as (rows & ER & A).
  assert (TOT : forall sps, exists r, analysed_with gl ill ff sps (bg_static ff_bridge0 ++ rows) = Ok r) by (intros sps; apply ff_lm_total; apply Forall_app; split; [exact ff_static|eapply axle_rows_simple; exact A]).
  destruct (TOT (fun _ => [3])) as (r & Er). destruct (TOT (fun _ => [])) as (r' & Er').
  destruct (rows_run gl ill ff (bg_static ff_bridge0) (fun _ => [3]) truck 3 rows r (bm_deck _ ff_bridge) A Er) as (a1 & R1 & B1 & _).
  assert (SV : static_vehicle gl ill ff_bridge0 3 (SpDict (fun _ => [3])) None = (with_sps (with_run ff_bridge0 a1 (bg_pos ff_bridge0) (bg_results ff_bridge0)) [] (fun _ => []), Ok r)).
  { unfold static_vehicle. change (bg_ba ff_bridge0) with (Some ff). change (bg_veh ff_bridge0) with (Some truck). cbn [apply_shear_points]. rewrite R1. reflexivity. }
  set (g1 := with_sps _ _ _) in SV.
  (* the second run, of the same model *)
  assert (K : kin gl ill ff a1).
  { unfold run_rows in R1. rewrite ER in R1. exact (proj1 (kin_step gl ill ff ff _ _ _ _ (kin_refl gl ill ff) R1)). }
  assert (LM1 : axle_LM (an_beam a1) truck 3 = Ok rows) by (rewrite B1; exact ER).
  assert (E2 : exists a2, run_rows gl ill a1 (bg_static ff_bridge0) (fun _ => []) (axle_LM (an_beam a1) truck 3) = (a2, Ok r')).
  { rewrite LM1. unfold run_rows. pose proof (kin_result gl ill ff a1 (add_LM (bg_static ff_bridge0) rows) (fun _ => []) K) as Q. destruct (analyze _ _ _ _ _ _) as [a2 x]. cbn [snd] in Q. exists a2. rewrite Q. f_equal. exact Er'. }
  destruct E2 as (a2 & E2). assert (E3 : run_rows gl ill a1 (bg_static g1) (bg_sps g1) (axle_LM (an_beam a1) truck 3) = (a2, Ok r')) by exact E2. destruct (one_result gl ill ff (fun _ => []) _ r' ff_bridge Er') as (L1 & L2 & _).
  assert (PS : exists m s, plot_static gl ill us0 g1 3 UNone = (with_run g1 a2 (bg_pos g1) (bg_results g1), Ok (m, s))).
  { unfold plot_static. cbn [resolve]. change (bg_ba g1) with (Some a1). change (bg_veh g1) with (Some truck). cbn match. rewrite E3.
    destruct (diagrams_static us0 (b_length (an_beam a2)) truck 3 r' (eq_sym L1) (eq_sym L2)) as (m & s & ES & _). rewrite ES. eauto. }
  destruct PS as (m & s & PS). exists g1. eexists. exists r, r'. split; [exact SV|]. split.
  { unfold static_vehicle_plot. rewrite SV. change (bg_ba g1) with (Some a1). change (bg_veh g1) with (Some truck). cbn match. rewrite PS. cbn match. rewrite E3. reflexivity. }
  split; [rewrite (ff_count _ _ _ Er)|rewrite (ff_count _ _ _ Er')]; unfold inside_points; cbn [filter List.length]; [|reflexivity].
  replace (inside 6 3) with true; [reflexivity|]. unfold inside. symmetry.
  first [apply Bool.andb_true_iff; split; (unfold Rltb; match goal with |- (if ?c then _ else _) = _ => destruct c end; [reflexivity|lra])|repeat match goal with |- context [if ?c then _ else _] => destruct c end; try reflexivity; lra].
Qed.

Lemma own_histories us0 g a v step pstart pend sp dv g' e units us : bg_ba g = Some a -> bg_veh g = Some v -> bridge_model a -> run_vehicle gl ill g step pstart pend sp dv = (g', Ok e) -> resolve us0 units = Ok us -> (0 < e_nsup e)%nat ->
  exists m v hs, plot_envelopes us0 (deck_length (an_beam a)) (bg_pos g') e units = Ok (m, v, Histories hs) /\
    page m = [beam_line (deck_length (an_beam a)); ("r"%string, below (e_x e) (e_Mmax e)); ("b"%string, below (e_x e) (e_Mmin e))] /\
    page v = [beam_line (deck_length (an_beam a)); ("r"%string, above (e_x e) (e_Vmax e)); ("b"%string, above (e_x e) (e_Vmin e))] /\
    Forall2 (fun i h => page (fst (fst h)) = [beam_line (deck_length (an_beam a)); ("r"%string, above (bg_pos g') (upward i (bg_results g'))); ("b"%string, above (bg_pos g') (downward i (bg_results g')))] /\
       marked greatest (bg_pos g') (upward i (bg_results g')) (snd (fst h)) /\ marked least (bg_pos g') (downward i (bg_results g')) (snd h)) (seq 0 (e_nsup e)) hs.
Proof.
  intros Ea Ev BM H U N. destruct (traverse_stations _ _ _ _ _ _ _ _ _ _ Ea Ev BM H) as (EI & ST & NX & LP & NE & _). exact (histories_drawn us0 _ (bg_pos g') e (bg_results g') units us EI ST U LP N).
Qed.
Lemma ff_reactions sps lm r : analysed_with gl ill ff sps lm = Ok r -> length (br_R r) = 4%nat.
Proof.
  intros E. unfold analysed_with in E. set (a1 := with_beam ff (set_loads (an_beam ff) lm)) in E. destruct (analyze gl ill a1 sps None true) as [a' x] eqn:EA. cbn [snd] in E. subst x.
  rewrite (reaction_length _ _ _ _ _ _ _ _ EA). change (an_n a1) with 1%nat. cbn [Nat.add Nat.mul seq filter]. change (restraint (an_beam a1)) with (restraint ff_beam). rewrite !ff_restraint by lia.
  unfold Rltb. destruct (Rlt_dec (-1) 0); [reflexivity|lra].
Qed.
Lemma ff_traverse (p q : R) : q = p + 4 -> exists g e, run_vehicle gl ill ff_bridge0 4 (Some p) (Some q) (SpPoints None) None = (g, Ok e) /\ bg_pos g = [p; p + 4] /\ e_nsup e = 4%nat.
Proof.
  intros Q. destruct (vehicle_completes gl ill ff_bridge0 ff truck 4 (Some p) (Some q) (SpPoints None) None 1 eq_refl eq_refl ff_bridge) as (g & e & H).
  - cbn; lia.
  - lra.
  - cbn [given INR]. replace (q - (p + 1 * 4)) with 0 by lra. rewrite Rabs_R0, Rabs_right; lra.
  - intros sps pts x rows _ _ A. apply ff_lm_total. apply Forall_app. split; [exact ff_static|]. eapply axle_rows_simple; exact A.
  - exists g, e. split; [exact H|]. destruct (run_traversed gl ill ff_bridge0 ff truck (fun v b p => axle_LM b v p) (axle_loads truck) 4 (Some p) (Some q) (SpPoints None) None g e eq_refl eq_refl ff_bridge (geometric_axles truck) (axles_described ff truck (bm_deck _ ff_bridge)) H) as (k & sps & _ & TV & EI).
    pose proof (tv_end _ _ _ _ _ _ _ _ _ _ _ _ _ TV) as TE. cbn [given] in TE. assert (K : k = 1%nat).
    { subst q. rewrite (Rabs_right 4) in TE by lra. assert (TE' : -2 <= p + 4 - (p + INR k * 4) <= 2) by (revert TE; unfold Rabs; destruct (Rcase_abs _); lra). clear TE. rename TE' into TE. destruct k as [|[|k]]; [cbn [INR] in TE; lra|reflexivity|]. rewrite !S_INR in TE. pose proof (pos_INR k). nra. }
    subst k. split; [rewrite (tv_pos _ _ _ _ _ _ _ _ _ _ _ _ _ TV); unfold positions; cbn; repeat (f_equal; try ring)|].
    pose proof (tv_res _ _ _ _ _ _ _ _ _ _ _ _ _ TV) as TR. destruct (init_parts _ _ EI) as (r0 & t & ER & _ & _ & NS & _). rewrite ER in TR. inversion TR as [|x r l m (rw & _ & E) F]. subst.
    rewrite NS. exact (ff_reactions _ _ _ E).
Qed.
(** The histories of one traverse, drawn against the positions of another. *)
Lemma other_positions us0 : exists g1 e1 g2 e2 m v h hs, run_vehicle gl ill ff_bridge0 4 (Some 0) (Some 4) (SpPoints None) None = (g1, Ok e1) /\ run_vehicle gl ill ff_bridge0 4 (Some 4) (Some 8) (SpPoints None) None = (g2, Ok e2) /\
  bg_pos g1 = [0; 0 + 4] /\ plot_envelopes us0 (deck_length (an_beam ff)) (bg_pos g2) e1 UNone = Ok (m, v, Histories (h :: hs)) /\ In ("r"%string, above [4; 4 + 4] (upward 0 (bg_results g1))) (page (fst (fst h))).
Proof.
  destruct (ff_traverse 0 4 ltac:(ring)) as (g1 & e1 & H1 & P1 & N1). destruct (ff_traverse 4 8 ltac:(ring)) as (g2 & e2 & H2 & P2 & _).
  destruct (traverse_stations ff_bridge0 ff truck _ _ _ _ _ _ _ eq_refl eq_refl ff_bridge H1) as (EI & ST & NX & LP & NE & _). rewrite P1 in LP.
  destruct (histories_drawn us0 (deck_length (an_beam ff)) (bg_pos g2) e1 (bg_results g1) UNone us0 EI ST eq_refl ltac:(rewrite P2; exact LP) ltac:(lia)) as (m & v & hs & EP & _ & _ & F).
  rewrite N1 in F. inversion F as [|i h l hs' (PH & _) F']. subst. exists g1, e1, g2, e2, m, v, h, hs'. split; [exact H1|]. split; [exact H2|]. split; [exact P1|]. split; [exact EP|]. rewrite PH, P2. right. left. reflexivity.
Qed.
End Runs.
