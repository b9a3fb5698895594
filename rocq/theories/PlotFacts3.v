(** Facts about the drawn positions of a vehicle, reaction histories, influence lines and plastic moments. *)
From Coq Require Import String Ascii Lra Lia.
From Verif Require Import Base BaseFacts Linalg SectionModel LoadModel LoadSpec FoundationModel ElementModel UtilsModel BeamModel BeamSpec AnalysisModel AnalysisSpec UnitsModel ResultsModel ResultsSpec ResultsFacts ShapeFacts CombFacts
  EnvelopeModel EnvelopeSpec EnvelopeFacts EnvReadModel EnvReadSpec EnvReadFacts ExportModel ExportSpec ExportFacts VehicleModel VehicleSpec BridgeModel BridgeSpec BridgeFacts BridgeFacts2 BridgeFacts3 BridgeFacts4 CritFacts InfModel ModalModel NonlinModel PlotModel PlotSpec PlotFacts PlotFacts2.
Open Scope R_scope.
Local Notation length := List.length.
Local Open Scope list_scope.

(** ** A vehicle at one position *)
Lemma marks_added xs : forall a, let a' := fold_left (fun a x => axvline x a) xs a in ax_curves a' = ax_curves a /\ ax_inverted a' = ax_inverted a /\ ax_marks a' = ax_marks a ++ xs.
Proof.
  induction xs as [|x xs IH]; intros a; cbn [fold_left]; [cbn; rewrite app_nil_r; auto|]. destruct (IH (axvline x a)) as (A & B & C). cbn zeta. rewrite A, B, C. cbn. rewrite <- app_assoc. auto.
Qed.
Lemma on_deck_marks b v pos : length (v_coords v) = length (v_axw v) -> on_deck_xs (deck_length b) v pos = loading_axles b v pos.
Proof.
  intros L. unfold on_deck_xs, loading_axles, on_deck, axles_at, axles. revert L. generalize (v_coords v), (v_axw v). induction l as [|c cs IH]; intros [|w ws] L; try discriminate; [reflexivity|].
  cbn [combine map filter fst snd] in *. injection L as L. specialize (IH ws L). unfold within.
  destruct (Rleb_spec 0 (pos - c)), (Rleb_spec (pos - c) (deck_length b)); cbn [andb]; destruct (Rle_dec 0 (pos - c)), (Rle_dec (pos - c) (deck_length b)); try lra; cbn [map fst]; rewrite IH; reflexivity.
Qed.
Lemma wheel_marks v pos : length (v_coords v) = length (v_axw v) -> wheels v pos = map fst (axles_at v pos).
Proof.
  intros L. unfold wheels, axles_at, axles. revert L. generalize (v_coords v), (v_axw v). induction l as [|c cs IH]; intros [|w ws] L; try discriminate; [reflexivity|].
  cbn [combine map fst snd] in *. injection L as L. rewrite (IH ws L). reflexivity.
Qed.
Lemma diagrams_static us L v pos r : length (r_x (br_all r)) = length (r_M (br_all r)) -> length (r_x (br_all r)) = length (r_V (br_all r)) ->
  exists m s, static_diagrams us L v pos r new_axes new_axes = Ok (m, s) /\ page m = [beam_line L; ("r"%string, below (r_x (br_all r)) (r_M (br_all r)))] /\
    page s = [beam_line L; ("r"%string, above (r_x (br_all r)) (r_V (br_all r)))] /\ ax_marks m = on_deck_xs L v pos /\ ax_marks s = on_deck_xs L v pos /\
    ax_ylabel m = moment_axis us /\ ax_ylabel s = shear_axis us /\ ax_xlabel s = distance_axis us.
Proof.
  intros LM LV. unfold static_diagrams, zero_line. rewrite (plot_ok [0; L] [0; 0]) by reflexivity. cbn [rbind].
  rewrite (plot_ok (r_x (br_all r)) (map Ropp (r_M (br_all r)))) by (rewrite map_length; exact LM). cbn [rbind]. rewrite (plot_ok (r_x (br_all r)) (r_V (br_all r))) by exact LV. cbn [rbind].
  set (m0 := add_curve _ (add_curve _ _)). set (s0 := add_curve {| cu_x := r_x (br_all r); cu_y := r_V (br_all r); cu_color := "r" |} _).
  destruct (marks_added (on_deck_xs L v pos) m0) as (A & B & C), (marks_added (on_deck_xs L v pos) s0) as (A' & B' & C').
  do 2 eexists. split; [reflexivity|]. cbn zeta in *. split; [rewrite page_up by (cbn; rewrite B; reflexivity); cbn; rewrite A; reflexivity|].
  split; [rewrite page_up by (cbn; rewrite B'; reflexivity); cbn; rewrite A'; reflexivity|]. split; [cbn; rewrite C; reflexivity|]. split; [cbn; rewrite C'; reflexivity|]. repeat split.
Qed.

Section Runs.
Variables (gl : nat -> list (R * R)) (ill : nat -> mat -> bool).
Lemma rows_run a static sps v pos rows r : deck (an_beam a) -> axle_rows (an_beam a) v pos rows -> analysed_with gl ill a sps (static ++ rows) = Ok r ->
  exists a', run_rows gl ill a static sps (axle_LM (an_beam a) v pos) = (a', Ok r) /\ an_beam a' = set_loads (an_beam a) (static ++ rows) /\ an_n a' = an_n a /\ an_npts a' = an_npts a.
Proof.
  intros D A E. destruct (axle_LM_spec (an_beam a) v pos D) as (rw & ER & A'). rewrite (axle_rows_unique _ _ _ _ _ D A' A) in ER. rewrite ER. unfold run_rows, analysed_with, add_LM in *.
  set (a1 := with_beam a _) in *. destruct (analyze gl ill a1 sps None true) as [a' x] eqn:EA. cbn [snd] in E. subst x. exists a'. split; [reflexivity|].
  destruct (analyze_split _ _ _ _ _ _ _ _ EA) as (o & Ho & _). destruct (analyze_core_state _ _ _ _ _ _ _ Ho) as (EB & EN & _ & EP). rewrite EB, EN, EP. auto.
Qed.
Lemma static_drawn us0 g a v pos units us rows r : bg_ba g = Some a -> bg_veh g = Some v -> bridge_model a -> length (v_coords v) = length (v_axw v) -> resolve us0 units = Ok us ->
  axle_rows (an_beam a) v pos rows -> analysed_with gl ill a (bg_sps g) (bg_static g ++ rows) = Ok r ->
  exists g' m s, plot_static gl ill us0 g pos units = (g', Ok (m, s)) /\
    page m = [beam_line (deck_length (an_beam a)); ("r"%string, below (r_x (br_all r)) (r_M (br_all r)))] /\ page s = [beam_line (deck_length (an_beam a)); ("r"%string, above (r_x (br_all r)) (r_V (br_all r)))] /\
    ax_marks m = loading_axles (an_beam a) v pos /\ ax_marks s = loading_axles (an_beam a) v pos /\
    load_arrows (deck_length (an_beam a)) v pos = loading_axles (an_beam a) v pos /\ wheels v pos = map fst (axles_at v pos).
Proof.
  intros Ea Ev BM LV U A E. destruct (rows_run _ _ _ _ _ _ _ (bm_deck _ BM) A E) as (a' & ER & EB & _). destruct (one_result _ _ _ _ _ _ BM E) as (L1 & L2 & _).
  unfold plot_static. rewrite U, Ea, Ev, ER. assert (DL : b_length (an_beam a') = deck_length (an_beam a)) by (rewrite EB; exact (dk_len _ (bm_deck _ BM))). rewrite DL.
  destruct (diagrams_static us (deck_length (an_beam a)) v pos r (eq_sym L1) (eq_sym L2)) as (m & s & ES & PM & PS & MM & MS & _). rewrite ES. do 3 eexists. split; [reflexivity|].
  rewrite on_deck_marks in MM, MS by exact LV. unfold load_arrows. rewrite on_deck_marks, wheel_marks by exact LV. auto 10.
Qed.

(** With a plot, [static_vehicle] gives the results without the shear points. *)
Lemma plotted_results us0 g a v pos sp dv g' r' : bg_ba g = Some a -> bg_veh g = Some v -> bridge_model a ->
  static_vehicle_plot gl ill us0 g pos sp dv = (g', Ok r') -> exists rows, axle_rows (an_beam a) v pos rows /\ analysed_with gl ill a (fun _ => []) (bg_static g ++ rows) = Ok r'.
Proof.
  intros Ea Ev BM. destruct (axle_LM_spec (an_beam a) v pos (bm_deck _ BM)) as (rows & ER & A). unfold static_vehicle_plot, static_vehicle. rewrite Ea, Ev.
  destruct (apply_shear_points _ _ _) as [[sps spx]|e0]; [|discriminate]. rewrite ER. unfold run_rows at 1.
  destruct (analyze gl ill (with_beam a (set_loads (an_beam a) (add_LM (bg_static g) rows))) sps None true) as [a1 [r1|e1]] eqn:E1; [|discriminate].
  cbn [with_sps with_run bg_ba bg_veh bg_static bg_sps]. rewrite Ev. destruct (plot_static _ _ _ _ _ _) as [g2 [q|e2]]; [|discriminate]. intros H. injection H as _ H.
  destruct (kin_step gl ill a a _ _ _ _ (kin_refl gl ill a) E1) as (K & EB).
  assert (LM1 : axle_LM (an_beam a1) v pos = Ok rows) by (rewrite EB; exact ER).
  rewrite LM1 in H. unfold run_rows in H. rewrite (kin_result gl ill a a1 _ _ K) in H. exists rows. auto.
Qed.
End Runs.

(** ** Reaction histories *)
Lemma get_nth_ok {A} (l : list A) i d : (i < length l)%nat -> get l i = Ok (nth i l d).
Proof. intros H. unfold get. rewrite (nth_error_nth' l d H). reflexivity. Qed.
Lemma mark_max pos ys : ys <> [] -> length pos = length ys -> exists m, mark_extreme BridgeModel.argmax pos ys = Ok m /\ marked greatest pos ys m.
Proof.
  intros N L. pose proof (row_max_greatest ys N) as G. destruct (index_of_spec (row_max ys) ys (proj1 G)) as (I & E & _). unfold mark_extreme, BridgeModel.argmax.
  rewrite (get_nth_ok pos _ 0), (get_nth_ok ys _ 0) by lia. cbn [rbind]. destruct ys as [|y ys]; [congruence|]. eexists. split; [reflexivity|]. eexists. split; [exact I|]. split; [reflexivity|]. rewrite E. exact G.
Qed.
Lemma mark_min pos ys : ys <> [] -> length pos = length ys -> exists m, mark_extreme BridgeModel.argmin pos ys = Ok m /\ marked least pos ys m.
Proof.
  intros N L. pose proof (row_min_least ys N) as G. destruct (index_of_spec (row_min ys) ys (proj1 G)) as (I & E & _). unfold mark_extreme, BridgeModel.argmin.
  rewrite (get_nth_ok pos _ 0), (get_nth_ok ys _ 0) by lia. cbn [rbind]. destruct ys as [|y ys]; [congruence|]. eexists. split; [reflexivity|]. eexists. split; [exact I|]. split; [reflexivity|]. rewrite E. exact G.
Qed.
Lemma mapM_nth {A B} (f : A -> result B) (P : A -> B -> Prop) l : (forall a, In a l -> exists b, f a = Ok b /\ P a b) -> exists bs, mapM f l = Ok bs /\ Forall2 P l bs.
Proof.
  induction l as [|a l IH]; intros H; [exists []; split; [reflexivity|constructor]|]. destruct (H a (or_introl eq_refl)) as (b & E & Q). destruct IH as (bs & F & G); [intros; apply H; right; assumption|].
  exists (b :: bs). cbn [mapM]. rewrite E. cbn [rbind]. rewrite F. split; [reflexivity|constructor; assumption].
Qed.
Lemma combine_map {A B C} (f : A -> B) (g : A -> C) l : combine (map f l) (map g l) = map (fun a => (f a, g a)) l.
Proof. induction l as [|a l IH]; [reflexivity|cbn; rewrite IH; reflexivity]. Qed.
Lemma Forall2_map_l {A B C} (f : A -> B) (P : B -> C -> Prop) l l' : Forall2 P (map f l) l' -> Forall2 (fun a c => P (f a) c) l l'.
Proof. revert l'. induction l as [|a l IH]; intros l' H; inversion H; subst; constructor; auto. Qed.

Lemma envelopes_panels us0 L pos e vr units us : env_init vr = Ok e -> on_stations (e_x e) vr -> resolve us0 units = Ok us ->
  exists m v, pair_panel L (e_x e) (e_Mmax e) (e_Mmin e) (moment_axis us) = Ok m /\ pair_panel L (e_x e) (e_Vmax e) (e_Vmin e) (shear_axis us) = Ok v /\
   page (invert_yaxis m) = [beam_line L; ("r"%string, below (e_x e) (e_Mmax e)); ("b"%string, below (e_x e) (e_Mmin e))] /\
   page (set_xlabel (distance_axis us) v) = [beam_line L; ("r"%string, above (e_x e) (e_Vmax e)); ("b"%string, above (e_x e) (e_Vmin e))] /\
   ax_ylabel (invert_yaxis m) = moment_axis us /\ ax_ylabel (set_xlabel (distance_axis us) v) = shear_axis us /\
   plot_envelopes us0 L pos e units = if Nat.eqb (length pos) (columns e)
     then if Nat.eqb (e_nsup e) 0 then Err ValueError
          else do l <- mapM (fun p => history_panel L pos (fst p) (snd p)) (combine (e_Rmax e) (e_Rmin e)); Ok (invert_yaxis m, set_xlabel (distance_axis us) v, Histories l)
     else Ok (invert_yaxis m, set_xlabel (distance_axis us) v, Bars (e_Rmaxval e) (e_Rminval e)).
Proof.
  intros E O U. destruct (env_arrays _ _ E O) as (L1 & L2 & L3 & L4 & _). unfold plot_envelopes. rewrite U. cbn [rbind]. unfold pair_panel, zero_line. rewrite (plot_ok [0; L] [0; 0]) by reflexivity. cbn [rbind].
  rewrite (plot_ok (e_x e) (e_Mmax e)), (plot_ok (e_x e) (e_Vmax e)) by congruence. cbn [rbind]. rewrite (plot_ok (e_x e) (e_Mmin e)), (plot_ok (e_x e) (e_Vmin e)) by congruence. cbn [rbind].
  do 2 eexists. split; [reflexivity|]. split; [reflexivity|]. split; [rewrite page_down by reflexivity; cbn; rewrite Ropp_0; reflexivity|]. split; [rewrite page_up by reflexivity; reflexivity|]. repeat split.
Qed.
Lemma columns_results vr e : env_init vr = Ok e -> columns e = length vr.
Proof.
  intros E. destruct (env_sizes _ _ E) as (_ & N & RX & _). unfold columns. rewrite RX, N. destruct (e_nsup e); [reflexivity|]. cbn. apply map_length.
Qed.
Lemma histories_drawn us0 L pos e vr units us : env_init vr = Ok e -> on_stations (e_x e) vr -> resolve us0 units = Ok us -> length pos = length vr -> (0 < e_nsup e)%nat ->
  exists m v hs, plot_envelopes us0 L pos e units = Ok (m, v, Histories hs) /\
    page m = [beam_line L; ("r"%string, below (e_x e) (e_Mmax e)); ("b"%string, below (e_x e) (e_Mmin e))] /\
    page v = [beam_line L; ("r"%string, above (e_x e) (e_Vmax e)); ("b"%string, above (e_x e) (e_Vmin e))] /\
    Forall2 (fun i h => page (fst (fst h)) = [beam_line L; ("r"%string, above pos (upward i vr)); ("b"%string, above pos (downward i vr))] /\
       marked greatest pos (upward i vr) (snd (fst h)) /\ marked least pos (downward i vr) (snd h)) (seq 0 (e_nsup e)) hs.
Proof.
  intros E O U LP NS. destruct (envelopes_panels us0 L pos e vr units us E O U) as (m & v & _ & _ & PM & PV & _ & _ & EP). rewrite EP, (columns_results _ _ E), LP, Nat.eqb_refl.
  replace (Nat.eqb (e_nsup e) 0) with false by (symmetry; apply Nat.eqb_neq; lia). destruct (env_sizes _ _ E) as (NE & N & RX & RN). rewrite RX, RN, combine_map.

  destruct (mapM_nth (fun p => history_panel L pos (fst p) (snd p)) (fun (q : list R * list R) h => page (fst (fst h)) = [beam_line L; ("r"%string, above pos (fst q)); ("b"%string, above pos (snd q))] /\
       marked greatest pos (fst q) (snd (fst h)) /\ marked least pos (snd q) (snd h)) (map (fun i => (map (fun r => Rmax 0 (R_at i r)) vr, map (fun r => Rmin 0 (R_at i r)) vr)) (seq 0 (e_nsup e)))) as (hs & EH & FH).
  { intros q Hq. apply in_map_iff in Hq as (i & <- & _). cbn [fst snd]. fold (upward i vr) (downward i vr).
    assert (LU : length pos = length (upward i vr)) by (unfold upward; rewrite map_length; exact LP). assert (LD : length pos = length (downward i vr)) by (unfold downward; rewrite map_length; exact LP).
    assert (NU : upward i vr <> []) by (destruct vr; [congruence|discriminate]). assert (ND : downward i vr <> []) by (destruct vr; [congruence|discriminate]).
    unfold history_panel, zero_line. rewrite (plot_ok [0; L] [0; 0]) by reflexivity. cbn [rbind]. rewrite (plot_ok pos (upward i vr)) by exact LU. cbn [rbind]. rewrite (plot_ok pos (downward i vr)) by exact LD. cbn [rbind].
    destruct (mark_max pos _ NU LU) as (t & -> & T), (mark_min pos _ ND LD) as (u & -> & T'). cbn [rbind]. eexists. split; [reflexivity|]. cbn [fst snd]. split; [rewrite page_up by reflexivity; reflexivity|auto]. }
  exists (invert_yaxis m), (set_xlabel (distance_axis us) v), hs. rewrite EH. split; [reflexivity|]. split; [exact PM|]. split; [exact PV|]. apply Forall2_map_l in FH. exact FH.
Qed.
Lemma bars_drawn us0 L pos e vr units us : env_init vr = Ok e -> on_stations (e_x e) vr -> resolve us0 units = Ok us -> length pos <> length vr ->
  exists m v, plot_envelopes us0 L pos e units = Ok (m, v, Bars (e_Rmaxval e) (e_Rminval e)).
Proof.
  intros E O U LP. destruct (envelopes_panels us0 L pos e vr units us E O U) as (m & v & _ & _ & PM & PV & _ & _ & EP). rewrite EP, (columns_results _ _ E).
  replace (Nat.eqb (length pos) (length vr)) with false by (symmetry; apply Nat.eqb_neq; exact LP). eauto.
Qed.
Lemma no_supports_fail us0 L pos e vr units us : env_init vr = Ok e -> on_stations (e_x e) vr -> resolve us0 units = Ok us -> length pos = length vr -> e_nsup e = 0%nat ->
  plot_envelopes us0 L pos e units = Err ValueError.
Proof.
  intros E O U LP NS. destruct (envelopes_panels us0 L pos e vr units us E O U) as (m & v & _ & _ & PM & PV & _ & _ & EP). rewrite EP, (columns_results _ _ E), LP, Nat.eqb_refl, NS. reflexivity.
Qed.

(** ** Influence lines and plastic moments *)
Lemma il_drawn us L xs ys : length xs = length ys -> exists a, il_panel us L (xs, ys) None = Ok a /\ page a = [beam_line L; ("r"%string, above xs ys)] /\ ax_ylabel a = "Influence Ordinate"%string /\ ax_xlabel a = distance_axis us.
Proof.
  intros H. unfold il_panel, zero_line. rewrite (plot_ok [0; L] [0; 0]) by reflexivity. cbn [rbind fst snd]. rewrite (plot_ok xs ys) by exact H. cbn [rbind]. eexists. split; [reflexivity|].
  split; [rewrite page_up by reflexivity; reflexivity|split; reflexivity].
Qed.
Lemma foldM_plots coords (f : vec -> list R) l : (forall v, length coords = length (f v)) -> forall a, exists a', foldM (fun a v => plot coords (f v) "r" a) l a = Ok a' /\
  ax_inverted a' = ax_inverted a /\ page a' = page a ++ map (fun v => ("r"%string, (coords, map (height a) (f v)))) l.
Proof.
  intros H. induction l as [|v l IH]; intros a; cbn [foldM map]; [exists a; rewrite app_nil_r; auto|]. rewrite (plot_ok coords (f v)) by apply H. cbn [rbind].
  destruct (IH (add_curve {| cu_x := coords; cu_y := f v; cu_color := "r" |} a)) as (a' & E & I & P). exists a'. split; [exact E|]. split; [exact I|]. rewrite P, page_add, <- app_assoc. reflexivity.
Qed.
Lemma page_flip a : page (invert_yaxis a) = map (fun l => (fst l, (fst (snd l), map Ropp (snd (snd l))))) (page a).
Proof.
  unfold page. cbn. rewrite map_map. apply map_ext. intros c. cbn. rewrite map_map. f_equal. f_equal. apply map_ext. intros y. unfold height. cbn. destruct (ax_inverted a); cbn; lra.
Qed.
Lemma plastic_any us0 coords r ax units us : coords <> [] -> resolve us0 units = Ok us ->
  exists a, plot_moments us0 coords r ax units = Ok a /\ ax_ylabel a = moment_axis us /\ ax_inverted a = negb (ax_inverted (match ax with Some a => a | None => new_axes end)) /\
    page a = map (fun l => (fst l, (fst (snd l), map Ropp (snd (snd l))))) (page (match ax with Some a => a | None => new_axes end)) ++
      (beam_line (last coords 0) :: map (fun v => ("r"%string, (coords, map (fun y => - height (match ax with Some a => a | None => new_axes end) y) (nodal coords v)))) (nr_mom_hist r ++ [nr_moments r])).
Proof.
  intros N U. set (a0 := match ax with Some a => a | None => new_axes end). unfold plot_moments. rewrite U. cbn [rbind]. assert (LO : last_of coords = Ok (last coords 0)) by (destruct coords; [congruence|reflexivity]). rewrite LO. cbn [rbind].
  fold a0. unfold zero_line. rewrite (plot_ok [0; last coords 0] [0; 0]) by reflexivity. cbn [rbind]. set (a1 := add_curve _ a0).
  assert (LN : forall v, length coords = length (nodal coords v)) by (intros v; unfold nodal; rewrite map_length, seq_length; reflexivity).
  destruct (foldM_plots coords (nodal coords) (nr_mom_hist r) LN a1) as (a2 & E2 & I2 & P2). unfold nodal in E2 at 1. rewrite E2. cbn [rbind]. fold (nodal coords (nr_moments r)). rewrite (plot_ok coords (nodal coords (nr_moments r))) by apply LN. cbn [rbind].
  eexists. split; [reflexivity|]. split; [reflexivity|]. split; [cbn; rewrite I2; reflexivity|].
  match goal with |- page (set_xlabel _ (set_ylabel _ ?q)) = _ => change (page q = page a0 ++ [] -> False) || change (page q = map (fun l => (fst l, (fst (snd l), map Ropp (snd (snd l))))) (page a0) ++ (beam_line (last coords 0) :: map (fun v => ("r"%string, (coords, map (fun y => - height a0 y) (nodal coords v)))) (nr_mom_hist r ++ [nr_moments r]))) end.
  rewrite page_flip, page_add, P2. unfold a1. rewrite page_add. rewrite !map_app. cbn [map fst snd cu_color cu_x cu_y]. rewrite <- !app_assoc. cbn [app]. apply f_equal2; [reflexivity|]. apply f_equal2.
  - unfold beam_line, height. cbn. destruct (ax_inverted a0); rewrite ?Ropp_involutive, ?Ropp_0; reflexivity.
  - rewrite map_map. apply f_equal2; [apply map_ext; intros v; cbn [fst snd]; rewrite map_map; reflexivity|]. f_equal. f_equal. f_equal. rewrite map_map. apply map_ext. intros y. unfold height. rewrite I2. reflexivity.
Qed.
