(** Proofs about the whole schematic. *)
From Coq Require Import ZArith String Ascii.
From Verif Require Import Base BaseFacts SectionModel LoadModel ElementModel BeamModel BeamSpec AnalysisSpec FoundationModel FoundFacts4 BridgeModel UnitsModel BridgeSpec RenderModel RenderSpec RenderFacts RenderFacts2
  InPlotModel SchemModel SchemSpec SchemFacts.
Local Notation length := List.length.
Local Open Scope list_scope.
Open Scope R_scope.

Lemma node_mono b i j : deck b -> (i <= j)%nat -> (j <= b_nspans b)%nat -> node_at b i <= node_at b j.
Proof.
  intros K H. induction H as [|j H IH]; intros N; [lra|]. rewrite node_next. pose proof (span_pos b j K ltac:(lia)). specialize (IH ltac:(lia)). lra.
Qed.
Lemma node_zero b : node_at b 0 = 0.
Proof. reflexivity. Qed.
Lemma node_within b i : deck b -> (i <= b_nspans b)%nat -> 0 <= node_at b i <= deck_length b.
Proof. intros K H. split; [rewrite <- (node_zero b)|]; apply node_mono; trivial; lia. Qed.
Lemma deck_long b : deck b -> 0 < deck_length b.
Proof. intros K. pose proof (dk_some b K). unfold deck_length. pose proof (node_within b 1 K ltac:(lia)). pose proof (span_pos b 0 K ltac:(lia)). pose proof (node_mono b 1 (b_nspans b) K ltac:(lia) ltac:(lia)).
  rewrite (node_next b 0), (node_zero b) in *. lra. Qed.
Lemma in_span_within b m x : deck b -> (m < b_nspans b)%nat -> in_span b m x -> 0 <= x <= deck_length b.
Proof. intros K H (A & B). pose proof (node_within b m K ltac:(lia)). pose proof (node_within b (S m) K ltac:(lia)). lra. Qed.
Lemma get_node b i x : deck b -> get (b_terminal b) i = Ok x -> x = node_at b i /\ (i <= b_nspans b)%nat.
Proof.
  intros K E. apply get_ok in E. split; [exact (terminal_at b i x K E)|].
  assert (i < length (b_terminal b))%nat by (apply nth_error_Some; congruence). rewrite (dk_term b K), map_length, seq_length in H. lia.
Qed.
Lemma node_get b i : deck b -> (i <= b_nspans b)%nat -> get (b_terminal b) i = Ok (node_at b i).
Proof.
  intros K H. unfold get. rewrite (dk_term b K), nth_error_map.
  rewrite (nth_error_nth' _ 0%nat) by (rewrite seq_length; lia). rewrite seq_nth by lia. reflexivity.
Qed.

Lemma Forall2_map_in {A B} (P : A -> B -> Prop) (f : A -> B) l : (forall a, In a l -> P a (f a)) -> Forall2 P l (map f l).
Proof. induction l as [|a l IH]; intros H; cbn [map]; constructor; [apply H; left; reflexivity|apply IH; intros c I; apply H; right; exact I]. Qed.

Lemma support_place xs rs sup : infer_supports xs rs = Ok sup -> forall s, In s sup -> In (s_x s) xs.
Proof.
  unfold infer_supports. intros H. apply rbind_ok in H as (pin & _ & H). apply rbind_ok in H as (st & F & H). injection H as <-.
  assert (G : forall is st0 st1, foldM (support_step xs rs) is st0 = Ok st1 -> (forall s, In s (fst st0) -> In (s_x s) xs) -> forall s, In s (fst st1) -> In (s_x s) xs).
  { induction is as [|i t IH]; intros st0 st1 E H; cbn [foldM] in E; [injection E as <-; exact H|].
    apply rbind_ok in E as (st2 & E & E2). apply (IH _ _ E2). clear IH E2. unfold support_step in E.
    apply rbind_ok in E as (v & _ & E). apply rbind_ok in E as (r & _ & E). destruct (support_kind _ v r) as [[k|] pin']; [|injection E as <-; exact H].
    apply rbind_ok in E as (x & X & E). injection E as <-. cbn [fst]. intros s I. apply in_app_or in I as [I|[<-|[]]]; [exact (H s I)|].
    cbn [s_x]. apply get_ok in X. exact (nth_error_In _ _ X). }
  apply (G _ _ _ F). intros s [].
Qed.

Lemma filterM_in {A} (f : A -> result bool) l r : filterM f l = Ok r -> forall a, In a r <-> In a l /\ f a = Ok true.
Proof.
  revert r. induction l as [|b l IH]; intros r E a; cbn [filterM] in E.
  - injection E as <-. cbn. tauto.
  - apply rbind_ok in E as (v & V & E). apply rbind_ok in E as (t & T & E). injection E as <-. specialize (IH t T a). cbn [In].
    destruct v; cbn [In]; rewrite IH; split.
    + intros [->|(I & F)]; auto.
    + intros ([->|I] & F); auto.
    + intros (I & F); auto.
    + intros ([->|I] & F); [congruence|auto].
Qed.

Section G.
Variable g : R -> string.
Variable uni : nat -> string.

Lemma render_parts us0 p o pic : render_mpl g uni us0 p o = Ok pic ->
  exists us prof gr dims partial, resolve us0 (mo_units o) = Ok us /\ 0 < pl_L p /\
    depth_profile (0.05 * pl_L p) (b_lengths (pl_beam p)) (b_EIs (pl_beam p)) = Ok prof /\
    (if mo_supports o then draw_foundations p (0.05 * pl_L p) else Ok []) = Ok gr /\
    (if mo_dimensions o then draw_dimensions g p (0.05 * pl_L p) else Ok []) = Ok dims /\
    filterM (is_partial_dist p) (dr_dist (pl_loads p)) = Ok partial /\
    pic = {| sc_beam := prof; sc_L := pl_L p; sc_grounds := gr;
        sc_supports := if mo_supports o then pl_supports p else [];
        sc_hinges := if mo_supports o then pl_hinges p else [];
        sc_dist := map (draw_dist g us (pl_L p) (top_w (dr_dist (pl_loads p))) (mo_values o)) (dr_dist (pl_loads p));
        sc_points := map (draw_point g us (pl_L p) (top_P (dr_pts (pl_loads p))) (0.05 * pl_L p) (mo_values o)) (dr_pts (pl_loads p));
        sc_moments := map (draw_moment g us (0.045 * pl_L p) (0.05 * pl_L p) (mo_values o)) (dr_moms (pl_loads p));
        sc_letters := if (mo_labels o && mo_supports o)%bool then map (draw_letter uni (0.05 * pl_L p)) (pl_supports p) else [];
        sc_dims := dims; sc_extents := if mo_values o then map (draw_extent g (0.05 * pl_L p)) partial else [];
        sc_xlim := (- (0.06 * pl_L p), 1.06 * pl_L p);
        sc_ylim := y_limits (pl_L p) (0.05 * pl_L p) (top_P (dr_pts (pl_loads p))) (pl_loads p) partial (mo_supports o) (mo_dimensions o) (mo_values o);
        sc_xlabel := distance_axis us |}.
Proof.
  unfold render_mpl. intros H. apply rbind_ok in H as (us & U & H). destruct (Rleb_spec (pl_L p) 0) as [|HL]; [discriminate|].
  apply rbind_ok in H as (prof & P & H). apply rbind_ok in H as (gr & G & H). apply rbind_ok in H as (dims & D & H). apply rbind_ok in H as (partial & PT & H).
  injection H as <-. exists us, prof, gr, dims, partial. repeat split; trivial. lra.
Qed.

Lemma plotter_L b s p : deck b -> beam_plotter b s = Ok p -> pl_L p = deck_length b.
Proof. intros K H. apply plotter_parts in H as (lm & sup & d & _ & _ & _ & ->). cbn [pl_L]. exact (dk_len b K). Qed.
Lemma plotter_x b s p : beam_plotter b s = Ok p -> pl_x p = b_terminal b /\ pl_beam p = b.
Proof. intros H. apply plotter_parts in H as (lm & sup & d & _ & _ & _ & ->). split; reflexivity. Qed.

Lemma forces_drawn us0 b s p o us pic : deck b -> beam_plotter b s = Ok p -> resolve us0 (mo_units o) = Ok us -> render_mpl g uni us0 p o = Ok pic ->
  Forall2 (force_shown g us (deck_length b) (mo_values o)) (dr_pts (pl_loads p)) (sc_points pic) /\
  forall i j q q' gl gl', nth_error (dr_pts (pl_loads p)) i = Some q -> nth_error (sc_points pic) i = Some gl ->
    nth_error (dr_pts (pl_loads p)) j = Some q' -> nth_error (sc_points pic) j = Some gl' ->
    (Rabs (p_P q) < Rabs (p_P q') -> reach gl < reach gl') /\ (Rabs (p_P q) = Rabs (p_P q') -> reach gl = reach gl').
Proof.
  intros K B U H. destruct (render_parts us0 p o pic H) as (us' & prof & gr & dims & partial & U' & HL & _ & _ & _ & _ & ->). cbn [sc_points].
  assert (us' = us) as -> by congruence. rewrite (plotter_L b s p K B) in *. clear U' H. split.
  - apply Forall2_map_in. intros q I. apply point_drawn; [exact HL|apply top_P_nonneg|apply top_P_ge; exact I].
  - intros i j q q' gl gl' Q G Q' G'. rewrite nth_error_map, Q in G. rewrite nth_error_map, Q' in G'. cbn [option_map] in G, G'. injection G as <-. injection G' as <-.
    pose proof (top_P_ge _ _ (nth_error_In _ _ Q)) as T. pose proof (top_P_ge _ _ (nth_error_In _ _ Q')) as T'. pose proof (top_P_nonneg (dr_pts (pl_loads p))) as TN.
    rewrite !reach_length by trivial. split; intros C; [apply arrow_length_strict; trivial|]. unfold arrow_length. rewrite C. reflexivity.
Qed.

Lemma dists_drawn us0 b s p o us pic : deck b -> beam_plotter b s = Ok p -> resolve us0 (mo_units o) = Ok us -> render_mpl g uni us0 p o = Ok pic ->
  Forall2 (dist_shown g us (deck_length b) (mo_values o)) (dr_dist (pl_loads p)) (sc_dist pic) /\
  forall i j q q' gl gl' w w' h h', nth_error (dr_dist (pl_loads p)) i = Some q -> nth_error (sc_dist pic) i = Some gl ->
    nth_error (dr_dist (pl_loads p)) j = Some q' -> nth_error (sc_dist pic) j = Some gl' ->
    In (w, h) [(d_w0 q, left_height gl); (d_w1 q, right_height gl)] -> In (w', h') [(d_w0 q', left_height gl'); (d_w1 q', right_height gl')] ->
    (Rabs w < Rabs w' -> Rabs h < Rabs h') /\ (Rabs w = Rabs w' -> Rabs h = Rabs h').
Proof.
  intros K B U H. destruct (render_parts us0 p o pic H) as (us' & prof & gr & dims & partial & U' & HL & _ & _ & _ & _ & ->). cbn [sc_dist].
  assert (us' = us) as -> by congruence. rewrite (plotter_L b s p K B) in *. clear U' H. split.
  - apply Forall2_map_in. intros q I. destruct (top_w_ge _ _ I). apply dist_drawn; trivial.
  - intros i j q q' gl gl' w w' h h' Q G Q' G' I I'. rewrite nth_error_map, Q in G. rewrite nth_error_map, Q' in G'. cbn [option_map] in G, G'. injection G as <-. injection G' as <-.
    destruct (top_w_ge _ _ (nth_error_In _ _ Q)) as (T0 & T1). destruct (top_w_ge _ _ (nth_error_In _ _ Q')) as (T0' & T1').
    unfold left_height, right_height, draw_dist in I, I'. cbn [dg_top fst snd] in I, I'.
    assert (E : h = dist_height (deck_length b) (top_w (dr_dist (pl_loads p))) w) by (destruct I as [I|[I|[]]]; injection I as <- <-; reflexivity).
    assert (E' : h' = dist_height (deck_length b) (top_w (dr_dist (pl_loads p))) w' /\ Rabs w' <= top_w (dr_dist (pl_loads p))) by (destruct I' as [I'|[I'|[]]]; injection I' as <- <-; auto).
    destruct E' as (E' & T). rewrite E, E'. split; intros C; [apply height_mono|apply height_same]; trivial.
Qed.

Lemma moments_drawn us0 b s p o us pic : deck b -> beam_plotter b s = Ok p -> resolve us0 (mo_units o) = Ok us -> render_mpl g uni us0 p o = Ok pic ->
  Forall2 (moment_shown g us (deck_length b) (mo_values o)) (dr_moms (pl_loads p)) (sc_moments pic).
Proof.
  intros K B U H. destruct (render_parts us0 p o pic H) as (us' & prof & gr & dims & partial & U' & HL & _ & _ & _ & _ & ->). cbn [sc_moments].
  assert (us' = us) as -> by congruence. rewrite (plotter_L b s p K B) in *. apply Forall2_map_in. intros q I. apply moment_drawn. exact HL.
Qed.

(** ** Dimensions *)
Lemma dims_parts p sh ds b s : deck b -> beam_plotter b s = Ok p -> draw_dimensions g p sh = Ok ds ->
  ds = map (fun i => dimension g (- (2.3 * sh)) (0.3 * sh) (0.15 * sh) (node_at b i) (node_at b (S i))) (seq 0 (b_nspans b)).
Proof.
  intros K B E. destruct (plotter_x b s p B) as (X & BB). unfold draw_dimensions in E. rewrite X, BB in E.
  assert (G : forall is ds, (forall i, In i is -> (i < b_nspans b)%nat) ->
    mapM (fun i => do x0 <- get (b_terminal b) i; do x1 <- get (b_terminal b) (i + 1); Ok (dimension g (- (2.3 * sh)) (0.3 * sh) (0.15 * sh) x0 x1)) is = Ok ds ->
    ds = map (fun i => dimension g (- (2.3 * sh)) (0.3 * sh) (0.15 * sh) (node_at b i) (node_at b (S i))) is).
  { induction is as [|i t IH]; intros d0 Hi M; cbn [mapM] in M; [injection M as <-; reflexivity|].
    assert (i < b_nspans b)%nat by (apply Hi; left; reflexivity).
    rewrite (node_get b i K), (node_get b (i + 1) K) in M by lia. cbn [rbind] in M. apply rbind_ok in M as (r & M & E2). injection E2 as <-. cbn [map].
    replace (i + 1)%nat with (S i) by lia. f_equal. apply IH; [intros; apply Hi; right; assumption|exact M]. }
  apply G in E; [exact E|]. intros i I. apply in_seq in I. lia.
Qed.
Lemma dimension_says yd tick drop x0 x1 : yd < 0 -> dimensioned g x0 x1 (dimension g yd tick drop x0 x1).
Proof. intros H. unfold dimensioned, dimension; cbn. repeat split; trivial. lra. Qed.
Lemma dims_drawn us0 b s p o pic : deck b -> beam_plotter b s = Ok p -> render_mpl g uni us0 p o = Ok pic ->
  (mo_dimensions o = false -> sc_dims pic = []) /\
  (mo_dimensions o = true -> length (sc_dims pic) = b_nspans b /\
     forall m, (m < b_nspans b)%nat -> exists d, nth_error (sc_dims pic) m = Some d /\ dimensioned g (node_at b m) (node_at b (S m)) d).
Proof.
  intros K B H. destruct (render_parts us0 p o pic H) as (us' & prof & gr & dims & partial & U' & HL & _ & _ & D & _ & ->). cbn [sc_dims]. split; intros E; rewrite E in D.
  - injection D as <-. reflexivity.
  - apply (dims_parts p _ dims b s K B) in D as ->. split; [rewrite map_length, seq_length; reflexivity|]. intros m Hm. eexists. split.
    + rewrite nth_error_map, (nth_error_nth' _ 0%nat) by (rewrite seq_length; lia). rewrite seq_nth by lia. reflexivity.
    + cbn [Nat.add]. apply dimension_says. lra.
Qed.
Lemma partial_iff b s p q m : deck b -> beam_plotter b s = Ok p -> d_span q = Z.of_nat m -> (m < b_nspans b)%nat -> exists v, is_partial_dist p q = Ok v /\ (v = true <-> leaves_free b q).
Proof.
  intros K B SP Hm. destruct (plotter_x b s p B) as (X & _). unfold is_partial_dist. rewrite X, SP, (plotter_L b s p K B).
  assert (LT : length (b_terminal b) = (b_nspans b + 1)%nat) by (rewrite (dk_term b K), map_length, seq_length; lia).
  assert (PG : forall i, (i <= b_nspans b)%nat -> py_get (b_terminal b) (Z.of_nat i) = Ok (node_at b i)).
  { intros i Hi. unfold py_get, py_index. rewrite LT. destruct (Z.leb_spec 0 (Z.of_nat i)); [|lia]. destruct (Z.ltb_spec (Z.of_nat i) (Z.of_nat (b_nspans b + 1))); [|lia].
    cbn [rbind]. rewrite Nat2Z.id. exact (node_get b i K Hi). }
  replace (Z.of_nat m + 1)%Z with (Z.of_nat (S m)) by lia. rewrite !PG by lia. cbn [rbind]. eexists. split; [reflexivity|]. unfold leaves_free. cbn zeta.
  destruct (Rltb_spec (node_at b m + / 10 ^ 6 * Rmax (deck_length b) 1) (d_x0 q)) as [A|A]; cbn [orb].
  - split; [intros _; exists m; split; [exact SP|left; exact A]|reflexivity].
  - destruct (Rltb_spec (d_x1 q) (node_at b (S m) - / 10 ^ 6 * Rmax (deck_length b) 1)) as [C|C].
    + split; [intros _; exists m; split; [exact SP|right; exact C]|reflexivity].
    + split; [discriminate|]. intros (m' & SP' & [D|D]); assert (m' = m) as -> by (apply Nat2Z.inj; congruence); exfalso; tauto.
Qed.
Lemma extents_drawn us0 b s p o pic : deck b -> beam_plotter b s = Ok p -> placed b (pl_loads p) -> render_mpl g uni us0 p o = Ok pic ->
  (mo_values o = false -> sc_extents pic = []) /\
  (mo_values o = true -> (forall q, In q (dr_dist (pl_loads p)) -> leaves_free b q -> exists d, In d (sc_extents pic) /\ dimensioned g (d_x0 q) (d_x1 q) d) /\
     (forall d, In d (sc_extents pic) -> exists q, In q (dr_dist (pl_loads p)) /\ leaves_free b q /\ dimensioned g (d_x0 q) (d_x1 q) d)).
Proof.
  intros K B PL H. destruct (render_parts us0 p o pic H) as (us' & prof & gr & dims & partial & U' & HL & _ & _ & _ & PT & ->). cbn [sc_extents].
  split; intros ->; [reflexivity|]. pose proof (filterM_in _ _ _ PT) as IN. split.
  - intros q I LF. exists (draw_extent g (0.05 * pl_L p) q). split.
    + apply in_map. apply IN. split; [exact I|]. destruct (pc_dist b _ PL q I) as (m & Hm & SP & _).
      destruct (partial_iff b s p q m K B SP Hm) as (v & -> & V). f_equal. apply V. exact LF.
    + apply dimension_says. lra.
  - intros d I. apply in_map_iff in I as (q & <- & I). apply IN in I as (I & F). exists q. split; [exact I|]. split.
    + destruct (pc_dist b _ PL q I) as (m & Hm & SP & _). destruct (partial_iff b s p q m K B SP Hm) as (v & F' & V). apply V. congruence.
    + apply dimension_says. lra.
Qed.

(** ** Letters and foundations *)
Lemma letters_drawn us0 p o pic : render_mpl g uni us0 p o = Ok pic ->
  sc_supports pic = (if mo_supports o then pl_supports p else []) /\ sc_hinges pic = (if mo_supports o then pl_hinges p else []) /\
  (if (mo_labels o && mo_supports o)%bool then Forall2 lettered (pl_supports p) (sc_letters pic) else sc_letters pic = []).
Proof.
  intros H. destruct (render_parts us0 p o pic H) as (us' & prof & gr & dims & partial & U' & HL & _ & _ & _ & PT & ->). cbn [sc_supports sc_hinges sc_letters].
  split; [reflexivity|]. split; [reflexivity|]. destruct (mo_labels o && mo_supports o)%bool; [|reflexivity]. apply Forall2_map_in. intros s _.
  unfold lettered, draw_letter; cbn [fst snd ca_at ca_text]. split; [|split; [lra|destruct (s_right s); split; trivial; lra]].
  intros N. assert (C : forall n, (n < 26)%nat -> nth_error alphabet n = Some (chr uni (65 + n))).
  { intros n Hn. do 26 (destruct n as [|n]; [reflexivity|]). lia. }
  exact (C _ N).
Qed.
Lemma clip_bounds v : (3 <= clip v 3 18 <= 18)%nat.
Proof. unfold clip. lia. Qed.
Lemma founds_walk b p sh : deck b -> pl_x p = b_terminal b -> 0 < sh -> forall l k gs, (k + length l <= b_nspans b)%nat ->
  mapM (fun ik : nat * option R =>
        match snd ik with
        | None => Ok []
        | Some _ =>
            do x0 <- get (pl_x p) (fst ik);
            do x1 <- get (pl_x p) (fst ik + 1);
            Ok [{| gr_springs := linspace x0 x1 (clip (py_round ((x1 - x0) / (1.4 * sh))) 3 18);
                   gr_from := x0; gr_to := x1; gr_y := - (1.25 * sh) |}]
        end) (combine (seq k (length l)) l) = Ok gs ->
  Forall2 (ground_shown b) (filter (fun m => match nth_error l (m - k) with Some (Some _) => true | _ => false end) (seq k (length l))) (concat gs) /\
  Forall (fun gr => gr_y gr = - (1.25 * sh)) (concat gs).
Proof.
  intros K X Hsh. induction l as [|e l IH]; intros k gs HK E; cbn [length seq combine mapM] in E |- *.
  - injection E as <-. split; constructor.
  - apply rbind_ok in E as (g0 & E0 & E). apply rbind_ok in E as (gt & ET & E). injection E as <-. cbn [length] in HK.
    destruct (IH (S k) gt ltac:(lia) ET) as (F & Y). clear IH ET.
    assert (FE : filter (fun m => match nth_error (e :: l) (m - k) with Some (Some _) => true | _ => false end) (seq (S k) (length l))
               = filter (fun m => match nth_error l (m - S k) with Some (Some _) => true | _ => false end) (seq (S k) (length l))).
    { apply filter_ext_in. intros m I. apply in_seq in I. replace (m - k)%nat with (S (m - S k)) by lia. reflexivity. }
    cbn [filter concat]. rewrite Nat.sub_diag, FE. cbn [nth_error]. cbn [snd fst] in E0. destruct e as [kf|].
    + rewrite X in E0. rewrite (node_get b k K), (node_get b (k + 1) K) in E0 by lia. cbn [rbind] in E0. injection E0 as <-. cbn [app]. replace (k + 1)%nat with (S k) by lia.
      split; [|constructor; [reflexivity|exact Y]]. constructor; [|exact F].
      unfold ground_shown; cbn [gr_from gr_to gr_y gr_springs]. split; [reflexivity|]. split; [reflexivity|]. split; [lra|].
      set (n := clip _ 3 18). pose proof (clip_bounds (py_round ((node_at b (S k) - node_at b k) / (1.4 * sh)))) as C. fold n in C. exists n. split; [exact C|]. unfold linspace. split; [rewrite map_length, seq_length; reflexivity|].
      intros j J. rewrite nth_error_map, (nth_error_nth' _ 0%nat) by (rewrite seq_length; lia). rewrite seq_nth by lia. cbn [option_map Nat.add]. f_equal. unfold along. field. apply not_0_INR. lia.
    + injection E0 as <-. cbn [app]. split; assumption.
Qed.
Lemma founds_drawn us0 b s p o pic : deck b -> beam_plotter b s = Ok p -> length (b_kf b) = b_nspans b -> render_mpl g uni us0 p o = Ok pic ->
  if mo_supports o then Forall2 (ground_shown b) (filter (founded b) (seq 0 (b_nspans b))) (sc_grounds pic) else sc_grounds pic = [].
Proof.
  intros K B LK H. destruct (plotter_x b s p B) as (X & BB). destruct (render_parts us0 p o pic H) as (us' & prof & gr & dims & partial & U' & HL & _ & F & _ & _ & ->). cbn [sc_grounds].
  destruct (mo_supports o); [|injection F as <-; reflexivity]. unfold draw_foundations, numbered in F. rewrite BB in F. apply rbind_ok in F as (gs & F & E). injection E as <-.
  destruct (founds_walk b p (0.05 * pl_L p) K X ltac:(lra) (b_kf b) 0 gs ltac:(lia) F) as (W & _). rewrite LK in W.
  erewrite filter_ext; [exact W|]. intros m. cbn beta. unfold founded. rewrite Nat.sub_0_r. reflexivity.
Qed.
End G.
