(** Proofs: when the schematic is drawn, its outline, and what it gets wrong. *)
From Coq Require Import ZArith String Ascii.
From Verif Require Import Base BaseFacts SectionModel LoadModel ElementModel BeamModel BeamSpec AnalysisSpec AnalysisFacts3 FoundationModel FoundFacts4 BridgeModel UnitsModel BridgeSpec RenderModel RenderSpec RenderFacts RenderFacts2 RenderFacts5
  InPlotModel InPlotSpec InPlotFacts2 SchemModel SchemSpec SchemFacts SchemFacts2 SchemFacts3.
Local Notation length := List.length.
Local Open Scope list_scope.
Open Scope R_scope.

Section G.
Variable g : R -> string.
Variable uni : nat -> string.

Lemma profile_total sh Ls es : positive_beam Ls es -> exists r, depth_profile sh Ls es = Ok r.
Proof.
  intros P. destruct (samples_on _ _ P 0) as (xv & E & _). unfold depth_profile. destruct es as [|e es]; [eauto|]. rewrite E. cbn [rbind]. destruct (_ || _)%bool; eauto.
Qed.
Lemma mapM_all {A B} (f : A -> result B) l : (forall a, In a l -> exists b, f a = Ok b) -> exists r, mapM f l = Ok r.
Proof.
  induction l as [|a l IH]; intros H; cbn [mapM]; [eauto|]. destruct (H a (or_introl eq_refl)) as (b & ->). cbn [rbind].
  destruct IH as (r & ->); [intros c I; apply H; right; exact I|]. cbn [rbind]. eauto.
Qed.
Lemma filterM_all {A} (f : A -> result bool) l : (forall a, In a l -> exists b, f a = Ok b) -> exists r, filterM f l = Ok r.
Proof.
  induction l as [|a l IH]; intros H; cbn [filterM]; [eauto|]. destruct (H a (or_introl eq_refl)) as (b & ->). cbn [rbind].
  destruct IH as (r & ->); [intros c I; apply H; right; exact I|]. cbn [rbind]. eauto.
Qed.
Lemma schem_total us0 b s p o us : deck b -> beam_plotter b s = Ok p -> placed b (pl_loads p) -> (length (b_kf b) <= b_nspans b)%nat -> positive_beam (b_lengths b) (b_EIs b) ->
  resolve us0 (mo_units o) = Ok us -> exists pic, render_mpl g uni us0 p o = Ok pic.
Proof.
  intros K B PL LK PB U. destruct (plotter_x b s p B) as (X & BB). unfold render_mpl. rewrite U. cbn [rbind]. rewrite (plotter_L b s p K B), BB. pose proof (deck_long b K) as DL.
  destruct (Rleb_spec (deck_length b) 0); [lra|]. destruct (profile_total (0.05 * deck_length b) _ _ PB) as (prof & ->). cbn [rbind].
  assert (G : exists gr, (if mo_supports o then draw_foundations p (0.05 * deck_length b) else Ok []) = Ok gr).
  { destruct (mo_supports o); [|eauto]. unfold draw_foundations. rewrite X, BB.
    match goal with |- exists gr, (do gs <- mapM ?f ?l; _) = _ => destruct (mapM_all f l) as (gs & ->) end; [|cbn [rbind]; eauto].
    intros [i kf] I. cbn [fst snd]. destruct kf; [|eauto]. unfold numbered in I. apply in_combine_l in I. apply in_seq in I.
    rewrite (node_get b i K), (node_get b (i + 1) K) by lia. cbn [rbind]. eauto. }
  destruct G as (gr & ->). cbn [rbind].
  assert (D : exists ds, (if mo_dimensions o then draw_dimensions g p (0.05 * deck_length b) else Ok []) = Ok ds).
  { destruct (mo_dimensions o); [|eauto]. unfold draw_dimensions. rewrite X, BB. apply mapM_all. intros i I. apply in_seq in I. rewrite (node_get b i K), (node_get b (i + 1) K) by lia. cbn [rbind]. eauto. }
  destruct D as (ds & ->). cbn [rbind].
  destruct (filterM_all (is_partial_dist p) (dr_dist (pl_loads p))) as (partial & ->); [|cbn [rbind]; eauto].
  intros q I. destruct (pc_dist b _ PL q I) as (m & Hm & SP & _). destruct (partial_iff uni b s p q m K B SP Hm) as (v & -> & _). eauto.
Qed.

(** The elevation of a beam of varying depth is within the limits too. *)
Lemma rigidity_place off Ls es x v : Forall (Rlt 0) Ls -> rigidity_at off Ls es x v -> off <= x <= off + lsum Ls.
Proof.
  intros P H. revert P. induction H as [off L Ls' e et x H|off L Ls' s et x v H E|off L Ls' e et x v H IH]; intros P; inversion P as [|? ? PL PT]; subst.
  all: rewrite lsum_cons. 1,2: assert (Q : 0 <= lsum Ls') by (clear - PT; induction PT; [unfold lsum; cbn; lra|rewrite lsum_cons; lra]); lra.
  specialize (IH PT). lra.
Qed.
Lemma lsum_node (Ls : list R) : rsum (length Ls) (fun m => nth m Ls 0) = lsum Ls.
Proof.
  rewrite <- lsum_seq, map_nth_seq, firstn_all by lia. reflexivity.
Qed.
Lemma outline_shown us0 b s p o pic pts : deck b -> beam_plotter b s = Ok p -> positive_beam (b_lengths b) (b_EIs b) -> render_mpl g uni us0 p o = Ok pic -> mo_supports o = true ->
  sc_beam pic = Some pts -> forall x h, In (x, h) pts -> 0 < h /\ inside pic (x, h) /\ inside pic (x, - h).
Proof.
  intros K B PB H MS SB x h I. destruct (plotter_x b s p B) as (X & BB). destruct (render_parts g uni us0 p o pic H) as (us & prof & gr & dims & partial & U & HL & P & F & D & PT & E).
  assert (EL : pl_L p = deck_length b) by exact (plotter_L b s p K B). rewrite EL, BB in *. rewrite E in SB. cbn [sc_beam] in SB. subst prof.
  set (L := deck_length b) in *. destruct (depth_shown (0.05 * L) _ _ pts ltac:(lra) PB P) as (top & _ & A). destruct (A x h I) as (v & RA & VT & HP & HC).
  assert (XB : 0 <= x <= L).
  { pose proof (rigidity_place 0 _ _ x v (dk_pos b K) RA) as XB. unfold L, deck_length, node_at. rewrite (dk_n b K), lsum_node. lra. }
  assert (HB : h <= 0.6 * (0.05 * L)).
  { destruct (Rle_dec h (0.6 * (0.05 * L))); [assumption|]. exfalso. assert (1 < h / (6/10 * (0.05 * L))). { apply (Rmult_lt_reg_r (6/10 * (0.05 * L))); [lra|]. replace (h / (6/10 * (0.05 * L)) * (6/10 * (0.05 * L))) with h by (field; lra). lra. }
    assert (v / top <= 1). { apply (Rmult_le_reg_r top); [lra|]. unfold Rdiv. rewrite Rmult_assoc, Rinv_l by lra. lra. }
    set (r := h / (6/10 * (0.05 * L))) in *. rewrite <- HC in *. cbn [pow] in *. nra. }
  split; [exact HP|]. set (d := pl_loads p) in *. set (pm := top_P (dr_pts d)) in *.
  assert (A0 : 0 <= lmax (heights_above L pm d)) by (apply lmax_in; left; reflexivity).
  assert (YL : fst (sc_ylim pic) <= - h /\ h <= snd (sc_ylim pic)).
  { rewrite E. cbn [sc_ylim]. unfold y_limits. rewrite MS. cbn [negb fst snd]. split.
    - assert (SU : (if mo_dimensions o then - (3 * (0.05 * L)) else if (mo_values o && negb (Nat.eqb (length partial) 0))%bool then - (2.2 * (0.05 * L)) else - (1.6 * (0.05 * L))) <= - h).
      { destruct (mo_dimensions o); [lra|]. destruct (mo_values o && negb (Nat.eqb (length partial) 0))%bool; lra. }
      destruct (Rltb _ _); [|exact SU]. eapply Rle_trans; [apply Rmin_l|exact SU].
    - destruct (no_loads d); lra. }
  assert (XL : sc_xlim pic = (- (0.06 * L), 1.06 * L)) by (rewrite E; reflexivity).
  unfold inside. cbn [fst snd]. rewrite XL. cbn [fst snd]. lra.
Qed.

(** ** Examples and failures on the two-span sample *)
Lemma sample_L : deck_length sample_beam = 10.
Proof. unfold deck_length, node_at. cbn. lra. Qed.
Lemma sample_positive : positive_beam (b_lengths sample_beam) (b_EIs sample_beam).
Proof. unfold positive_beam; cbn. repeat (constructor; [split; lra|]). constructor. Qed.
Lemma sample_pic lm ls us0 o us : parse_LM lm = Ok ls -> Forall (fits sample_beam) ls -> on_spans sample_beam ls -> resolve us0 (mo_units o) = Ok us ->
  exists p pic, beam_plotter sample_beam (GivenRows lm) = Ok p /\ placed sample_beam (pl_loads p) /\ render_mpl g uni us0 p o = Ok pic /\
    foldM (draw_load (b_terminal sample_beam) (b_lengths sample_beam)) ls {| dr_dist := []; dr_pts := []; dr_moms := []; dr_skip := [] |} = Ok (pl_loads p).
Proof.
  intros P F O U. destruct (sample_draws lm ls P O) as (p & B & LM). exists p.
  assert (PL : placed sample_beam (pl_loads p)) by (apply (all_placed sample_beam (GivenRows lm) p ls deck_sample B); [rewrite LM; exact P|exact F]).
  destruct (schem_total us0 sample_beam (GivenRows lm) p o us deck_sample B PL ltac:(cbn; lia) sample_positive U) as (pic & R). exists pic. split; [exact B|]. split; [exact PL|]. split; [exact R|].
  apply plotter_parts in B as (lm' & sup & d & RL & _ & IL & ->). cbn [resolve_lm] in RL. injection RL as <-. unfold infer_loads in IL. rewrite P in IL. cbn [rbind] in IL. exact IL.
Qed.

Definition all_on (u : units_arg) : mpl_opts := {| mo_dimensions := true; mo_labels := true; mo_values := true; mo_supports := true; mo_units := u |}.
Definition bare (u : units_arg) : mpl_opts := {| mo_dimensions := false; mo_labels := true; mo_values := true; mo_supports := false; mo_units := u |}.

Lemma metres_always us0 : exists p pic d, beam_plotter sample_beam (GivenRows []) = Ok p /\ render_mpl g uni us0 p (all_on (USystem US_KIP_FT)) = Ok pic /\
  sc_xlabel pic = "Distance along beam (ft)"%string /\ nth_error (sc_dims pic) 0 = Some d /\ dl_x0 d = 0 /\ dl_x1 d = 4 /\ ca_text (dl_text d) = (g 4 ++ " m")%string.
Proof.
  destruct (sample_pic [] [] us0 (all_on (USystem US_KIP_FT)) US_KIP_FT eq_refl (Forall_nil _) (Forall_nil _) eq_refl) as (p & pic & B & _ & R & _).
  destruct (dims_drawn g uni us0 _ _ _ _ _ deck_sample B R) as (_ & D). destruct (D eq_refl) as (_ & DD). destruct (DD 0%nat ltac:(cbn; lia)) as (d & N & X0 & X1 & _ & T & _).
  exists p, pic, d. split; [exact B|]. split; [exact R|]. split; [destruct (render_parts g uni us0 p _ pic R) as (us & prof & gr & dims & partial & U & _ & _ & _ & _ & _ & ->); injection U as <-; reflexivity|].
  split; [exact N|]. assert (N1 : node_at sample_beam 1 = 4) by (unfold node_at; cbn; lra). assert (N0 : node_at sample_beam 0 = 0) by reflexivity. rewrite N1, N0 in *.
  split; [exact X0|]. split; [exact X1|]. rewrite T. f_equal. f_equal. lra.
Qed.

Lemma extent_cut us0 : exists p pic pt, beam_plotter sample_beam (GivenRows [Row 1 3 [10; 1; 2]]) = Ok p /\ placed sample_beam (pl_loads p) /\ render_mpl g uni us0 p (bare UNone) = Ok pic /\ In pt (marks pic) /\ ~ inside pic pt.
Proof.
  assert (FT : Forall (fits sample_beam) [(0%Z, LPUDL 10 1 2)]) by (apply Forall_cons; [|apply Forall_nil]; exists 0%nat; cbn; repeat split; lia || lra).
  assert (OS : on_spans sample_beam [(0%Z, LPUDL 10 1 2)]) by (apply Forall_cons; [cbn; lia|apply Forall_nil]).
  destruct (sample_pic [Row 1 3 [10; 1; 2]] [(0%Z, LPUDL 10 1 2)] us0 (bare UNone) us0 eq_refl FT OS eq_refl) as (p & pic & B & PL & R & DL).
  cbn in DL. unfold add_dist, add_pt in DL; cbn [dr_dist dr_pts dr_moms dr_skip app] in DL. injection DL as DL. set (q := {| d_span := 0; d_x0 := 0 + 1; d_x1 := 0 + 1 + 2; d_w0 := 10; d_w1 := 10 |}) in *.
  exists p, pic. assert (IQ : In q (dr_dist (pl_loads p))) by (rewrite <- DL; left; reflexivity).
  assert (LF : leaves_free sample_beam q).
  { exists 0%nat. split; [reflexivity|]. cbn zeta. rewrite sample_L. rewrite Rmax_left by lra. left. unfold q. cbn [d_x0]. unfold node_at. cbn [rsum]. replace (10 ^ 6) with 1000000 by ring. lra. }
  destruct (render_parts g uni us0 p _ pic R) as (us & prof & gr & dims & partial & U & HL & _ & _ & _ & PT & E). rewrite (plotter_L _ _ _ deck_sample B), sample_L in *.
  assert (IE : In (draw_extent g (0.05 * 10) q) (sc_extents pic)).
  { rewrite E. cbn [sc_extents bare mo_values]. apply in_map. apply (filterM_in _ _ _ PT). split; [exact IQ|].
    destruct (partial_iff uni sample_beam _ p q 0 deck_sample B eq_refl ltac:(cbn; lia)) as (v & -> & V). f_equal. apply V. exact LF. }
  exists (d_x0 q, - (1.55 * (0.05 * 10))). split; [exact B|]. split; [exact PL|]. split; [exact R|]. split.
  - unfold marks. repeat rewrite in_app_iff. do 4 right. left. rewrite flat_map_app, in_app_iff. right. apply in_flat_map. eexists. split; [exact IE|]. left. reflexivity.
  - unfold inside. intros (_ & Y & _). revert Y. cbn [snd]. rewrite E. cbn [sc_ylim]. rewrite <- DL. unfold y_limits, heights_below; cbn [dr_pts dr_dist dr_moms filter map app negb bare mo_supports mo_dimensions mo_values d_w0 d_w1 q fst].
    destruct (Rltb_spec 10 0); [lra|]. cbn [orb map app]. unfold lmax; cbn [fold_right]. rewrite (Rmax_left 0 0) by lra. destruct (Rltb_spec (/ 10 ^ 12) 0) as [Q|_]; [|lra].
    exfalso. assert (0 < / 10 ^ 12) by (apply Rinv_0_lt_compat, pow_lt; lra). lra.
Qed.

Lemma trap_loads w0 w1 : foldM (draw_load (b_terminal sample_beam) (b_lengths sample_beam)) [(1%Z, LTrap w0 w1 0 (Some 6))] {| dr_dist := []; dr_pts := []; dr_moms := []; dr_skip := [] |}
  = Ok {| dr_dist := [{| d_span := 1; d_x0 := 0 + 4 + 0; d_x1 := 0 + 4 + 0 + 6; d_w0 := w0; d_w1 := w1 |}]; dr_pts := []; dr_moms := []; dr_skip := [] |}.
Proof.
  cbn [foldM]. assert (TR : trap_resolve w0 w1 0 (Some 6) 6 = (w0, w1, w1 - w0, 0, 6)).
  { unfold trap_resolve. destruct (Rleb_spec 6 0); [lra|]. cbn [orb]. destruct (Rltb_spec 6 (0 + 6)); [lra|]. reflexivity. }
  set (d0 := {| dr_dist := []; dr_pts := []; dr_moms := []; dr_skip := [] |}).
  assert (D : draw_load (b_terminal sample_beam) (b_lengths sample_beam) d0 (1%Z, LTrap w0 w1 0 (Some 6)) =
    Ok match trap_resolve w0 w1 0 (Some 6) 6 with (u, v, _, a, c) => if Rltb 0 c then add_dist d0 {| d_span := 1; d_x0 := 0 + 4 + a; d_x1 := 0 + 4 + a + c; d_w0 := u; d_w1 := v |} else d0 end) by reflexivity.
  rewrite D, TR. destruct (Rltb_spec 0 6); [|lra]. reflexivity.
Qed.
Lemma trap_fits w0 w1 : Forall (fits sample_beam) [(1%Z, LTrap w0 w1 0 (Some 6))].
Proof. apply Forall_cons; [|apply Forall_nil]. exists 1%nat. cbn. repeat split; lia || lra. Qed.
Lemma trap_on w0 w1 : on_spans sample_beam [(1%Z, LTrap w0 w1 0 (Some 6))].
Proof. apply Forall_cons; [cbn; lia|apply Forall_nil]. Qed.

Lemma wrong_way us0 : exists p pic q gl a, beam_plotter sample_beam (GivenRows [Row 2 5 [-1; 2; 0; 6]]) = Ok p /\ render_mpl g uni us0 p (all_on UNone) = Ok pic /\
  dr_dist (pl_loads p) = [q] /\ sc_dist pic = [gl] /\ In a (dg_arrows gl) /\ snd (ar_tail a) < 0 < ordinate q (fst (ar_tail a)).
Proof.
  destruct (sample_pic [Row 2 5 [-1; 2; 0; 6]] [(1%Z, LTrap (-1) 2 0 (Some 6))] us0 (all_on UNone) us0 eq_refl (trap_fits _ _) (trap_on _ _) eq_refl) as (p & pic & B & PL & R & DL).
  rewrite trap_loads in DL. injection DL as DL. destruct (render_parts g uni us0 p _ pic R) as (us & prof & gr & dims & partial & U & HL & _ & _ & _ & _ & E).
  rewrite (plotter_L _ _ _ deck_sample B), sample_L in *. rewrite <- DL in E. cbn [dr_dist map] in E. set (q := {| d_span := 1; d_x0 := 0 + 4 + 0; d_x1 := 0 + 4 + 0 + 6; d_w0 := -1; d_w1 := 2 |}) in *.
  assert (TW : top_w [q] = 2). { unfold top_w, q; cbn [fold_left d_w0 d_w1]. rewrite (Rabs_left (-1)), (Rabs_pos_eq 2) by lra. rewrite (Rmax_right (- -1) 2) by lra. apply Rmax_right. lra. }
  rewrite TW in E. exists p, pic, q, (draw_dist g us 10 2 true q).
  assert (H0 : dist_height 10 2 (-1) = - (0.7 * 0.675)).
  { unfold dist_height. destruct (Reqb_spec 2 0); [lra|]. destruct (sgn_cases (-1)) as [(S & _)|[(S & ->)|(S & _)]]; try lra. rewrite (Rabs_left (-1)) by lra. lra. }
  assert (H1 : dist_height 10 2 2 = 0.7).
  { unfold dist_height. destruct (Reqb_spec 2 0); [lra|]. destruct (sgn_cases 2) as [(S & ->)|[(S & _)|(S & _)]]; try lra. rewrite (Rabs_pos_eq 2) by lra. lra. }
  assert (GP : dist_gaps 10 (0 + 4 + 0) (0 + 4 + 0 + 6) = 10%nat).
  { unfold dist_gaps. destruct (Rltb_spec (0 + 4 + 0) (0 + 4 + 0 + 6)); [|lra]. replace ((0 + 4 + 0 + 6 - (0 + 4 + 0)) / (0.06 * 10)) with 10 by lra.
    destruct (trunc_bounds 10 ltac:(lra)) as (T0 & T1). replace (trunc 10) with 10%Z; [reflexivity|]. apply le_IZR in T0. assert (T1' : IZR 10 < IZR (trunc 10 + 1)) by (rewrite plus_IZR; exact T1). apply lt_IZR in T1'. lia. }
  exists {| ar_tail := (0 + 4 + 0 + INR 4 * (6 / INR 10), - (0.7 * 0.675) + (0.7 - - (0.7 * 0.675)) * (0.4)); ar_head := (0 + 4 + 0 + INR 4 * (6 / INR 10), 0) |}.
  split; [exact B|]. split; [exact R|]. split; [rewrite <- DL; reflexivity|]. split; [rewrite E; reflexivity|]. cbn [ar_tail fst snd]. split.
  - unfold draw_dist; cbn [dg_arrows d_x0 d_x1 d_w0 d_w1 q]. rewrite GP, H0, H1.
    assert (I4 : INR 4 = 4) by (cbn; lra). assert (I10 : INR 10 = 10) by (cbn; lra).
    assert (AT : (if Reqb (0 + 4 + 0 + 6) (0 + 4 + 0) then - (0.7 * 0.675) else - (0.7 * 0.675) + (0.7 - - (0.7 * 0.675)) * (0 + 4 + 0 + INR 4 * (6 / INR 10) - (0 + 4 + 0)) / (0 + 4 + 0 + 6 - (0 + 4 + 0))) = - (0.7 * 0.675) + (0.7 - - (0.7 * 0.675)) * 0.4).
    { destruct (Reqb_spec (0 + 4 + 0 + 6) (0 + 4 + 0)); [lra|]. rewrite I4, I10. lra. }
    apply in_map_iff. exists (0 + 4 + 0 + INR 4 * (6 / INR 10)). rewrite AT. split; [reflexivity|]. apply filter_In. rewrite AT. split.
    + unfold linspace. apply in_map_iff. exists 4%nat. split; [|apply in_seq; lia]. replace (10 + 1 - 1)%nat with 10%nat by lia. rewrite I4, I10. lra.
    + destruct (Rltb_spec (Rabs (- (0.7 * 0.675) + (0.7 - - (0.7 * 0.675)) * 0.4)) (/ 10 ^ 9)) as [Q|_]; [|reflexivity]. exfalso. rewrite Rabs_left in Q by lra. lra.
  - split; [lra|]. assert (I4 : INR 4 = 4) by (cbn; lra). assert (I10 : INR 10 = 10) by (cbn; lra). rewrite I4, I10. unfold ordinate, q; cbn [d_x0 d_x1 d_w0 d_w1].
    destruct (Rlt_dec _ _); [lra|]. destruct (Rlt_dec _ _); [lra|]. lra.
Qed.

Lemma same_label us0 : exists p pic gl at_ p' pic' gl' at_', beam_plotter sample_beam (GivenRows [Row 2 5 [-5; 5; 0; 6]]) = Ok p /\ render_mpl g uni us0 p (all_on UNone) = Ok pic /\
  sc_dist pic = [gl] /\ dg_text gl = Some {| ca_at := at_; ca_text := worth (g 5) (us_distributed us0) |} /\
  beam_plotter sample_beam (GivenRows [Row 2 1 [5]]) = Ok p' /\ render_mpl g uni us0 p' (all_on UNone) = Ok pic' /\
  sc_dist pic' = [gl'] /\ dg_text gl' = Some {| ca_at := at_'; ca_text := worth (g 5) (us_distributed us0) |}.
Proof.
  destruct (sample_pic [Row 2 5 [-5; 5; 0; 6]] [(1%Z, LTrap (-5) 5 0 (Some 6))] us0 (all_on UNone) us0 eq_refl (trap_fits _ _) (trap_on _ _) eq_refl) as (p & pic & B & PL & R & DL).
  rewrite trap_loads in DL. injection DL as DL. destruct (render_parts g uni us0 p _ pic R) as (us & prof & gr & dims & partial & U & HL & _ & _ & _ & _ & E). injection U as <-.
  assert (FT : Forall (fits sample_beam) [(1%Z, LUDL 5)]) by (apply Forall_cons; [|apply Forall_nil]; exists 1%nat; cbn; repeat split; lia || lra).
  assert (OS : on_spans sample_beam [(1%Z, LUDL 5)]) by (apply Forall_cons; [cbn; lia|apply Forall_nil]).
  destruct (sample_pic [Row 2 1 [5]] [(1%Z, LUDL 5)] us0 (all_on UNone) us0 eq_refl FT OS eq_refl) as (p' & pic' & B' & PL' & R' & DL').
  cbn in DL'. unfold add_dist, add_pt in DL'; cbn [dr_dist dr_pts dr_moms dr_skip app] in DL'. injection DL' as DL'. destruct (render_parts g uni us0 p' _ pic' R') as (us & prof' & gr' & dims' & partial' & U & HL' & _ & _ & _ & _ & E'). injection U as <-.
  rewrite <- DL in E. rewrite <- DL' in E'. cbn [dr_dist map] in E, E'.
  assert (A5 : Rabs (-5) = 5) by (rewrite Rabs_left; lra). assert (B5 : Rabs 5 = 5) by (apply Rabs_pos_eq; lra). assert (P9 : 0 < / 10 ^ 9) by (apply Rinv_0_lt_compat, pow_lt; lra).
  do 2 eexists. do 2 eexists. do 2 eexists. do 2 eexists. split; [exact B|]. split; [exact R|]. split; [rewrite E; reflexivity|]. split.
  { unfold draw_dist; cbn [dg_text all_on mo_values d_w0 d_w1]. destruct (Rltb_spec (Rabs (-5 - 5)) (/ 10^9)) as [Q|_]; [exfalso; rewrite Rabs_left in Q by lra; lra|].
    unfold fmt_distributed. rewrite A5, B5. destruct (Reqb_spec 5 5); [|lra]. rewrite worth_val. reflexivity. }
  split; [exact B'|]. split; [exact R'|]. split; [rewrite E'; reflexivity|].
  unfold draw_dist; cbn [dg_text all_on mo_values d_w0 d_w1]. destruct (Rltb_spec (Rabs (5 - 5)) (/ 10^9)) as [_|Q]; [|exfalso; apply Q; replace (5 - 5) with 0 by lra; rewrite Rabs_R0; exact P9].
  unfold fmt_distributed. rewrite B5, worth_val. reflexivity.
Qed.

Lemma nothing_drawn us0 : exists p pic gl, beam_plotter sample_beam (GivenRows [Row 2 2 [0; 2]]) = Ok p /\ render_mpl g uni us0 p (all_on UNone) = Ok pic /\
  sc_points pic = [gl] /\ reach gl = 0.16 * deck_length sample_beam.
Proof.
  assert (FT : Forall (fits sample_beam) [(1%Z, LPL 0 2)]) by (apply Forall_cons; [|apply Forall_nil]; exists 1%nat; cbn; repeat split; lia || lra).
  assert (OS : on_spans sample_beam [(1%Z, LPL 0 2)]) by (apply Forall_cons; [cbn; lia|apply Forall_nil]).
  destruct (sample_pic [Row 2 2 [0; 2]] [(1%Z, LPL 0 2)] us0 (all_on UNone) us0 eq_refl FT OS eq_refl) as (p & pic & B & PL & R & DL).
  cbn in DL. unfold add_dist, add_pt in DL; cbn [dr_dist dr_pts dr_moms dr_skip app] in DL. injection DL as DL. destruct (render_parts g uni us0 p _ pic R) as (us & prof & gr & dims & partial & U & HL & _ & _ & _ & _ & E). rewrite (plotter_L _ _ _ deck_sample B) in *.
  rewrite <- DL in E. cbn [dr_pts map] in E. do 3 eexists. split; [exact B|]. split; [exact R|]. split; [rewrite E; reflexivity|].
  rewrite reach_length; [|exact HL|apply top_P_nonneg|apply top_P_ge; left; reflexivity].
  assert (TP : forall sp x, top_P [{| p_span := sp; p_x := x; p_P := 0 |}] = 0) by (intros; unfold top_P; cbn [fold_left p_P]; rewrite Rabs_R0; apply Rmax_left; lra).
  match goal with |- arrow_length _ ?t _ = _ => replace t with 0 by (symmetry; apply TP) end. unfold arrow_length. destruct (Reqb_spec 0 0); [ring|lra].
Qed.

Lemma label_inside us0 : exists p pic gl c, beam_plotter sample_beam (GivenRows [Row 1 1 [-10]]) = Ok p /\ render_mpl g uni us0 p (all_on UNone) = Ok pic /\
  sc_dist pic = [gl] /\ dg_text gl = Some c /\ left_height gl = right_height gl /\ left_height gl < snd (ca_at c) < 0.
Proof.
  assert (FT : Forall (fits sample_beam) [(0%Z, LUDL (-10))]) by (apply Forall_cons; [|apply Forall_nil]; exists 0%nat; cbn; repeat split; lia || lra).
  assert (OS : on_spans sample_beam [(0%Z, LUDL (-10))]) by (apply Forall_cons; [cbn; lia|apply Forall_nil]).
  destruct (sample_pic [Row 1 1 [-10]] [(0%Z, LUDL (-10))] us0 (all_on UNone) us0 eq_refl FT OS eq_refl) as (p & pic & B & PL & R & DL).
  cbn in DL. unfold add_dist, add_pt in DL; cbn [dr_dist dr_pts dr_moms dr_skip app] in DL. injection DL as DL. destruct (render_parts g uni us0 p _ pic R) as (us & prof & gr & dims & partial & U & HL & _ & _ & _ & _ & E). rewrite (plotter_L _ _ _ deck_sample B), sample_L in *.
  rewrite <- DL in E. cbn [dr_dist map] in E. do 4 eexists. split; [exact B|]. split; [exact R|]. split; [rewrite E; reflexivity|]. split; [reflexivity|].
  unfold left_height, right_height, draw_dist; cbn [dg_top fst snd ca_at d_w0 d_w1].
  assert (TW : forall sp x0 x1, top_w [{| d_span := sp; d_x0 := x0; d_x1 := x1; d_w0 := -10; d_w1 := -10 |}] = 10).
  { intros. unfold top_w; cbn [fold_left d_w0 d_w1]. rewrite (Rabs_left (-10)) by lra. rewrite (Rmax_left (- -10) (- -10)) by lra. rewrite Rmax_right; lra. }
  match goal with |- context [top_w ?l] => replace (top_w l) with 10 by (symmetry; apply TW) end.
  assert (H0 : dist_height 10 10 (-10) = - 0.7).
  { unfold dist_height. destruct (Reqb_spec 10 0); [lra|]. destruct (sgn_cases (-10)) as [(S & _)|[(S & ->)|(S & _)]]; try lra. rewrite (Rabs_left (-10)) by lra. lra. }
  rewrite H0. rewrite Rmax_left by lra. lra.
Qed.
End G.

(** Two depths, the second member on the ground. *)
Definition stepped_beam : beam :=
  {| b_lengths := [4; 6]; b_EIs := [RConst 8; RConst 1]; b_GAv := [None; None]; b_kf := [None; Some 3];
     b_types := [1%nat; 1%nat]; b_nspans := 2; b_length := 0 + 4 + 6; b_terminal := [0; 0 + 4; 0 + 4 + 6];
     b_R := [-1; -1; -1; 0; 3; 0]; b_D := [None; None; None; None; None; None]; b_LM := []; b_version := 2 |}.
Lemma stepped_drawn g uni us0 : exists p pic pts gr, deck stepped_beam /\ beam_plotter stepped_beam (GivenRows []) = Ok p /\ positive_beam (b_lengths stepped_beam) (b_EIs stepped_beam) /\
  length (b_kf stepped_beam) = b_nspans stepped_beam /\ render_mpl g uni us0 p (all_on UNone) = Ok pic /\ sc_beam pic = Some pts /\ pts <> [] /\ sc_grounds pic = [gr].
Proof.
  assert (K : deck stepped_beam) by (constructor; [reflexivity|reflexivity|reflexivity|cbn; lia|]; cbn; repeat (apply Forall_cons || apply Forall_nil); lra).
  assert (PB : positive_beam (b_lengths stepped_beam) (b_EIs stepped_beam)) by (unfold positive_beam; cbn; repeat (constructor; [split; lra|]); constructor).
  destruct (draws stepped_beam (GivenRows []) [] [] K eq_refl eq_refl eq_refl (Forall_nil _)) as (p & B & LM).
  assert (PL : placed stepped_beam (pl_loads p)) by (apply (all_placed stepped_beam (GivenRows []) p [] K B); [rewrite LM; reflexivity|constructor]).
  destruct (schem_total g uni us0 stepped_beam (GivenRows []) p (all_on UNone) us0 K B PL ltac:(cbn; lia) PB eq_refl) as (pic & R).
  assert (F := founds_drawn g uni us0 _ _ _ _ _ K B eq_refl R). cbn [all_on mo_supports] in F. change (filter (founded stepped_beam) (seq 0 (b_nspans stepped_beam))) with [1%nat] in F.
  inversion F as [|? gr ? ? _ F']; subst. inversion F'; subst.
  destruct (render_parts g uni us0 p _ pic R) as (us & prof & gr' & dims & partial & U & _ & DP & _ & _ & _ & E).
  assert (PN : exists pts, prof = Some pts /\ pts <> []).
  { assert (PBm : pl_beam p = stepped_beam) by (apply plotter_parts in B as (lm' & sup & d & RL & _ & IL & ->); reflexivity).
    rewrite PBm in DP. unfold depth_profile in DP. cbn [stepped_beam b_lengths b_EIs all_samples depth_samples rbind app map snd EnvelopeModel.row_max EnvelopeModel.row_min fold_left] in DP.
    rewrite !(Rmax_left 8), !(Rmin_left 8 8), (Rmin_right 8 1), (Rmin_left 1 1) in DP by lra. destruct (Rleb_spec 8 0); [lra|]. destruct (Rleb_spec (8 - 1) (1e-6 * 8)); [lra|]. cbn [orb] in DP.
    injection DP as <-. eexists. split; [reflexivity|discriminate]. }
  destruct PN as (pts & -> & NE). exists p, pic, pts, gr. repeat (split; [first [exact K|exact B|exact PB|reflexivity|exact R]|]). split; [rewrite E; reflexivity|]. split; [exact NE|]. symmetry. assumption.
Qed.
