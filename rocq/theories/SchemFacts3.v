(** Proofs: everything drawn lies within the limits of the axes. *)
From Coq Require Import ZArith String Ascii.
From Verif Require Import Base BaseFacts SectionModel LoadModel ElementModel BeamModel BeamSpec AnalysisSpec FoundationModel FoundFacts4 BridgeModel UnitsModel BridgeSpec RenderModel RenderSpec RenderFacts RenderFacts2
  InPlotModel SchemModel SchemSpec SchemFacts SchemFacts2.
Local Notation length := List.length.
Local Open Scope list_scope.
Open Scope R_scope.

Lemma lmax_in l x : In x l -> x <= lmax l.
Proof. induction l as [|a l IH]; intros I; [contradiction|]. unfold lmax; cbn [fold_right]. destruct I as [->|I]; [apply Rmax_l|]. specialize (IH I). fold (lmax l). pose proof (Rmax_r a (lmax l)). lra. Qed.
Lemma cos50 : 0 <= cos (radians 50) <= 0.7072.
Proof.
  unfold radians. pose proof PI_RGT_0. split; [apply cos_ge_0; lra|]. apply Rle_trans with (cos (PI / 4)); [apply cos_decr_1; lra|]. rewrite cos_PI4.
  assert (S : 0 < sqrt 2) by (apply sqrt_lt_R0; lra). pose proof (sqrt_def 2 ltac:(lra)) as D. apply (Rmult_le_reg_r (sqrt 2)); [exact S|]. unfold Rdiv. rewrite Rmult_assoc, Rinv_l by lra. nra.
Qed.
Lemma cos230 : cos (radians 230) = - cos (radians 50).
Proof. replace (radians 230) with (radians 50 + PI) by (unfold radians; field). apply neg_cos. Qed.
Lemma cosm50 : cos (radians (-50)) = cos (radians 50).
Proof. replace (radians (-50)) with (- radians 50) by (unfold radians; field). apply cos_neg. Qed.

Section G.
Variable g : R -> string.
Variable uni : nat -> string.

Lemma limits_shown us0 b s p o pic : deck b -> / 10^10 < deck_length b -> beam_plotter b s = Ok p -> placed b (pl_loads p) -> (length (b_kf b) <= b_nspans b)%nat ->
  render_mpl g uni us0 p o = Ok pic ->
  mo_supports o = true \/ (sc_dims pic = [] /\ sc_extents pic = []) -> Forall (inside pic) (marks pic) /\ forall gl t, In gl (sc_moments pic) -> inside pic (circle_point gl t).
Proof.
  intros K LL B PL LK H HS. destruct (plotter_x b s p B) as (X & BB). destruct (render_parts g uni us0 p o pic H) as (us & prof & gr & dims & partial & U & HL & _ & F & D & PT & E).
  assert (EL : pl_L p = deck_length b) by exact (plotter_L b s p K B). rewrite EL in *.
  set (L := deck_length b) in *. set (d := pl_loads p) in *. set (pm := top_P (dr_pts d)) in *. set (wm := top_w (dr_dist d)) in *.
  assert (P12 : / 10^12 < 0.045 * L). { assert (/ 10^12 = / 10^10 * / 100) by (field). lra. }
  set (A := lmax (heights_above L pm d)). set (C := lmax (heights_below L pm d)).
  assert (A0 : 0 <= A) by (apply lmax_in; left; reflexivity). assert (C0 : 0 <= C) by (apply lmax_in; left; reflexivity).
  set (ymin := fst (sc_ylim pic)). set (ymax := snd (sc_ylim pic)).
  assert (YM : ymax = A + if no_loads d then 0.9 * (0.05 * L) else 1.4 * (0.05 * L)) by (unfold ymax; rewrite E; reflexivity).
  assert (YB : / 10^12 < C -> ymin <= - (C + 1.4 * (0.05 * L))).
  { intros HC. unfold ymin. rewrite E. cbn [sc_ylim y_limits]. unfold y_limits. cbn [fst]. fold C. destruct (Rltb_spec (/ 10^12) C); [|contradiction]. apply Rmin_r. }
  assert (YS : forall v, (if negb (mo_supports o) then - (0.3 * (0.05 * L)) else if mo_dimensions o then - (3 * (0.05 * L))
             else if (mo_values o && negb (Nat.eqb (length partial) 0))%bool then - (2.2 * (0.05 * L)) else - (1.6 * (0.05 * L))) <= v -> ymin <= v).
  { intros v HV. unfold ymin. rewrite E. cbn [sc_ylim y_limits]. unfold y_limits. cbn [fst]. fold C. destruct (Rltb_spec (/ 10^12) C); [|exact HV]. eapply Rle_trans; [apply Rmin_l|exact HV]. }
  assert (Y0 : ymin <= 0). { apply YS. destruct (mo_supports o), (mo_dimensions o), (mo_values o), (Nat.eqb (length partial) 0); cbn; lra. }
  assert (M0 : 0 <= ymax) by (rewrite YM; destruct (no_loads d); lra).
  assert (IN : forall x y, - (0.06 * L) <= x <= 1.06 * L -> ymin <= y <= ymax -> inside pic (x, y)).
  { intros x y HX HY. unfold inside. fold ymin ymax. rewrite E at 1 2. cbn [sc_xlim fst snd]. split; assumption. }
  assert (PTS : forall q, In q (dr_pts d) -> 0 <= p_x q <= L /\ no_loads d = false /\ 0.088 * L <= arrow_length L pm (p_P q) /\
     (0 <= p_P q -> arrow_length L pm (p_P q) <= A) /\ (p_P q < 0 -> arrow_length L pm (p_P q) <= C)).
  { intros q I. destruct (pc_pts b _ PL q I) as (m & Hm & _ & IS). split; [exact (in_span_within b m _ K Hm IS)|]. split; [unfold no_loads; destruct (dr_pts d); [contradiction|reflexivity]|].
    split; [apply arrow_length_bounds; [lra|apply top_P_nonneg|apply top_P_ge; exact I]|]. split; intros S.
    - apply lmax_in. unfold heights_above. right. apply in_or_app. left. apply in_map_iff. exists q. split; [reflexivity|]. apply filter_In. split; [exact I|]. destruct (Rleb_spec 0 (p_P q)); [reflexivity|lra].
    - apply lmax_in. unfold heights_below. right. apply in_or_app. left. apply in_map_iff. exists q. split; [reflexivity|]. apply filter_In. split; [exact I|]. destruct (Rleb_spec 0 (p_P q)); [lra|reflexivity]. }
  assert (DST : forall q, In q (dr_dist d) -> 0 <= d_x0 q <= L /\ 0 <= d_x1 q <= L /\ d_x0 q <= d_x1 q /\ no_loads d = false /\
     forall w, w = d_w0 q \/ w = d_w1 q -> Rabs (dist_height L wm w) <= 0.07 * L /\ (0 < dist_height L wm w -> 0.07 * L <= A) /\ (dist_height L wm w < 0 -> 0.07 * L <= C)).
  { intros q I. destruct (pc_dist b _ PL q I) as (m & Hm & _ & I0 & I1 & O). split; [exact (in_span_within b m _ K Hm I0)|]. split; [exact (in_span_within b m _ K Hm I1)|]. split; [exact O|].
    split; [unfold no_loads; destruct (dr_pts d), (dr_dist d); trivial; contradiction|]. destruct (top_w_ge _ _ I) as (W0 & W1). fold wm in W0, W1.
    intros w W. assert (WW : Rabs w <= wm) by (destruct W as [-> | ->]; assumption). destruct (height_side L wm w HL WW) as ((S1 & S2 & S3) & HB). split; [exact HB|]. split; intros HH.
    - assert (0 <= w). { destruct (Rle_dec 0 w); [assumption|]. assert (w < 0) by lra. specialize (S2 H0). lra. }
      apply lmax_in. unfold heights_above. right. apply in_or_app. right. apply in_or_app. left. apply in_map_iff. exists q. split; [reflexivity|]. apply filter_In. split; [exact I|].
      destruct W as [-> | ->]; [destruct (Rleb_spec 0 (d_w0 q)); [reflexivity|lra]|]. destruct (Rleb_spec 0 (d_w1 q)); [apply Bool.orb_true_r|lra].
    - assert (w < 0). { destruct (Rtotal_order w 0) as [G|[G|G]]; [assumption| |]; [specialize (S3 G)|specialize (S1 G)]; lra. }
      apply lmax_in. unfold heights_below. right. apply in_or_app. right. apply in_or_app. left. apply in_map_iff. exists q. split; [reflexivity|]. apply filter_In. split; [exact I|].
      destruct W as [-> | ->]; [destruct (Rltb_spec (d_w0 q) 0); [reflexivity|lra]|]. destruct (Rltb_spec (d_w1 q) 0); [apply Bool.orb_true_r|lra]. }
  assert (MOM : forall q, In q (dr_moms d) -> 0 <= m_x q <= L /\ no_loads d = false /\ 0.045 * L <= A /\ 0.045 * L <= C).
  { intros q I. destruct (pc_moms b _ PL q I) as (m & Hm & _ & IS). split; [exact (in_span_within b m _ K Hm IS)|].
    split; [unfold no_loads; destruct (dr_pts d), (dr_dist d), (dr_moms d); trivial; contradiction|].
    split; apply lmax_in; right; apply in_or_app; right; apply in_or_app; right; apply in_map_iff; exists q; auto. }
  split.
  2:{ intros gl t I. rewrite E in I. cbn [sc_moments] in I. apply in_map_iff in I as (q & <- & I). destruct (MOM q I) as (MX & NL & MA & MC). rewrite NL in YM. specialize (YB ltac:(lra)).
      unfold circle_point, draw_moment; cbn [mg_centre mg_radius fst snd]. pose proof (COS_bound (t * PI / 180)). pose proof (SIN_bound (t * PI / 180)). apply IN; nra. }
  unfold marks. apply Forall_forall. intros pt I. repeat rewrite in_app_iff in I.
  destruct I as [I|[I|[I|[I|[I|I]]]]].
  - (* forces *)
    apply in_flat_map in I as (gl & G & I). rewrite E in G. cbn [sc_points] in G. apply in_map_iff in G as (q & <- & G). destruct (PTS q G) as (PX & NL & LN & UP & DN). rewrite NL in YM.
    unfold draw_point in I; cbn [pg_arrow pg_text arrow_points ar_tail ar_head] in I. apply in_app_or in I as [I|I].
    + destruct I as [<-|[<-|[]]]; [|apply IN; lra]. apply IN; [lra|]. destruct (Rleb_spec 0 (p_P q)) as [S|S]; [specialize (UP S); lra|].
      assert (S' : p_P q < 0) by lra. specialize (DN S'). specialize (YB ltac:(lra)). lra.
    + destruct (mo_values o); [|destruct I]. destruct I as [<-|[]]. cbn [ca_at]. apply IN; [lra|]. destruct (Rleb_spec 0 (p_P q)) as [S|S]; [specialize (UP S); lra|].
      assert (S' : p_P q < 0) by lra. specialize (DN S'). specialize (YB ltac:(lra)). lra.
  - (* distributed *)
    apply in_flat_map in I as (gl & G & I). rewrite E in G. cbn [sc_dist] in G. apply in_map_iff in G as (q & <- & G). destruct (DST q G) as (X0 & X1 & XO & NL & HH). rewrite NL in YM.
    destruct (HH _ (or_introl eq_refl)) as (B0 & U0 & D0). destruct (HH _ (or_intror eq_refl)) as (B1 & U1 & D1). clear HH.
    unfold draw_dist in I; cbn [dg_area dg_arrows dg_text] in I. set (h0 := dist_height L wm (d_w0 q)) in *. set (h1 := dist_height L wm (d_w1 q)) in *.
    assert (RNG : forall h, Rabs h <= 0.07 * L -> (0 < h -> 0.07 * L <= A) -> (h < 0 -> 0.07 * L <= C) -> ymin <= h <= A).
    { intros h HB HU HD. apply Rabs_le_between in HB || (unfold Rabs in HB; destruct (Rcase_abs h)).
      all: destruct (Rtotal_order h 0) as [S|[S|S]]; [specialize (HD S); specialize (YB ltac:(lra)); lra|lra|specialize (HU S); lra]. }
    pose proof (RNG h0 B0 U0 D0) as R0. pose proof (RNG h1 B1 U1 D1) as R1.
    apply in_app_or in I as [I|I]; [|apply in_app_or in I as [I|I]].
    + destruct I as [<-|[<-|[<-|[<-|[]]]]]; apply IN; lra.
    + apply in_flat_map in I as (a & I & IA). apply in_map_iff in I as (x & <- & I). apply filter_In in I as (I & _).
      unfold linspace in I. apply in_map_iff in I as (k & <- & KK). apply in_seq in KK. pose proof (gaps_two L (d_x0 q) (d_x1 q)) as G2. set (n := dist_gaps L (d_x0 q) (d_x1 q)) in *.
      replace (n + 1 - 1)%nat with n in IA by lia. assert (NP : 0 < INR n) by (apply lt_0_INR; lia).
      assert (T : 0 <= INR k / INR n <= 1).
      { pose proof (pos_INR k). assert (INR k <= INR n) by (apply le_INR; lia). split; [apply Rmult_le_pos; [assumption|left; apply Rinv_0_lt_compat; assumption]|].
        apply (Rmult_le_reg_r (INR n)); [assumption|]. unfold Rdiv. rewrite Rmult_assoc, Rinv_l by lra. lra. }
      replace (d_x0 q + INR k * ((d_x1 q - d_x0 q) / INR n)) with (d_x0 q + (d_x1 q - d_x0 q) * (INR k / INR n)) in IA by (field; lra).
      set (t := INR k / INR n) in *. cbn [arrow_points ar_tail ar_head] in IA.
      assert (XT : 0 <= d_x0 q + (d_x1 q - d_x0 q) * t <= L) by nra.
      destruct IA as [<-|[<-|[]]]; apply IN; try lra. destruct (Reqb_spec (d_x1 q) (d_x0 q)) as [Q|Q]; [lra|].
      replace ((h1 - h0) * (d_x0 q + (d_x1 q - d_x0 q) * t - d_x0 q) / (d_x1 q - d_x0 q)) with ((h1 - h0) * t) by (field; lra). nra.
    + destruct (mo_values o); [|destruct I]. destruct I as [<-|[]]. cbn [ca_at]. apply IN; [lra|]. pose proof (Rmax_l h0 h1). assert (Rmax h0 h1 <= A) by (apply Rmax_lub; lra). lra.
  - (* moments *)
    apply in_flat_map in I as (gl & G & I). rewrite E in G. cbn [sc_moments] in G. apply in_map_iff in G as (q & <- & G). destruct (MOM q G) as (MX & NL & MA & MC). rewrite NL in YM. specialize (YB ltac:(lra)).
    unfold draw_moment in I; cbn [mg_tick mg_tip mg_back mg_text fst snd] in I.
    set (a := radians (if Rleb 0 (m_M q) then 230 else -50)) in *.
    assert (CA : - 0.7072 <= cos a <= 0.7072) by (pose proof cos50; unfold a; destruct (Rleb 0 (m_M q)); [rewrite cos230|rewrite cosm50]; lra). pose proof (SIN_bound a) as SA.
    set (e := a + (if Rleb 0 (m_M q) then PI / 2 else - (PI / 2)) + PI) in *.
    pose proof (COS_bound (e + radians 22)). pose proof (SIN_bound (e + radians 22)). pose proof (COS_bound (e - radians 22)). pose proof (SIN_bound (e - radians 22)).
    apply in_app_or in I as [I|I].
    + destruct I as [<-|[<-|[<-|[<-|[<-|[]]]]]]; apply IN; nra.
    + destruct (mo_values o); [|destruct I]. destruct I as [<-|[]]. cbn [ca_at]. apply IN; lra.
  - (* letters *)
    apply in_map_iff in I as (c & <- & I). rewrite E in I. cbn [sc_letters] in I. destruct (mo_labels o && mo_supports o)%bool eqn:MB; [|destruct I]. apply andb_prop in MB as (_ & MS). rewrite MS in YS.
    apply in_map_iff in I as (su & <- & I). cbn [draw_letter fst ca_at].
    assert (SX : 0 <= s_x su <= L).
    { apply plotter_parts in B as (lm & sup & dd & _ & S & _ & EP). rewrite EP in I. cbn [pl_supports] in I. pose proof (support_place _ _ _ S _ I) as SP. rewrite (dk_term b K) in SP.
      apply in_map_iff in SP as (i & <- & Hi). apply in_seq in Hi. apply node_within; [exact K|lia]. }
    apply IN; [destruct (s_right su); lra|]. split; [|rewrite YM; destruct (no_loads d); lra]. apply YS. cbn. destruct (mo_dimensions o), (mo_values o), (Nat.eqb (length partial) 0); cbn; lra.
  - (* dimensions *)
    rewrite flat_map_app, in_app_iff in I. destruct HS as [MS|(ED & EE)]; [|exfalso; rewrite ED, EE in I; destruct I as [[]|[]]].
    rewrite MS in YS. cbn [negb] in YS. rewrite E in I. cbn [sc_dims sc_extents] in I.
    destruct I as [I|I].
    + apply in_flat_map in I as (dl & G & I). destruct (mo_dimensions o) eqn:MD; [|injection D as <-; destruct G]. apply (dims_parts g p _ dims b s K B) in D as ->. apply in_map_iff in G as (i & <- & Hi). apply in_seq in Hi.
      pose proof (node_within b i K ltac:(lia)) as N0. pose proof (node_within b (S i) K ltac:(lia)) as N1. fold L in N0, N1.
      unfold dimension in I; unfold dim_points in I; cbn [dl_x0 dl_x1 dl_y dl_tick dl_text ca_at] in I.
      destruct I as [<-|[<-|[<-|[<-|[<-|[<-|[<-|[]]]]]]]]; (apply IN; [lra|split; [apply YS; lra|rewrite YM; destruct (no_loads d); lra]]).
    + apply in_flat_map in I as (dl & G & I). destruct (mo_values o) eqn:MV; [|destruct G]. apply in_map_iff in G as (q & <- & Hq). apply (filterM_in _ _ _ PT) in Hq as HQ. destruct HQ as (HQ & _). destruct (DST q HQ) as (X0 & X1 & _ & _ & _).
      assert (NZ : Nat.eqb (length partial) 0 = false) by (destruct partial; [destruct Hq|reflexivity]). rewrite NZ in YS. cbn [negb andb] in YS.
      unfold draw_extent, dimension in I; unfold dim_points in I; cbn [dl_x0 dl_x1 dl_y dl_tick dl_text ca_at] in I.
      destruct I as [<-|[<-|[<-|[<-|[<-|[<-|[<-|[]]]]]]]]; (apply IN; [lra|split; [apply YS; destruct (mo_dimensions o); lra|rewrite YM; destruct (no_loads d); lra]]).
  - (* foundations *)
    apply in_flat_map in I as (gd & G & I). rewrite E in G. cbn [sc_grounds] in G. destruct (mo_supports o); [|injection F as <-; destruct G].
    unfold draw_foundations, numbered in F. rewrite BB in F. apply rbind_ok in F as (gs & F & E2). injection E2 as <-.
    assert (X' : pl_x p = b_terminal b) by exact X. destruct (founds_walk b p (0.05 * L) K X' ltac:(lra) (b_kf b) 0 gs ltac:(lia) F) as (W & Y).
    rewrite Forall_forall in Y. specialize (Y gd G). destruct (In_nth_error _ _ G) as (j & GJ).
    assert (exists m, (m < b_nspans b)%nat /\ ground_shown b m gd) as (m & Hm & (G1 & G2 & _)).
    { clear - W GJ LK. revert j GJ. assert (AL : forall m, In m (filter (fun m => match nth_error (b_kf b) (m - 0) with Some (Some _) => true | _ => false end) (seq 0 (length (b_kf b)))) -> (m < b_nspans b)%nat).
      { intros m I. apply filter_In in I as (I & _). apply in_seq in I. lia. }
      revert AL. induction W as [|m gd0 ms gds S W IH]; intros AL j GJ; [destruct j; discriminate|]. destruct j as [|j]; cbn [nth_error] in GJ.
      - injection GJ as ->. exists m. split; [apply AL; left; reflexivity|exact S].
      - apply (IH ltac:(intros m0 I; apply AL; right; exact I) j GJ). }
    pose proof (node_within b m K ltac:(lia)) as N0. pose proof (node_within b (S m) K ltac:(lia)) as N1. fold L in N0, N1. cbn [negb] in YS.
    destruct I as [<-|[<-|[]]]; rewrite ?G1, ?G2, Y; (apply IN; [lra|split; [apply YS; destruct (mo_dimensions o), (mo_values o), (Nat.eqb (length partial) 0); cbn; lra|rewrite YM; destruct (no_loads d); lra]]).
Qed.
End G.
